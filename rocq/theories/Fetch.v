(** Copying results from the server into the testbed and looking at them there
    (dp/testbed/fetch.py, query.py, extract.py, run.py, invoke.py), and asking the server for an
    audit out of turn (dp/server/whatif.py). *)
From Coq Require Import List ZArith Bool String Ascii.
From Verif Require Import Prelude Paths Catalog Testbed Server.
Import ListNotations.
Local Open Scope string_scope.

(** ** Fetching *)

(** a row of the server's table of results, as dp/testbed/fetch.py:54-77 reads it. [None] is NULL;
    [m_rest] are the columns that are only copied, [None] if one that may not be NULL is *)
Record remote := mkRemote { m_key : tkey; m_run : Z; m_active : bool; m_result : option string; m_input : option string; m_rest : option outcome }.
(** a row of the table server_data, dp/testbed/db.py:8-26 *)
Record copied := mkCopied { l_key : tkey; l_run : Z; l_result : string; l_input : string; l_rest : outcome }.

(** fetch.py:18-20, 94-109: the run asked for. [answer] is what is typed when asked, [None] if it
    is not a number. A run 0 is no run, dp/testbed/fetch.py:101 *)
Definition asked_run (latest : bool) (run answer : option Z) : res (option Z) :=
  if latest then Ok None
  else match run with
       | Some 0%Z | None => match answer with Some n => Ok (Some n) | None => Err ValueErr end
       | Some n => Ok (Some n)
       end.
(** fetch.py:27-30, 73-76: the rows of a run, or those that are active *)
Definition of_run (run : option Z) (r : remote) : bool := match run with Some n => (m_run r =? n)%Z | None => m_active r end.
(** fetch.py:24-39: the number that is announced *)
Definition announced (run : option Z) (rows : list remote) : nat := List.length (filter (of_run run) rows).
(** fetch.py:72-76 *)
Definition wanted (run : option Z) (r : remote) : bool := match m_result r with Some _ => of_run run r | None => false end.
Definition copy_of (r : remote) : option copied :=
  match m_result r, m_input r, m_rest r with Some a, Some b, Some o => Some (mkCopied (m_key r) (m_run r) a b o) | _, _, _ => None end.
(** fetch.py:79-89: one row after the other; the columns must not be NULL and the key is unique
    (dp/testbed/db.py:28) *)
Fixpoint insert_all (t : list copied) (rows : list remote) : res (list copied) :=
  match rows with
  | [] => Ok t
  | r :: rest =>
    match copy_of r with
    | None => Err OtherErr
    | Some l => if existsb (fun x => tkey_eqb (l_key x) (m_key r)) t then Err OtherErr else insert_all (t ++ [l])%list rest
    end
  end.
(** fetch.py:10-91. Clearing (41-47) is a transaction of its own, the inserts are another. *)
Definition fetch (latest clear : bool) (run answer : option Z) (rows : list remote) (t : list copied) : option err * list copied :=
  match asked_run latest run answer with
  | Err e => (Some e, t)
  | Ok sel =>
    let t1 := if clear then [] else t in
    match insert_all t1 (filter (wanted sel) rows) with
    | Ok t2 => (None, t2)
    | Err e => (Some e, t1)
    end
  end.

(** ** Looking *)

(** dp/testbed/query.py:6-24: [CASE WHEN :x IS NULL THEN :x IS NULL ELSE d.x = :x END] *)
Definition fits_one (o : option string) (x : string) : bool := match o with None => true | Some y => x =? y end.
Definition query (stnum catalog code : option string) (t : list copied) : list tkey :=
  map l_key (filter (fun r => fits_one stnum (tk_stnum (l_key r)) && fits_one catalog (tk_catalog (l_key r)) && fits_one code (tk_code (l_key r))) t).
(** dp/testbed/run.py:17-25: the data of one audit. Without a row [record] is None and
    subscripting it a TypeError *)
Definition data_of (k : tkey) (t : list copied) : res string :=
  match filter (fun r => tkey_eqb (l_key r) k) t with r :: _ => Ok (l_input r) | [] => Err TypeErr end.
(** dp/testbed/extract.py:8-25: the catalog is not asked for. In which order the rows come is not
    determined, [order] decides. [None]: it exits with 1 *)
Definition extract (order : list copied -> list copied) (k : tkey) (t : list copied) : option string :=
  match order (filter (fun r => (tk_stnum (l_key r) =? tk_stnum k) && (tk_code (l_key r) =? tk_code k)) t) with
  | r :: _ => Some (l_input r)
  | [] => None
  end.
(** dp/testbed/extract.py:24 the file it is written to; dp/testbed/invoke.py:13-20 the command
    that is printed: the file of exactly this catalog *)
Definition extract_file (k : tkey) : string := "./" ++ tk_stnum k ++ ".json".
Definition invocation (root : string) (k : tkey) : string :=
  "python3 -m dp --student " ++ tk_stnum k ++ ".json --area " ++ root ++ "/" ++ tk_catalog k ++ "/" ++ tk_code k ++ ".yaml".

(** ** What if *)

(** dp/server/whatif.py:16-37: the row that is queued; no value is given for its moment, its
    expiry and [link_only]: the defaults of the table (not in the repository). *)
Definition what_if (ts : Z) (expires : option Z) (link : bool) (stnum code : string) (year : Z) : event :=
  Enqueue 100 ts stnum stnum (folder_of year) code (-1) expires link.
(** dp/server/worker.py:95 *)
Fixpoint first_part (s : string) : string :=
  match s with "" => "" | String c t => if Ascii.eqb c "-"%char then "" else String c (first_part t) end.
Definition worker_year (catalog : string) : res Z := py_int (first_part catalog).
(** dp/server/worker.py:95-97 *)
Definition worker_area (l : listing) (catalog code : string) : res (option string) :=
  let! y := worker_year catalog in Ok (find_area l y code).
