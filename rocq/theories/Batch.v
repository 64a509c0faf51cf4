(** dp/server/batch.py and dp/bin/expand.py: filling the queue. *)
From Coq Require Import List ZArith Bool String Arith.
From Verif Require Import Prelude Dec Paths Catalog.
Import ListNotations.
Local Open Scope string_scope.
Local Open Scope list_scope.

(** A catalog as it stands in the JSON of a student; [COther]: null, a list and so on (not a
    float, which int() would take). *)
Inductive catfield := CAbsent | CText (s : string) | CNum (z : Z) | COther.
(** The keys the program asks for unconditionally, [stnum], [areas], [kind] and [code], are there. *)
Record area_ref := mkArea { a_kind : string; a_code : string; a_catalog : catfield }.
Record student := mkStudent { st_num : string; st_catalog : catfield; st_areas : list area_ref }.
(** student number, catalog and code *)
Record row := mkRow { w_num : string; w_catalog : string; w_code : string }.

(** dp/bin/expand.py:46 area_dict.get: the last area with the code *)
Fixpoint last_with (code : string) (l : list area_ref) : option area_ref :=
  match l with
  | [] => None
  | a :: t => match last_with code t with
              | Some b => Some b
              | None => if String.eqb (a_code a) code then Some a else None
              end
  end.

(** dp/bin/expand.py:61-67; [catalog] is the student's *)
Definition area_catalog (catalog : string) (l : list area_ref) (code : string) : res string :=
  let field := match last_with code l with
               | None => CText catalog
               | Some a => match a_catalog a with CAbsent => CText catalog | c => c end
               end in
  match field with
  | CText c => let! z := py_int c in Ok (c ++ "-" ++ drop2 (str_of_Z (z + 1)))%string
  | _ => Err TypeErr
  end.

(** dp/bin/expand.py:49-53: [None] is the [return] *)
Definition own_catalog (f : catfield) : res (option string) :=
  match f with
  | CText s => match py_int s with
               | Ok z => Ok (Some (str_of_Z z))
               | Err ValueErr => Ok None
               | Err e => Err e
               end
  | CNum z => Ok (Some (str_of_Z z))
  | CAbsent => Err KeyErr
  | COther => Err TypeErr
  end.

Fixpoint expand_codes (st : student) (catalog : string) (codes : list string) : gen row :=
  match codes with
  | [] => gnil
  | c :: t => match area_catalog catalog (st_areas st) c with
              | Err e => gfail e
              | Ok cat => gapp (gret [mkRow (st_num st) cat c]) (expand_codes st catalog t)
              end
  end.
(** dp/bin/expand.py:45, 58 *)
Definition own_codes (st : student) : list string :=
  dedup String.eqb (map a_code (filter (fun a => negb (String.eqb (a_kind a) "emphasis")) (st_areas st))).
(** dp/bin/expand.py:42-69 expand_student as the batch calls it, without [area_code] and
    [catalog]; [order] is the order in which the set is gone through *)
Definition expand_student (order : list string -> list string) (st : student) : gen row :=
  match own_catalog (st_catalog st) with
  | Err e => gfail e
  | Ok None => gnil
  | Ok (Some c) => expand_codes st c (order (own_codes st))
  end.

(** *** The threads of the batch, on one connection *)
Inductive status := TRunning | TDone | TFailed.
Record thread := mkThread { th_todo : list row; th_exn : option err; th_count : nat; th_status : status }.
(** Rows carry the number of the thread they were inserted by, [None] for other programs. *)
Record bstate := mkB {
  b_committed : list (option nat * row);
  b_open : list (nat * row);        (* inserted, not committed *)
  b_bad : bool;                     (* a statement of the transaction has failed *)
  b_threads : nat -> thread }.

Record settings := mkSettings {
  queued : list (string * string);  (* fetch_queued_audits: student and code *)
  blocked : list (string * string); (* fetch_blocked_audits *)
  code_filter : option string }.

Definition pair_in (n c : string) (l : list (string * string)) : bool :=
  existsb (fun p => String.eqb (fst p) n && String.eqb (snd p) c) l.
(** dp/server/batch.py:45-54 *)
Definition wanted (cfg : settings) (r : row) : bool :=
  if pair_in (w_num r) (w_code r) (queued cfg) then false
  else if pair_in (w_num r) (w_code r) (blocked cfg) then false
  else match code_filter cfg with
       | Some f => if negb (String.eqb f (w_code r)) then false else true
       | None => true
       end.

Definition upd (f : nat -> thread) (i : nat) (x : thread) (j : nat) : thread := if Nat.eqb j i then x else f j.

Inductive bevent :=
| BItem (i : nat)                   (* one round of the loop *)
| BSqlError (i : nat)               (* the INSERT fails *)
| BEnd (i : nat)                    (* the loop ends, by itself or by an exception *)
| BOther (r : row).                 (* another program queues a row *)

(** dp/server/batch.py:43-65; threads share the connection and so its transaction: COMMIT commits
    what all of them have inserted, and is a ROLLBACK once a statement has failed *)
Definition bstep (cfg : settings) (n : nat) (s : bstate) (e : bevent) : option bstate :=
  match e with
  | BOther r => Some (mkB (b_committed s ++ [(None, r)]) (b_open s) (b_bad s) (b_threads s))
  | BItem i =>
      let t := b_threads s i in
      if Nat.ltb i n then
        match th_status t, th_todo t with
        | TRunning, r :: rest =>
            if wanted cfg r then
              if b_bad s
              then Some (mkB (b_committed s) (b_open s) true (upd (b_threads s) i (mkThread rest (th_exn t) (S (th_count t)) TFailed)))
              else Some (mkB (b_committed s) (b_open s ++ [(i, r)]) false (upd (b_threads s) i (mkThread rest (th_exn t) (S (th_count t)) TRunning)))
            else Some (mkB (b_committed s) (b_open s) (b_bad s) (upd (b_threads s) i (mkThread rest (th_exn t) (th_count t) TRunning)))
        | _, _ => None
        end
      else None
  | BSqlError i =>
      let t := b_threads s i in
      if Nat.ltb i n then
        match th_status t, th_todo t with
        | TRunning, r :: rest =>
            if wanted cfg r
            then Some (mkB (b_committed s) (b_open s) true (upd (b_threads s) i (mkThread rest (th_exn t) (S (th_count t)) TFailed)))
            else None
        | _, _ => None
        end
      else None
  | BEnd i =>
      let t := b_threads s i in
      if Nat.ltb i n then
        match th_status t, th_todo t with
        | TRunning, [] =>
            match th_exn t with
            | Some _ => Some (mkB (b_committed s) (b_open s) (b_bad s) (upd (b_threads s) i (mkThread [] (th_exn t) (th_count t) TFailed)))
            | None =>
                Some (mkB (if b_bad s then b_committed s else b_committed s ++ map (fun x => (Some (fst x), snd x)) (b_open s)) [] false
                          (upd (b_threads s) i (mkThread [] None (th_count t) TDone)))
            end
        | _, _ => None
        end
      else None
  end.
Fixpoint brun (cfg : settings) (n : nat) (s : bstate) (es : list bevent) : option bstate :=
  match es with
  | [] => Some s
  | e :: t => match bstep cfg n s e with None => None | Some s' => brun cfg n s' t end
  end.

(** dp/server/batch.py:154-166 every student is submitted; [tasks i] is what expanding the [i]th
    gives, or the exception of fetching them *)
Definition bstart (rows : list row) (tasks : nat -> gen row) : bstate :=
  mkB (map (fun r => (None, r)) rows) [] false (fun i => mkThread (g_items (tasks i)) (g_exn (tasks i)) 0 TRunning).

(** dp/server/batch.py:145, 180-181, 189 total_count *)
Definition reported (n : nat) (s : bstate) : nat :=
  fold_left (fun acc i => match th_status (b_threads s i) with TDone => acc + th_count (b_threads s i) | _ => acc end) (seq 0 n) 0.
