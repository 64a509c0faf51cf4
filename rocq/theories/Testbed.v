(** The testbed: running batches of audits into a local database and comparing them with a
    baseline (dp/testbed/batch.py, compare.py, db.py, sqlite.py). *)
From Coq Require Import List ZArith QArith Qround Bool String Lia.
From Verif Require Import Prelude.
Import ListNotations.
Local Open Scope string_scope.
Local Infix "+++" := (@app _) (at level 61, right associativity).

(** ** The database (dp/testbed/db.py:5-77). All columns used here are declared [not null]. *)

(** student, catalog and area code; a unique index of every table *)
Record tkey := mkTKey { tk_stnum : string; tk_catalog : string; tk_code : string }.
Definition tkey_eqb (a b : tkey) : bool :=
  (tk_stnum a =? tk_stnum b) && (tk_catalog a =? tk_catalog b) && (tk_code a =? tk_code b).
(** the columns of a result that are compared or listed; numbers are exact (sqlite: real) *)
Record outcome := mkOut { o_iterations : Q; o_duration : Q; o_gpa : Q; o_ok : bool; o_rank : Q; o_max_rank : Q; o_status : string }.
Record db := mkDb { d_server : list (tkey * outcome); d_baseline : list (tkey * outcome); d_branch : list (string * (tkey * outcome)) }.

(** ** Running a batch (dp/testbed/batch.py:26-140) *)

(** what an audit ends in: an exception (a timeout among them), no result, a result *)
Inductive ending := Raised | NoResult | Gave (o : outcome).
(** batch.py:41-55: the rows shorter than the given duration. The order is not modelled, results
    are stored as they come. *)
Definition chosen (min : Q) (filter_code : option string) (rows : list (tkey * outcome)) : list tkey :=
  map fst (filter (fun r => negb (Qle_bool min (o_duration (snd r))) &&
                            match filter_code with Some c => tk_code (fst r) =? c | None => true end) rows).
(** batch.py:93-140: results are stored in one transaction; what raised is skipped, a missing
    result is an AssertionError and undoes the transaction *)
Section Batch.
  Variables (area_known : string -> string -> bool) (audit : tkey -> ending).
  Fixpoint store (ks : list tkey) : res (list (tkey * outcome)) :=
    match ks with
    | [] => Ok []
    | k :: t =>
      if area_known (tk_catalog k) (tk_code k) then
        match audit k with
        | Raised => store t
        | NoResult => Err AssertErr
        | Gave o => let! r := store t in Ok ((k, o) :: r)
        end
      else store t
    end.
  (** batch.py:26-140 [run_batch(baseline=True)]. [--copy] (69-77) uses the connection that line 41
      has closed: sqlite3.ProgrammingError. The clearing (31-37) is a transaction of its own. *)
  Definition run_baseline (min : Q) (code : option string) (copy : bool) (d : db) : option err * db :=
    match d_server d with
    | [] => (Some OtherErr, d)
    | _ =>
      let d1 := mkDb (d_server d) [] (d_branch d) in
      if copy then (Some OtherErr, d1)
      else match store (chosen min code (d_server d)) with
           | Ok rows => (None, mkDb (d_server d) rows (d_branch d))
           | Err e => (Some e, d1)
           end
    end.
  (** [run_batch(baseline=False)]: the audits of the baseline again *)
  Definition run_branch (name : string) (min : Q) (code : option string) (d : db) : option err * db :=
    match d_server d with
    | [] => (Some OtherErr, d)
    | _ =>
      let others := filter (fun r => negb (fst r =? name)) (d_branch d) in
      match store (chosen min code (d_baseline d)) with
      | Ok rows => (None, mkDb (d_server d) (d_baseline d) (others +++ map (fun r => (name, r)) rows))
      | Err e => (Some e, mkDb (d_server d) (d_baseline d) others)
      end
    end.
End Batch.

(** ** Comparing (dp/testbed/compare.py:11-102) *)

(** SQL's three truth values; [None] is NULL *)
Definition tri := option bool.
Definition or3 (a b : tri) : tri :=
  match a, b with
  | Some true, _ | _, Some true => Some true
  | Some false, Some false => Some false
  | _, _ => None
  end.
Definition and3 (a b : tri) : tri :=
  match a, b with
  | Some false, _ | _, Some false => Some false
  | Some true, Some true => Some true
  | _, _ => None
  end.
Definition holds3 (a : tri) : bool := match a with Some true => true | _ => false end.
Definition ne3 {A} (eqb : A -> A -> bool) (a b : option A) : tri :=
  match a, b with Some x, Some y => Some (negb (eqb x y)) | _, _ => None end.
Definition eq3 {A} (eqb : A -> A -> bool) (a b : option A) : tri :=
  match a, b with Some x, Some y => Some (eqb x y) | _, _ => None end.

(** a row of the joined tables; nothing on the right if no row of [branch] matches *)
Record joined := mkJoined { j_key : tkey; j_base : outcome; j_branch : option (string * outcome) }.
(** compare.py:49-50 LEFT JOIN: with the rows of every branch *)
Definition left_join (d : db) : list joined :=
  flat_map (fun b =>
    match filter (fun r => tkey_eqb (fst b) (fst (snd r))) (d_branch d) with
    | [] => [mkJoined (fst b) (snd b) None]
    | rs => map (fun r => mkJoined (fst b) (snd b) (Some (fst r, snd (snd r)))) rs
    end) (d_baseline d).
Definition right_of {A} (f : outcome -> A) (j : joined) : option A := match j_branch j with Some (_, o) => Some (f o) | None => None end.
Definition left_of {A} (f : outcome -> A) (j : joined) : option A := Some (f (j_base j)).
(** compare.py:51-54 *)
Definition changed (j : joined) : tri :=
  or3 (or3 (or3 (ne3 Bool.eqb (left_of o_ok j) (right_of o_ok j)) (ne3 Qeq_bool (left_of o_gpa j) (right_of o_gpa j)))
           (ne3 Qeq_bool (left_of o_rank j) (right_of o_rank j)))
      (ne3 Qeq_bool (left_of o_max_rank j) (right_of o_max_rank j)).
(** compare.py:27-59 the view [changes]; the order is not modelled *)
Definition changes (d : db) : list joined := filter (fun j => holds3 (changed j)) (left_join d).
Inductive mode := ByData | ByOk | ByGpa.
(** compare.py:61-81 *)
Definition asked (m : mode) (run : string) (j : joined) : tri :=
  and3 (eq3 String.eqb (match j_branch j with Some (b, _) => Some b | None => None end) (Some run))
       (match m with
        | ByData => Some true
        | ByOk => ne3 Bool.eqb (left_of o_ok j) (right_of o_ok j)
        | ByGpa => ne3 Qeq_bool (left_of o_gpa j) (right_of o_gpa j)
        end).
(** the number of results of the branch (12-22) *)
Definition results_of (run : string) (d : db) : list (string * (tkey * outcome)) := filter (fun r => fst r =? run) (d_branch d).
Definition compare (m : mode) (run : string) (d : db) : res (list joined) :=
  match results_of run d with
  | [] => Err AssertErr
  | _ => Ok (filter (fun j => holds3 (asked m run j)) (changes d))
  end.
(** compare.py:88-102: the last two lines, for one column of numbers: each is cut off behind
    the third digit, also the sum and the average *)
Definition cut (q : Q) : Q := (if Qle_bool 0 q then inject_Z (Qfloor (q * 1000)) else inject_Z (Qceiling (q * 1000))) / 1000.
Definition total (f : joined -> option Q) (rows : list joined) : Q :=
  cut (fold_left (fun s j => match f j with Some v => (s + cut v)%Q | None => s end) rows 0).
Definition average (f : joined -> option Q) (run : string) (rows : list joined) (d : db) : Q :=
  cut (total f rows / inject_Z (Z.of_nat (List.length (results_of run d)))).
