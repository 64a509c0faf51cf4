(** The queue workers of dp/server: dp/server/worker.py and dp/server/audit.py:audit, several
    workers on one postgres database (READ COMMITTED), with crashes.

    A worker is a process; its transaction is what it has done since BEGIN and is invisible to
    the others until COMMIT.  Rows a transaction has deleted or changed are locked.  Events
    are single statements of the worker, failures, crashes, and what happens outside. *)
From Coq Require Import List ZArith Bool String Arith.
From Verif Require Import Prelude.
Import ListNotations.
Local Open Scope Z_scope.

(** public.queue (columns that are read): dp/server/worker.py:62-74.  [q_stnum] is
    [input_data['stnum']], dp/server/audit.py:28; [q_student] is only logged. *)
Record qrow := mkQ {
  q_id : Z; q_priority : Z; q_ts : Z; q_student : string; q_stnum : string;
  q_catalog : string; q_code : string; q_run : Z; q_expires : option Z; q_link : bool }.

(** public.result (columns that decide something later): dp/server/audit.py:71-150.
    [r_result] stands for the jsonb document. *)
Record rrow := mkR {
  r_id : Z; r_student : string; r_code : string; r_catalog : string; r_run : Z;
  r_expires : option Z; r_link : bool; r_result : string; r_ts : Z; r_active : bool; r_revision : Z }.

Record database := mkDb { queue : list qrow; results : list rrow; next_q : Z; next_r : Z }.

(** What an open transaction has done. *)
Record txn := mkT { t_bad : bool; t_take : list Z; t_del : list Z; t_off : list Z; t_ins : option rrow }.
Definition no_txn : txn := mkT false [] [] [] None.

(** Where a worker is. *)
Inductive pcounter :=
| PDead                                       (* not running *)
| PTop                                        (* worker.py:59 top of the loop *)
| PClose                                      (* worker.py:80 nothing found, before COMMIT *)
| PItem (q : qrow)                            (* worker.py:84 a row is taken *)
| PDel (q : qrow) (r : string)                (* audit.py:48 before the DELETE *)
| PDelWait (q : qrow) (r : string) (ids : list Z)   (* the DELETE has found its rows *)
| POff (q : qrow) (r : string)                (* audit.py:57 before the UPDATE *)
| POffWait (q : qrow) (r : string) (ids : list Z)   (* the UPDATE has found its rows *)
| PIns (q : qrow) (r : string)                (* audit.py:70 before the INSERT *)
| PEnd (q : qrow)                             (* worker.py:117 before COMMIT *)
| PBroken (q : qrow)                          (* worker.py:123 in the handler, before COMMIT *)
| PUnlogged (q : qrow)                        (* worker.py:126 after it, before the log *)
| PFresh                                      (* worker.py:37 queue found empty, before LISTEN *)
| PIdle.                                      (* worker.py:46 waiting *)

Record worker := mkW { pc : pcounter; listening : bool; pending : nat; tx : txn }.
Definition dead : worker := mkW PDead false 0 no_txn.

(** What was committed and logged, newest first; nothing reads it. *)
Inductive fact :=
| HTook (id : Z)                 (* a row was taken from the queue *)
| HLogged (id : Z)               (* an error naming the row, or its student and area, was logged *)
| HSaved (id : Z) (r : rrow)     (* the result of the row was committed *)
| HRemoved (id : Z).             (* the removal of the row was committed *)

Record state := mkS { db : database; workers : list worker; hist : list fact }.

Definition get (s : state) (w : nat) : worker := nth w (workers s) dead.
Fixpoint put (l : list worker) (w : nat) (x : worker) : list worker :=
  match l, w with
  | [], _ => []
  | _ :: t, O => x :: t
  | y :: t, S n => y :: put t n x
  end.
Definition memZ (x : Z) (l : list Z) : bool := existsb (Z.eqb x) l.

(** Rows a transaction has deleted are skipped by all: by itself because they are gone, by the
    others because they are locked (SKIP LOCKED). *)
Definition taken (s : state) (id : Z) : bool := existsb (fun w => memZ id (t_take (tx w))) (workers s).

(** [ORDER BY priority DESC, ts]; the order of equal rows is not determined, [tie] decides *)
Definition before (tie : Z -> Z) (a b : qrow) : bool :=
  if q_priority a =? q_priority b then
    if q_ts a =? q_ts b then tie (q_id a) <=? tie (q_id b) else q_ts a <? q_ts b
  else q_priority b <? q_priority a.
Fixpoint first_row (tie : Z -> Z) (l : list qrow) : option qrow :=
  match l with
  | [] => None
  | x :: t => match first_row tie t with
              | None => Some x
              | Some y => Some (if before tie x y then x else y)
              end
  end.
(** dp/server/worker.py:62-74 the row the DELETE removes and returns *)
Definition next_row (s : state) (tie : Z -> Z) : option qrow :=
  first_row tie (filter (fun q => negb (taken s (q_id q))) (queue (db s))).

(** the stored results a transaction sees: the committed ones, less those it has deleted *)
Definition seen (d : database) (t : txn) : list rrow :=
  map (fun r => if memZ (r_id r) (t_off t)
                then mkR (r_id r) (r_student r) (r_code r) (r_catalog r) (r_run r) (r_expires r) (r_link r) (r_result r) (r_ts r) false (r_revision r)
                else r)
    (filter (fun r => negb (memZ (r_id r) (t_del t))) (results d))
  ++ match t_ins t with None => [] | Some r => [r] end.

(** rows another open transaction has deleted or changed *)
Definition locked_by_other (s : state) (w : nat) (id : Z) : bool :=
  existsb (fun i => negb (Nat.eqb i w) && (memZ id (t_del (tx (get s i))) || memZ id (t_off (tx (get s i)))))
    (seq 0 (List.length (workers s))).

(** dp/server/audit.py:48-54 the rows of the DELETE *)
Definition same_result (q : qrow) (res : string) (r : rrow) : bool :=
  String.eqb (r_student r) (q_stnum q) && String.eqb (r_catalog r) (q_catalog q) &&
  String.eqb (r_code r) (q_code q) && String.eqb (r_result r) res.
(** dp/server/audit.py:57-64 the rows of the UPDATE *)
Definition active_of (q : qrow) (r : rrow) : bool :=
  String.eqb (r_student r) (q_stnum q) && String.eqb (r_code r) (q_code q) && r_active r.
(** dp/server/audit.py:119 [coalesce((SELECT max(revision) ...), 0) + 1] *)
Definition next_revision (q : qrow) (l : list rrow) : Z :=
  match map r_revision (filter (fun r => String.eqb (r_student r) (q_stnum q) && String.eqb (r_code r) (q_code q)) l) with
  | [] => 0 + 1
  | x :: t => fold_left Z.max t x + 1
  end.
(** dp/server/audit.py:70-150 the row of the INSERT *)
Definition new_result (id : Z) (q : qrow) (res : string) (ts rev : Z) : rrow :=
  mkR id (q_stnum q) (q_code q) (q_catalog q) (q_run q) (q_expires q) (q_link q) res ts (negb (q_link q)) rev.

Definition ids_of (p : rrow -> bool) (l : list rrow) : list Z := map r_id (filter p l).

(** COMMIT, which is a ROLLBACK if a statement has failed *)
Definition commit (d : database) (t : txn) : database :=
  if t_bad t then d
  else mkDb (filter (fun q => negb (memZ (q_id q) (t_take t))) (queue d)) (seen d t) (next_q d) (next_r d).
Definition facts_of (q : option qrow) (t : txn) : list fact :=
  if t_bad t then []
  else match q, t_ins t with Some q, Some r => [HSaved (q_id q) r] | _, _ => [] end ++ map HRemoved (t_take t).

(** dp/server/clear_expired.py:18-27 *)
Definition expired (now : Z) (r : rrow) : bool := match r_expires r with None => false | Some e => e <=? now end.
Definition clear_expired (now : Z) (l : list rrow) : list rrow :=
  filter (fun r => negb (expired now r &&
    existsb (fun i => String.eqb (r_student i) (r_student r) && String.eqb (r_catalog i) (r_catalog r) &&
                      String.eqb (r_code i) (r_code r) && (r_ts r <? r_ts i)) l)) l.

Inductive event :=
| Enqueue (priority ts : Z) (student stnum catalog code : string) (run : Z) (expires : option Z) (link : bool)
| Expire (now : Z)
| Start (w : nat)
| Take (w : nat) (tie : Z -> Z)
| NoArea (w : nat)                 (* find_area returns None *)
| Fail (w : nat) (inside : bool)   (* an exception, in the [try] of audit() or not; or no audit *)
| Computed (w : nat) (res : string) (* the audit has a result *)
| Delete1 (w : nat) | Delete2 (w : nat)
| Update1 (w : nat) | Update2 (w : nat)
| Insert (w : nat) (ts : Z)
| Raise (w : nat)                  (* building the parameters of the INSERT raises *)
| SqlError (w : nat)               (* a statement of audit() fails *)
| Commit (w : nat)
| Log (w : nat)
| Listen (w : nat)
| Wake (w : nat)
| Crash (w : nat).

Definition at_pc (x : worker) (p : pcounter) : worker := mkW p (listening x) (pending x) (tx x).
Definition with_tx (x : worker) (p : pcounter) (t : txn) : worker := mkW p (listening x) (pending x) t.
Definition move (s : state) (w : nat) (x : worker) (h : list fact) : state :=
  mkS (db s) (put (workers s) w x) (h ++ hist s).

(** One event; [None]: it cannot happen in this state. *)
Definition step (s : state) (e : event) : option state :=
  let d := db s in
  match e with
  | Enqueue pr ts st sn cat code run ex link =>
      (* dp/server/batch.py:58-61, dp/server/whatif.py:31; listening workers are notified (the
         trigger that does so is not in the repository) *)
      Some (mkS (mkDb (queue d ++ [mkQ (next_q d) pr ts st sn cat code run ex link]) (results d) (next_q d + 1) (next_r d))
                (map (fun x => if listening x then mkW (pc x) true (S (pending x)) (tx x) else x) (workers s)) (hist s))
  | Expire now =>
      (* dp/server/clear_expired.py; it waits for rows that are locked *)
      if forallb (fun r => existsb (fun r' => r_id r' =? r_id r) (clear_expired now (results d)) ||
                           negb (locked_by_other s (List.length (workers s)) (r_id r))) (results d)
      then Some (mkS (mkDb (queue d) (clear_expired now (results d)) (next_q d) (next_r d)) (workers s) (hist s))
      else None
  | Start w =>
      match pc (get s w) with
      | PDead => if Nat.ltb w (List.length (workers s)) then Some (move s w (mkW PTop false 0 no_txn) []) else None
      | _ => None
      end
  | Take w tie =>
      (* worker.py:60: BEGIN within a transaction goes on with it *)
      let x := get s w in let t := tx x in
      match pc x with
      | PTop =>
          match next_row s tie with
          | None => Some (move s w (at_pc x PClose) [])
          | Some q => Some (move s w (with_tx x (PItem q) (mkT (t_bad t) (q_id q :: t_take t) (t_del t) (t_off t) (t_ins t))) [HTook (q_id q)])
          end
      | _ => None
      end
  | NoArea w =>
      (* worker.py:98-100: [continue] without COMMIT *)
      match pc (get s w) with
      | PItem q => Some (move s w (at_pc (get s w) PTop) [HLogged (q_id q)])
      | _ => None
      end
  | Fail w inside =>
      match pc (get s w) with
      | PItem q => Some (if inside then move s w (at_pc (get s w) (PEnd q)) [HLogged (q_id q)] else move s w (at_pc (get s w) (PBroken q)) [])
      | _ => None
      end
  | Computed w res =>
      match pc (get s w) with
      | PItem q => Some (move s w (at_pc (get s w) (if q_link q then PIns q res else PDel q res)) [])
      | _ => None
      end
  | Delete1 w =>
      match pc (get s w) with
      | PDel q res => Some (move s w (at_pc (get s w) (PDelWait q res (ids_of (same_result q res) (seen d (tx (get s w)))))) [])
      | _ => None
      end
  | Delete2 w =>
      let x := get s w in let t := tx x in
      match pc x with
      | PDelWait q res ids =>
          if existsb (locked_by_other s w) ids then None
          else Some (move s w (with_tx x (POff q res)
                 (mkT (t_bad t) (t_take t) (filter (fun i => memZ i (ids_of (same_result q res) (seen d t))) ids ++ t_del t) (t_off t) (t_ins t))) [])
      | _ => None
      end
  | Update1 w =>
      match pc (get s w) with
      | POff q res => Some (move s w (at_pc (get s w) (POffWait q res (ids_of (active_of q) (seen d (tx (get s w)))))) [])
      | _ => None
      end
  | Update2 w =>
      let x := get s w in let t := tx x in
      match pc x with
      | POffWait q res ids =>
          if existsb (locked_by_other s w) ids then None
          else Some (move s w (with_tx x (PIns q res)
                 (mkT (t_bad t) (t_take t) (t_del t) (filter (fun i => memZ i (ids_of (active_of q) (seen d t))) ids ++ t_off t) (t_ins t))) [])
      | _ => None
      end
  | Insert w ts =>
      let x := get s w in let t := tx x in
      match pc x with
      | PIns q res =>
          let r := new_result (next_r d) q res ts (next_revision q (seen d t)) in
          Some (mkS (mkDb (queue d) (results d) (next_q d) (next_r d + 1))
                    (put (workers s) w (with_tx x (PEnd q) (mkT (t_bad t) (t_take t) (t_del t) (t_off t) (Some r)))) (hist s))
      | _ => None
      end
  | Raise w =>
      match pc (get s w) with
      | PIns q _ => Some (move s w (at_pc (get s w) (PEnd q)) [HLogged (q_id q)])
      | _ => None
      end
  | SqlError w =>
      match pc (get s w) with
      | PDel q _ | PDelWait q _ _ | POff q _ | POffWait q _ _ | PIns q _ =>
          Some (move s w (with_tx (get s w) (PEnd q) (mkT true [] [] [] None)) [HLogged (q_id q)])
      | _ => None
      end
  | Commit w =>
      let x := get s w in let t := tx x in
      let go q p := Some (mkS (commit d t) (put (workers s) w (with_tx x p no_txn)) (facts_of q t ++ hist s)) in
      match pc x with
      | PClose => go None (if listening x then PIdle else PFresh)
      | PEnd q => go (Some q) PTop
      | PBroken q => go (Some q) (PUnlogged q)
      | _ => None
      end
  | Log w =>
      match pc (get s w) with
      | PUnlogged q => Some (move s w (at_pc (get s w) PTop) [HLogged (q_id q)])
      | _ => None
      end
  | Listen w =>
      match pc (get s w) with
      | PFresh => Some (move s w (mkW PIdle true 0 (tx (get s w))) [])
      | _ => None
      end
  | Wake w =>
      match pc (get s w), pending (get s w) with
      | PIdle, S n => Some (move s w (mkW PTop true n (tx (get s w))) [])
      | _, _ => None
      end
  | Crash w =>
      match pc (get s w) with
      | PDead => None
      | _ => Some (move s w dead [])
      end
  end.

Fixpoint run (s : state) (es : list event) : option state :=
  match es with
  | [] => Some s
  | e :: t => match step s e with None => None | Some s' => run s' t end
  end.

(** A database and some workers that have not been started. *)
Definition initial (d : database) (n : nat) : state := mkS d (repeat dead n) [].
