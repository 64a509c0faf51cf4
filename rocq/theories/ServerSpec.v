(** What the queue workers promise, said of states and runs. *)
From Coq Require Import List ZArith Bool String Arith.
From Verif Require Import Prelude Server.
Import ListNotations.
Local Open Scope Z_scope.

(** A database as it may be found: identifiers are unique and were handed out. *)
Definition sound_db (d : database) : Prop :=
  NoDup (map q_id (queue d)) /\ (forall q, In q (queue d) -> q_id q < next_q d) /\
  NoDup (map r_id (results d)) /\ (forall r, In r (results d) -> r_id r < next_r d).

(** a state that some run reaches *)
Definition reaches (s : state) (es : list event) (s' : state) : Prop := run s es = Some s'.
Definition reachable (d : database) (n : nat) (s : state) : Prop := exists es, reaches (initial d n) es s.

(** worker [w] has the row in its open transaction *)
Definition holds (s : state) (w : nat) (id : Z) : Prop := In id (t_take (tx (get s w))).

(** the row was removed for good, and why *)
Definition removed (s : state) (id : Z) : Prop := In (HRemoved id) (hist s).
Definition saved (s : state) (id : Z) : Prop := exists r, In (HSaved id r) (hist s).
Definition logged (s : state) (id : Z) : Prop := In (HLogged id) (hist s).

(** in the course of a run a worker stops between the COMMIT of the failure and its log line *)
Fixpoint stopped_before_logging (s : state) (es : list event) (id : Z) : Prop :=
  match es with
  | [] => False
  | e :: t =>
      (exists w q, e = Crash w /\ pc (get s w) = PUnlogged q /\ q_id q = id) \/
      match step s e with None => False | Some s' => stopped_before_logging s' t id end
  end.

(** every state of a run, the first and the last included, has the property *)
Fixpoint throughout (P : state -> Prop) (s : state) (es : list event) : Prop :=
  P s /\ match es with
         | [] => True
         | e :: t => match step s e with None => True | Some s' => throughout P s' t end
         end.

(** the item whose result a worker is about to store *)
Definition saving (p : pcounter) : option qrow :=
  match p with
  | PDel q _ | PDelWait q _ _ | POff q _ | POffWait q _ _ | PIns q _ | PEnd q => Some q
  | _ => None
  end.
(** no two workers store results of the same student and area at the same time *)
Definition apart (s : state) : Prop :=
  forall v w q q', v <> w -> saving (pc (get s v)) = Some q -> saving (pc (get s w)) = Some q' ->
  (q_stnum q, q_code q) <> (q_stnum q', q_code q').

(** stored results of a student and area *)
Definition of_key (k : string * string) (r : rrow) : Prop := (r_student r, r_code r) = k.
Definition one_active (d : database) : Prop :=
  forall r r', In r (results d) -> In r' (results d) -> of_key (r_student r, r_code r) r' ->
  r_active r = true -> r_active r' = true -> r = r'.
Definition distinct_revisions (d : database) : Prop :=
  forall r r', In r (results d) -> In r' (results d) -> of_key (r_student r, r_code r) r' ->
  r_revision r = r_revision r' -> r = r'.

(** the result of a student and area that was committed last, link-only ones aside *)
Fixpoint last_saved (h : list fact) (k : string * string) : option rrow :=
  match h with
  | [] => None
  | HSaved _ r :: t =>
      if negb (r_link r) && String.eqb (r_student r) (fst k) && String.eqb (r_code r) (snd k) then Some r else last_saved t k
  | _ :: t => last_saved t k
  end.

(** one is served before the other: by priority, then age *)
Definition precedes (a b : qrow) : Prop :=
  q_priority b < q_priority a \/ (q_priority a = q_priority b /\ q_ts a < q_ts b).

(** events that are not failures of a worker's database session *)
Definition orderly (e : event) : bool := match e with SqlError _ | Crash _ => false | _ => true end.
(** the worker an event belongs to *)
Definition actor (e : event) : option nat :=
  match e with
  | Enqueue _ _ _ _ _ _ _ _ _ | Expire _ => None
  | Start w | Take w _ | NoArea w | Fail w _ | Computed w _ | Delete1 w | Delete2 w | Update1 w | Update2 w
  | Insert w _ | Raise w | SqlError w | Commit w | Log w | Listen w | Wake w | Crash w => Some w
  end.

(** the row a result was stored for *)
Definition result_of (q : qrow) (r : rrow) : Prop :=
  r_student r = q_stnum q /\ r_code r = q_code q /\ r_catalog r = q_catalog q /\ r_run r = q_run q /\
  r_expires r = q_expires q /\ r_link r = q_link q /\ r_active r = negb (q_link q).

Definition removed_ids (h : list fact) : list Z := flat_map (fun f => match f with HRemoved id => [id] | _ => [] end) h.
Definition saved_ids (h : list fact) : list Z := flat_map (fun f => match f with HSaved id _ => [id] | _ => [] end) h.
Definition taken_ids (h : list fact) : list Z := flat_map (fun f => match f with HTook id => [id] | _ => [] end) h.
