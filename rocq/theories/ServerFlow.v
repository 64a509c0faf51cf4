(** Waking up, and serving a queue to its end. *)
From Coq Require Import List ZArith Bool String Arith Lia Permutation Sorting.Sorted.
From Verif Require Import Prelude Server ServerSpec ServerProofs ServerHist ServerActive ServerProps.
Import ListNotations.
Local Open Scope Z_scope.

(** ** C54 *)
(** the worker listens, and it is at work or a notification waits for it *)
Definition awake (s : state) (w : nat) : Prop :=
  listening (get s w) = true /\ (pending (get s w) <> O \/ pc (get s w) <> PIdle /\ pc (get s w) <> PClose).

Definition running (x : worker) : Prop := pc x <> PDead /\ pc x <> PFresh.
Definition tended (w : nat) (s : state) : Prop :=
  (listening (get s w) = true /\ running (get s w)) /\
  ((pc (get s w) = PIdle \/ pc (get s w) = PClose) -> pending (get s w) = O -> forall q, In q (queue (db s)) -> exists v, holds s v (q_id q)).

(** rows in hand stay in hand until they leave the queue, failures aside *)
Lemma hands_kept s e s' q : inv s -> orderly e = true -> step s e = Some s' ->
  In q (queue (db s')) -> (exists v, holds s v (q_id q)) -> exists v, holds s' v (q_id q).
Proof.
  intros I O ST J (v & H). pose proof I as (_ & _ & C & _).
  destruct (step_effect s e s' ST) as [AC HH Q P|w q0 -> DB HH G P|w h0 AC G Q R HH F U NC].
  - exists v. destruct e; try discriminate AC; cbn [step] in ST.
    + injection ST as <-. unfold holds. rewrite (notified s _ _ (fun x => if listening x then mkW (pc x) true (S (pending x)) (tx x) else x)) by reflexivity. cbv beta. destruct (listening _); exact H.
    + destruct (forallb _ _); [|discriminate]. injection ST as <-. exact H.
  - destruct (Nat.eq_dec v w) as [->|N]; [|exists v; unfold holds; rewrite G by exact N; exact H]. exfalso.
    rewrite DB in J. apply commit_queue in J as [J [B|B]]; [|exact (B H)]. pose proof (C w) as (_ & _ & W).
    destruct P as [[P _]|(q2 & _ & [P|[P _]])]; rewrite P in W.
    + destruct W as (W & _). congruence.
    + destruct W as [(_ & W & _)|(W & _)]; [unfold holds in H; rewrite W in H; exact H|congruence].
    + destruct W as ((W & _) & _). congruence.
  - destruct (Nat.eq_dec v w) as [->|N]; [|exists v; unfold holds; rewrite G by exact N; exact H]. exists w.
    assert (K : incl (t_take (tx (get s w))) (t_take (tx (get s' w)))); [|apply K; exact H].
    pose proof (C w) as (_ & _ & W). clear -O ST AC NC W.
    destruct e; try discriminate O; cbn [actor] in AC; try discriminate AC; injection AC as ->; cbn [step] in ST;
      try (destruct (NC w eq_refl));
      (destruct (pc (get s w)) eqn:PC; try discriminate ST);
      try (match type of ST with context [next_row s ?t] => destruct (next_row s t) end);
      try (match type of ST with context [existsb ?a ?b] => destruct (existsb a b); [discriminate ST|] end);
      try (match type of ST with context [pending ?x] => destruct (pending x); [discriminate ST|] end);
      try (match type of ST with context [Nat.ltb ?x ?y] => destruct (Nat.ltb x y); [|discriminate ST]; rewrite W; intros ? [] end);
      alive PC;
      try (match type of ST with context [if ?b then _ else _] => is_var b; destruct b end);
      injection ST as <-; try (rewrite get_move by exact L); try (rewrite get_put by exact L); try rewrite Nat.eqb_refl; cbn [at_pc with_tx tx t_take];
      try apply incl_refl; try (apply incl_tl, incl_refl).
Qed.

Lemma tended_step w s e s' : inv s -> orderly e = true -> tended w s -> step s e = Some s' -> tended w s'.
Proof.
  intros I O [[T1 T0] T2] ST. pose proof (fun q => hands_kept s e s' q I O ST) as HK.
  destruct (step_effect s e s' ST) as [AC HH Q P|w' q0 -> DB HH G P|w' h0 AC G Q R HH F U NC].
  - destruct e; try discriminate AC; cbn [step] in ST.
    + injection ST as <-. unfold tended. rewrite (notified s _ _ (fun x => if listening x then mkW (pc x) true (S (pending x)) (tx x) else x)) by reflexivity. cbv beta.
      rewrite T1. cbn [listening pending pc]. split; [split; [reflexivity|exact T0]|]. intros _ E. discriminate.
    + destruct (forallb _ _); [|discriminate]. injection ST as <-. split; [split; [exact T1|exact T0]|]. intros A B q J. apply (HK q J). apply T2; auto.
  - destruct (Nat.eq_dec w w') as [<-|N].
    + cbn [step] in ST.
      destruct (pc (get s w)) eqn:PC; try discriminate ST; alive PC; injection ST as <-; unfold tended, running; rewrite get_put by exact L; rewrite Nat.eqb_refl; cbn [with_tx listening pending pc]; (split; [split; [exact T1|]|]).
      * rewrite T1. split; discriminate.
      * intros _ E q J. apply (HK q J). apply T2; auto. cbn [db] in J. apply commit_queue in J. apply J.
      * split; discriminate.
      * intros [X|X]; discriminate.
      * split; discriminate.
      * intros [X|X]; discriminate.
    + unfold tended, running. rewrite G by exact N. split; [split; [exact T1|exact T0]|]. intros A B q J. apply (HK q J). apply T2; auto. rewrite DB in J. apply commit_queue in J. apply J.
  - destruct (Nat.eq_dec w w') as [<-|N].
    + destruct e; try discriminate O; cbn [actor] in AC; try discriminate AC; injection AC as ->; cbn [step] in ST;
      try (destruct (NC w eq_refl));
      (destruct (pc (get s w)) eqn:PC; try discriminate ST);
      try (exfalso; destruct T0 as [X Y]; congruence);
      try (match type of ST with context [existsb ?a ?b] => destruct (existsb a b); [discriminate ST|] end);
      try (match type of ST with context [if ?b then _ else _] => is_var b; destruct b end);
      try (match type of ST with context [pending ?x] => destruct (pending x) eqn:PN; [discriminate ST|] end);
      alive PC;
      match type of ST with context [next_row s ?t] => destruct (next_row s t) eqn:NR | _ => idtac end;
      injection ST as <-; unfold tended, running; try (rewrite get_move by exact L); try (rewrite get_put by exact L); try rewrite Nat.eqb_refl; cbn [at_pc with_tx listening pending pc];
        (split; [split; [first [exact T1|reflexivity]|]|]);
        try (split; discriminate); try (intros [X|X]; discriminate X); try (destruct (q_link q); split; discriminate); try (destruct (q_link q); intros [X|X]; discriminate X).
      intros _ _ q J. apply (HK q J). apply (next_row_none s tie NR). exact J.
    + unfold tended, running. rewrite G by exact N. split; [split; [exact T1|exact T0]|]. intros A B q J. apply (HK q J). apply T2; auto. rewrite <- Q. exact J.
Qed.

(** only workers that have said LISTEN listen *)
Definition linv (s : state) : Prop := forall w, listening (get s w) = true -> running (get s w).
Lemma linv_step s e s' : linv s -> step s e = Some s' -> linv s'.
Proof.
  intros LI ST w.
  destruct (step_effect s e s' ST) as [AC HH Q P|w' q0 -> DB HH G P|w' h0 AC G Q R HH F U NC].
  - destruct e; try discriminate AC; cbn [step] in ST.
    + injection ST as <-. unfold running. rewrite (notified s _ _ (fun x => if listening x then mkW (pc x) true (S (pending x)) (tx x) else x)) by reflexivity. cbv beta.
      destruct (listening (get s w)) eqn:X; intro Y; exact (LI w X) || congruence.
    + destruct (forallb _ _); [|discriminate]. injection ST as <-. apply LI.
  - destruct (Nat.eq_dec w w') as [<-|N]; [|rewrite G by exact N; apply LI].
    cbn [step] in ST. destruct (pc (get s w)) eqn:PC; try discriminate ST; alive PC; injection ST as <-; unfold running; rewrite get_put by exact L; rewrite Nat.eqb_refl; cbn [with_tx listening pc]; try (split; discriminate).
    intros ->. split; discriminate.
  - destruct (Nat.eq_dec w w') as [<-|N]; [|rewrite G by exact N; apply LI].
    destruct e; cbn [actor] in AC; try discriminate AC; injection AC as ->; cbn [step] in ST;
      try (destruct (NC w eq_refl));
      (destruct (pc (get s w)) eqn:PC; try discriminate ST);
      try (match type of ST with context [Nat.ltb ?x ?y] => destruct (Nat.ltb x y) eqn:L; [apply Nat.ltb_lt in L|discriminate ST] end);
      try (match type of ST with context [existsb ?a ?b] => destruct (existsb a b); [discriminate ST|] end);
      try (match type of ST with context [if ?b then _ else _] => is_var b; destruct b end);
      try (match type of ST with context [pending ?x] => destruct (pending x) eqn:PN; [discriminate ST|] end);
      try alive PC;
      try (match type of ST with context [next_row s ?t] => destruct (next_row s t) eqn:NR end);
      injection ST as <-; unfold running; try (rewrite get_move by exact L); try (rewrite get_put by exact L); try rewrite Nat.eqb_refl; cbn [at_pc with_tx listening pending pc dead];
      try (destruct (q_link q)); try (split; discriminate); try discriminate.
Qed.

Theorem no_item_is_left_lying :
  forall d n s w es s', sound_db d -> reachable d n s -> awake s w ->
  forallb orderly es = true -> run s es = Some s' ->
  pc (get s' w) = PIdle -> pending (get s' w) = O ->
  forall q, In q (queue (db s')) -> exists v, v <> w /\ holds s' v (q_id q).
Proof.
  intros d n s w es s' SD RE [AW1 AW2] O R PI PN.
  assert (I := reachable_inv d n s SD RE).
  assert (LI : linv s).
  { destruct RE as (es0 & R0). refine (run_inv linv linv_step es0 (initial d n) s _ R0). intros v. unfold get, initial. cbn [workers].
    destruct (Nat.lt_ge_cases v n) as [L|L]; [rewrite nth_repeat; discriminate|rewrite nth_overflow by (rewrite repeat_length; exact L); discriminate]. }
  assert (T : tended w s).
  { split; [split; [exact AW1|apply LI, AW1]|]. intros [X|X] Y; destruct AW2 as [Z|[Z1 Z2]]; congruence. }
  clear RE AW1 AW2 LI. assert (G : inv s' /\ tended w s').
  { revert s I T R O. clear -SD. induction es as [|e es IH]; intros s I T; cbn [run forallb]; [intros [= <-]; auto|].
    destruct (step s e) as [s1|] eqn:ST; [|discriminate]. intros R O. apply andb_prop in O as [O1 O2].
    apply (IH s1); auto; [eapply inv_step; eassumption|eapply tended_step; eassumption]. }
  destruct G as [(_ & _ & C & _) [_ G]]. intros q J. destruct (G (or_introl PI) PN q J) as (v & H). exists v. split; [|exact H].
  intros ->. pose proof (C w) as (_ & _ & W). rewrite PI in W. unfold holds in H. rewrite W in H. exact H.
Qed.
Print Assumptions no_item_is_left_lying.

(** An item that arrives between the look at the queue and LISTEN is not noticed. *)
Theorem no_item_is_missed_at_the_start_refuted :
  exists es s, run (initial (mkDb [] [] 1 1) 1) es = Some s /\ forallb orderly es = true /\
    queue (db s) <> [] /\ (forall q, In q (queue (db s)) -> forall v, ~ holds s v (q_id q)) /\
    listening (get s 0) = true /\ forall e, actor e = Some 0%nat -> orderly e = true -> step s e = None.
Proof.
  exists [Start 0; Take 0 no_tie; Commit 0; Enqueue 1 1 "jo" "123" "2019-20" "130" 1 None false; Listen 0].
  eexists. split; [vm_compute; reflexivity|]. split; [reflexivity|]. split; [discriminate|]. split; [|split; [reflexivity|]].
  - intros q _ [|[|v]] []. 
  - intros e A O. destruct e; try discriminate A; try discriminate O; injection A as ->; reflexivity.
Qed.
Print Assumptions no_item_is_missed_at_the_start_refuted.

(** Nor is one that a stopped worker, or a failed transaction, gives back. *)
Theorem no_item_is_missed_after_a_failure_refuted :
  exists es s, run (initial (mkDb [] [] 1 1) 2) es = Some s /\
    (exists es0 s0 es1, es = es0 ++ es1 /\ run (initial (mkDb [] [] 1 1) 2) es0 = Some s0 /\ awake s0 1) /\
    queue (db s) <> [] /\ (forall q, In q (queue (db s)) -> forall v, ~ holds s v (q_id q)) /\
    listening (get s 1) = true /\ forall e, actor e = Some 1%nat -> orderly e = true -> step s e = None.
Proof.
  exists ([Start 0; Start 1; Take 0 no_tie; Commit 0; Listen 0; Take 1 no_tie; Commit 1; Listen 1; Enqueue 1 1 "jo" "123" "2019-20" "130" 1 None false] ++
          [Wake 0; Take 0 no_tie; Wake 1; Take 1 no_tie; Commit 1; Crash 0]).
  eexists. split; [vm_compute; reflexivity|]. split.
  { eexists. eexists. eexists. split; [reflexivity|]. split; [vm_compute; reflexivity|]. split; [reflexivity|]. left. discriminate. }
  split; [discriminate|]. split; [|split; [reflexivity|]].
  - intros q _ [|[|[|v]]] [].
  - intros e A O. destruct e; try discriminate A; try discriminate O; injection A as ->; reflexivity.
Qed.
Print Assumptions no_item_is_missed_after_a_failure_refuted.

Example left_lying_example :
  match run (initial (mkDb [] [] 1 1) 1) [Start 0; Take 0 no_tie; Commit 0; Listen 0; Enqueue 1 1 "jo" "123" "2019-20" "130" 1 None false] with
  | Some s => awake s 0 /\
      match run s [Wake 0; Take 0 no_tie; NoArea 0; Take 0 no_tie; Commit 0] with
      | Some s' => pc (get s' 0) = PIdle /\ pending (get s' 0) = O /\ queue (db s') = []
      | None => False
      end
  | None => False
  end.
Proof. vm_compute. split; [split; [reflexivity|left; discriminate]|repeat split]. Qed.

(** ** C53 *)
(** rows nobody has in hand *)
Definition avail (s : state) : list qrow := filter (fun q => negb (taken s (q_id q))) (queue (db s)).
(** the worker is the only one with a transaction *)
Definition alone (s : state) (w : nat) : Prop := forall v, v <> w -> tx (get s v) = no_txn.
Definition solo (w : nat) (e : event) : bool := orderly e && match actor e with Some v => Nat.eqb v w | None => false end.

Lemma in_avail s q : In q (avail s) <-> In q (queue (db s)) /\ forall v, ~ holds s v (q_id q).
Proof.
  unfold avail. rewrite filter_In, negb_true_iff. split; intros [A B]; (split; [exact A|]).
  - intros v H. assert (taken s (q_id q) = true) by (apply taken_spec; eauto). congruence.
  - destruct (taken s (q_id q)) eqn:T; [|reflexivity]. apply taken_spec in T as (v & T). destruct (B v T).
Qed.
Lemma filter_ext_in' {A} (f g : A -> bool) l : (forall x, In x l -> f x = g x) -> filter f l = filter g l.
Proof. apply filter_ext_in. Qed.
Lemma same_hands s s' : queue (db s') = queue (db s) -> (forall v id, holds s' v id <-> holds s v id) -> avail s' = avail s.
Proof.
  intros Q H. unfold avail. rewrite Q. apply filter_ext_in'. intros q _. f_equal.
  destruct (taken s' (q_id q)) eqn:A, (taken s (q_id q)) eqn:B; auto.
  - apply taken_spec in A as (v & A). apply H in A. assert (taken s (q_id q) = true) by (apply taken_spec; eauto). congruence.
  - apply taken_spec in B as (v & B). apply H in B. assert (taken s' (q_id q) = true) by (apply taken_spec; eauto). congruence.
Qed.

(** how many more steps a worker can take, [n] rows being left and [m] notifications *)
Definition stage (p : pcounter) : nat :=
  match p with
  | PDead => 0 | PIdle => 0 | PFresh => 1 | PClose => 2 | PTop => 3
  | PUnlogged _ => 4 | PBroken _ => 5 | PEnd _ => 5 | PIns _ _ => 6 | POffWait _ _ _ => 7 | POff _ _ => 8 | PDelWait _ _ _ => 9 | PDel _ _ => 10 | PItem _ => 11
  end.
Definition todo (s : state) (w : nat) : nat := 12 * List.length (avail s) + stage (pc (get s w)) + 4 * pending (get s w).

Lemma avail_keep s w x d h : (w < List.length (workers s))%nat -> t_take (tx x) = t_take (tx (get s w)) -> queue d = queue (db s) ->
  avail (mkS d (put (workers s) w x) h) = avail s.
Proof.
  intros L T Q. apply same_hands; [exact Q|]. intros v id. unfold holds. rewrite get_put by exact L. destruct (Nat.eqb v w) eqn:E; [|tauto]. apply Nat.eqb_eq in E. subst v. rewrite T. tauto.
Qed.
Lemma avail_commit s w x h : (w < List.length (workers s))%nat -> alone s w -> t_bad (tx (get s w)) = false -> tx x = no_txn ->
  avail (mkS (commit (db s) (tx (get s w))) (put (workers s) w x) h) = avail s.
Proof.
  intros L AL B X. unfold avail. cbn [db]. unfold commit. rewrite B. cbn [queue].
  assert (N : forall id, taken (mkS (mkDb (filter (fun q => negb (memZ (q_id q) (t_take (tx (get s w))))) (queue (db s))) (seen (db s) (tx (get s w))) (next_q (db s)) (next_r (db s))) (put (workers s) w x) h) id = false).
  { intro id. destruct (taken _ id) eqn:T; [|reflexivity]. apply taken_spec in T as (v & T). unfold holds in T. rewrite get_put in T by exact L.
    destruct (Nat.eqb v w) eqn:E; [rewrite X in T; destruct T|]. apply Nat.eqb_neq in E. rewrite (AL v E) in T. destruct T. }
  assert (M : forall id, taken s id = memZ id (t_take (tx (get s w)))).
  { intro id. destruct (taken s id) eqn:T.
    - apply taken_spec in T as (v & T). symmetry. apply memZ_in. destruct (Nat.eq_dec v w) as [->|E]; [exact T|]. unfold holds in T. rewrite (AL v E) in T. destruct T.
    - symmetry. apply memZ_out. intro T2. assert (taken s id = true) by (apply taken_spec; exists w; exact T2). congruence. }
  rewrite (filter_ext_in' (fun q => negb (taken _ (q_id q))) (fun _ => true)) by (intros q _; rewrite N; reflexivity).
  rewrite (filter_ext_in' (fun q => negb (taken s (q_id q))) (fun q => negb (memZ (q_id q) (t_take (tx (get s w)))))) by (intros q _; rewrite M; reflexivity).
  clear N M. induction (filter _ (queue (db s))) as [|y l IH]; [reflexivity|]. cbn [filter]. f_equal. exact IH.
Qed.
Lemma permutation_without {A} (f g : A -> bool) (x : A) l : NoDup l -> In x l -> f x = true -> g x = false -> (forall y, In y l -> y <> x -> f y = g y) ->
  Permutation (filter f l) (x :: filter g l).
Proof.
  induction l as [|y l IH]; [intros _ []|]. intros N I F G H. inversion N as [|? ? X Y]; subst. destruct I as [->|I].
  - cbn [filter]. rewrite F, G. constructor. erewrite filter_ext_in'; [apply Permutation_refl|]. intros z J. apply H; [right; exact J|]. intros ->. exact (X J).
  - cbn [filter]. assert (NE : y <> x) by (intros ->; exact (X I)). rewrite <- (H y (or_introl eq_refl) NE).
    assert (P : Permutation (filter f l) (x :: filter g l)) by (apply IH; auto; intros z J; apply H; right; exact J).
    destruct (f y); [|exact P]. rewrite P. apply perm_swap.
Qed.

(** what one step of a lone worker does to the rows *)
Lemma solo_step s w e s' : inv s -> alone s w -> t_bad (tx (get s w)) = false -> pc (get s w) <> PDead ->
  solo w e = true -> step s e = Some s' ->
  alone s' w /\ t_bad (tx (get s' w)) = false /\ pc (get s' w) <> PDead /\ (todo s' w < todo s w)%nat /\
  ((exists q, hist s' = HTook (q_id q) :: hist s /\ (forall q', In q' (avail s) -> ~ precedes q' q) /\
      Permutation (avail s) (q :: avail s') /\ pc (get s' w) = PItem q) \/
   (exists h0, hist s' = h0 ++ hist s /\ taken_ids h0 = [] /\ avail s' = avail s /\
      ((pc (get s' w) = PIdle \/ pc (get s' w) = PFresh \/ pc (get s' w) = PClose) -> avail s' = [] \/ (pc (get s w) = PFresh \/ pc (get s w) = PClose)))).
Proof.
  intros I AL TB PD SO ST. pose proof I as (ND & _ & C & D). pose proof (C w) as (W1 & W2 & W3).
  unfold solo in SO. apply andb_prop in SO as [O AC].
  assert (L := alive_in s w PD).
  assert (AL' : forall x d h, alone (mkS d (put (workers s) w x) h) w).
  { intros x d h v N. rewrite get_put by exact L. pose proof N as N2. apply Nat.eqb_neq in N2. rewrite N2. apply AL, N. }
  assert (KEEP : forall x d h0, t_take (tx x) = t_take (tx (get s w)) -> queue d = queue (db s) -> t_bad (tx x) = false -> pc x <> PDead ->
     (stage (pc x) + 4 * pending x < stage (pc (get s w)) + 4 * pending (get s w))%nat -> taken_ids h0 = [] ->
     ((pc x = PIdle \/ pc x = PFresh \/ pc x = PClose) -> avail s = [] \/ (pc (get s w) = PFresh \/ pc (get s w) = PClose)) ->
     mkS d (put (workers s) w x) (h0 ++ hist s) = s' ->
     alone s' w /\ t_bad (tx (get s' w)) = false /\ pc (get s' w) <> PDead /\ (todo s' w < todo s w)%nat /\
     ((exists q, hist s' = HTook (q_id q) :: hist s /\ (forall q', In q' (avail s) -> ~ precedes q' q) /\
      Permutation (avail s) (q :: avail s') /\ pc (get s' w) = PItem q) \/
   (exists h0, hist s' = h0 ++ hist s /\ taken_ids h0 = [] /\ avail s' = avail s /\
      ((pc (get s' w) = PIdle \/ pc (get s' w) = PFresh \/ pc (get s' w) = PClose) -> avail s' = [] \/ (pc (get s w) = PFresh \/ pc (get s w) = PClose))))).
  { intros x d h0 T Q B P M TK END <-. assert (AV := avail_keep s w x d (h0 ++ hist s) L T Q).
    split; [apply AL'|]. unfold todo. rewrite AV. rewrite !get_put by exact L. rewrite !Nat.eqb_refl. split; [exact B|]. split; [exact P|]. split; [lia|].
    right. exists h0. auto. }
  destruct e; try discriminate O; cbn [actor] in AC; try discriminate AC; apply Nat.eqb_eq in AC; subst w0; cbn [step] in ST.
  - destruct (pc (get s w)) eqn:PC; try discriminate ST. congruence.
  - destruct (pc (get s w)) eqn:PC; try discriminate ST. destruct (next_row s tie) as [q|] eqn:NR; injection ST as <-.
    + destruct (next_row_some s tie q NR) as (J & F & B). split; [apply AL'|].
      rewrite get_move by exact L. rewrite Nat.eqb_refl. cbn [with_tx tx t_bad pc]. split; [exact TB|]. split; [discriminate|].
      assert (PM : Permutation (avail s) (q :: avail (move s w (with_tx (get s w) (PItem q) (mkT (t_bad (tx (get s w))) (q_id q :: t_take (tx (get s w))) (t_del (tx (get s w))) (t_off (tx (get s w))) (t_ins (tx (get s w))))) [HTook (q_id q)]))).
      { unfold avail. apply permutation_without.
        - apply NoDup_map_inv with (f := q_id). exact ND.
        - exact J.
        - apply negb_true_iff. destruct (taken s (q_id q)) eqn:T; [|reflexivity]. apply taken_spec in T as (v & T). destruct (F v T).
        - apply negb_false_iff. apply taken_spec. exists w. unfold holds. rewrite get_move by exact L. rewrite Nat.eqb_refl. left. reflexivity.
        - intros q' J' N. f_equal.
          assert (EQ : forall v, holds (move s w (with_tx (get s w) (PItem q) (mkT (t_bad (tx (get s w))) (q_id q :: t_take (tx (get s w))) (t_del (tx (get s w))) (t_off (tx (get s w))) (t_ins (tx (get s w))))) [HTook (q_id q)]) v (q_id q') <-> holds s v (q_id q')).
          { intro v. unfold holds. rewrite get_move by exact L. destruct (Nat.eqb v w) eqn:E; [|tauto]. apply Nat.eqb_eq in E. subst v. cbn [with_tx tx t_take In].
            split; [|auto]. intros [X|X]; [|exact X]. exfalso. apply N. apply (NoDup_in_inj q_id (queue (db s))); auto. }
          destruct (taken s (q_id q')) eqn:A.
          + apply taken_spec in A as (v & A). apply EQ in A. symmetry. apply taken_spec. eauto.
          + destruct (taken (move _ _ _ _) (q_id q')) eqn:A2; [|reflexivity]. apply taken_spec in A2 as (v & A2). apply EQ in A2. assert (taken s (q_id q') = true) by (apply taken_spec; eauto). congruence. }
      pose proof (Permutation_length PM) as PL. cbn [List.length] in PL.
      split. { unfold todo. rewrite get_move by exact L. rewrite Nat.eqb_refl, PC. cbn [with_tx pc pending stage]. lia. }
      left. exists q. split; [reflexivity|]. split; [|split; [exact PM|reflexivity]].
      intros q' J'. apply in_avail in J' as [J1 J2]. apply B; assumption.
    + apply (KEEP (at_pc (get s w) PClose) (db s) []); auto; cbn [at_pc pc pending stage]; try discriminate; try lia.
      intros _. left. destruct (avail s) as [|q l] eqn:A; [reflexivity|]. exfalso. assert (J : In q (avail s)) by (rewrite A; left; reflexivity).
      apply in_avail in J as [J1 J2]. destruct (next_row_none s tie NR q J1) as (v & K). exact (J2 v K).
  - destruct (pc (get s w)) eqn:PC; try discriminate ST. injection ST as E. eapply (KEEP _ (db s)); [| | | | | | |exact E]; auto; cbn [at_pc pc pending stage]; try discriminate; try lia; intros [X|[X|X]]; discriminate X.
  - destruct (pc (get s w)) eqn:PC; try discriminate ST. destruct inside; injection ST as E; (eapply (KEEP _ (db s)); [| | | | | | |exact E]); auto; cbn [at_pc pc pending stage]; try discriminate; try lia; intros [X|[X|X]]; discriminate X.
  - destruct (pc (get s w)) eqn:PC; try discriminate ST. injection ST as E. eapply (KEEP _ (db s)); [| | | | | | |exact E]; auto; cbn [at_pc pc pending]; destruct (q_link q); cbn [stage]; try discriminate; try lia; intros [X|[X|X]]; discriminate X.
  - destruct (pc (get s w)) eqn:PC; try discriminate ST. injection ST as E. eapply (KEEP _ (db s)); [| | | | | | |exact E]; auto; cbn [at_pc pc pending stage]; try discriminate; try lia; intros [X|[X|X]]; discriminate X.
  - destruct (pc (get s w)) eqn:PC; try discriminate ST. destruct (existsb _ _); [discriminate|]. injection ST as E. eapply (KEEP _ (db s)); [| | | | | | |exact E]; auto; cbn [with_tx pc pending stage]; try discriminate; try lia; intros [X|[X|X]]; discriminate X.
  - destruct (pc (get s w)) eqn:PC; try discriminate ST. injection ST as E. eapply (KEEP _ (db s)); [| | | | | | |exact E]; auto; cbn [at_pc pc pending stage]; try discriminate; try lia; intros [X|[X|X]]; discriminate X.
  - destruct (pc (get s w)) eqn:PC; try discriminate ST. destruct (existsb _ _); [discriminate|]. injection ST as E. eapply (KEEP _ (db s)); [| | | | | | |exact E]; auto; cbn [with_tx pc pending stage]; try discriminate; try lia; intros [X|[X|X]]; discriminate X.
  - destruct (pc (get s w)) eqn:PC; try discriminate ST. injection ST as E. eapply (KEEP _ _ []); [| | | | | | |exact E]; auto; cbn [with_tx pc pending stage]; try discriminate; try lia; intros [X|[X|X]]; discriminate X.
  - destruct (pc (get s w)) eqn:PC; try discriminate ST. injection ST as E. eapply (KEEP _ (db s)); [| | | | | | |exact E]; auto; cbn [at_pc pc pending stage]; try discriminate; try lia; intros [X|[X|X]]; discriminate X.
  - assert (CM : forall p q0, pc (get s w) <> p -> (stage p < stage (pc (get s w)))%nat -> p <> PDead -> ((p = PIdle \/ p = PFresh \/ p = PClose) -> pc (get s w) = PClose) ->
      mkS (commit (db s) (tx (get s w))) (put (workers s) w (with_tx (get s w) p no_txn)) (facts_of q0 (tx (get s w)) ++ hist s) = s' ->
      alone s' w /\ t_bad (tx (get s' w)) = false /\ pc (get s' w) <> PDead /\ (todo s' w < todo s w)%nat /\
     ((exists q, hist s' = HTook (q_id q) :: hist s /\ (forall q', In q' (avail s) -> ~ precedes q' q) /\
      Permutation (avail s) (q :: avail s') /\ pc (get s' w) = PItem q) \/
   (exists h0, hist s' = h0 ++ hist s /\ taken_ids h0 = [] /\ avail s' = avail s /\
      ((pc (get s' w) = PIdle \/ pc (get s' w) = PFresh \/ pc (get s' w) = PClose) -> avail s' = [] \/ (pc (get s w) = PFresh \/ pc (get s w) = PClose))))).
    { intros p q0 _ SG NP END <-. assert (AV := avail_commit s w (with_tx (get s w) p no_txn) (facts_of q0 (tx (get s w)) ++ hist s) L AL TB eq_refl).
      split; [apply AL'|]. unfold todo. rewrite AV, !get_put by exact L. rewrite !Nat.eqb_refl. cbn [with_tx tx no_txn t_bad pc pending]. split; [reflexivity|]. split; [exact NP|]. split; [lia|].
      right. exists (facts_of q0 (tx (get s w))). split; [reflexivity|]. split; [|split; [reflexivity|intro X; right; right; exact (END X)]].
      unfold facts_of. rewrite TB. unfold taken_ids. rewrite flat_map_app.
      assert (Z1 : forall l, flat_map (fun f : fact => match f with HTook id => [id] | _ => [] end) (map HRemoved l) = []) by (induction l as [|? l IH]; [reflexivity|exact IH]).
      rewrite Z1, app_nil_r. destruct q0; [destruct (t_ins _)|]; reflexivity. }
    destruct (pc (get s w)) eqn:PC; try discriminate ST; injection ST as E; (eapply CM; [| | | |exact E]); try discriminate; cbn [stage]; try lia; try (intros [X|[X|X]]; discriminate X).
    + destruct (listening (get s w)); discriminate.
    + destruct (listening (get s w)); cbn [stage]; lia.
    + destruct (listening (get s w)); discriminate.
    + reflexivity.
  - destruct (pc (get s w)) eqn:PC; try discriminate ST. injection ST as E. eapply (KEEP _ (db s)); [| | | | | | |exact E]; auto; cbn [at_pc pc pending stage]; try discriminate; try lia; intros [X|[X|X]]; discriminate X.
  - destruct (pc (get s w)) eqn:PC; try discriminate ST. injection ST as E. eapply (KEEP _ (db s)); [| | | | | | |exact E]; auto; cbn [at_pc pc pending stage]; try discriminate; try lia.
  - destruct (pc (get s w)) eqn:PC; try discriminate ST. destruct (pending (get s w)) eqn:PN; [discriminate|]. injection ST as E. eapply (KEEP _ (db s)); [| | | | | | |exact E]; auto; cbn [at_pc pc pending stage]; try discriminate; try lia; intros [X|[X|X]]; discriminate X.
Qed.

Definition quiet_means_done (s : state) (w : nat) : Prop :=
  (pc (get s w) = PIdle \/ pc (get s w) = PFresh \/ pc (get s w) = PClose) -> avail s = [].
Lemma sorted_app_first (q : qrow) l : (forall x, In x l -> ~ precedes x q) -> StronglySorted (fun a b => ~ precedes b a) l -> StronglySorted (fun a b => ~ precedes b a) (q :: l).
Proof. intros A B. constructor; [exact B|]. apply Forall_forall. exact A. Qed.
Lemma solo_run w es : forall s s', inv s -> alone s w -> t_bad (tx (get s w)) = false -> pc (get s w) <> PDead -> quiet_means_done s w ->
  forallb (solo w) es = true -> run s es = Some s' ->
  inv s' /\ alone s' w /\ t_bad (tx (get s' w)) = false /\ pc (get s' w) <> PDead /\ quiet_means_done s' w /\
  (List.length es + todo s' w <= todo s w)%nat /\
  exists qs, Permutation (avail s) (qs ++ avail s') /\ rev (taken_ids (hist s')) = rev (taken_ids (hist s)) ++ map q_id qs /\
    StronglySorted (fun a b => ~ precedes b a) qs.
Proof.
  induction es as [|e es IH]; intros s s' I AL B P Q F R.
  - injection R as <-. repeat (split; [assumption|]). split; [cbn; lia|]. exists []. cbn. rewrite app_nil_r. repeat split; [apply Permutation_refl|constructor].
  - cbn [forallb] in F. apply andb_prop in F as [F1 F]. cbn [run] in R. destruct (step s e) as [s1|] eqn:ST; [|discriminate].
    destruct (solo_step s w e s1 I AL B P F1 ST) as (AL1 & B1 & P1 & M & H).
    assert (I1 := inv_step s e s1 I ST).
    assert (Q1 : quiet_means_done s1 w).
    { intro X. destruct H as [(q & _ & _ & _ & PC)|(h0 & _ & _ & AV & END)].
      - rewrite PC in X. destruct X as [X|[X|X]]; discriminate X.
      - destruct (END X) as [Y|Y]; [exact Y|]. rewrite AV. apply Q. tauto. }
    destruct (IH s1 s' I1 AL1 B1 P1 Q1 F R) as (I2 & AL2 & B2 & P2 & Q2 & M2 & qs & PM & TK & SS).
    repeat (split; [assumption|]). split; [cbn [List.length]; lia|].
    destruct H as [(q & HH & FST & PM1 & _)|(h0 & HH & TK0 & AV & _)].
    + exists (q :: qs). split; [rewrite PM1, PM; apply Permutation_refl|]. split.
      * rewrite TK, HH. unfold taken_ids. cbn [flat_map app rev map]. rewrite <- app_assoc. reflexivity.
      * apply sorted_app_first; [|exact SS]. intros x J. apply FST. apply (Permutation_in x (Permutation_sym PM1)). right.
        apply (Permutation_in x (Permutation_sym PM)). apply in_or_app. left. exact J.
    + exists qs. rewrite <- AV. split; [exact PM|]. split; [|exact SS]. rewrite TK, HH. unfold taken_ids in *. rewrite flat_map_app, TK0. reflexivity.
Qed.

(** a lone worker that does not wait for a notification can go on *)
Lemma solo_progress s w : inv s -> alone s w -> pc (get s w) <> PDead -> (pc (get s w) = PIdle -> pending (get s w) <> O) ->
  exists e s', solo w e = true /\ step s e = Some s'.
Proof.
  intros I AL P Q.
  assert (NL : forall ids, existsb (locked_by_other s w) ids = false).
  { intro ids. destruct (existsb _ ids) eqn:E; [|reflexivity]. apply existsb_exists in E as (id & _ & E). unfold locked_by_other in E. apply existsb_exists in E as (v & _ & E).
    apply andb_prop in E as [E1 E2]. apply negb_true_iff, Nat.eqb_neq in E1. rewrite (AL v E1) in E2. discriminate E2. }
  assert (SO : forall e, actor e = Some w -> orderly e = true -> solo w e = true) by (intros e A O; unfold solo; rewrite O, A; apply Nat.eqb_refl).
  destruct (pc (get s w)) eqn:PC; try congruence.
  - exists (Take w (fun _ => 0)). cbn [step]. rewrite PC. destruct (next_row _ _); eexists; (split; [apply SO; reflexivity|reflexivity]).
  - exists (Commit w). cbn [step]. rewrite PC. eexists; (split; [apply SO; reflexivity|reflexivity]).
  - exists (NoArea w). cbn [step]. rewrite PC. eexists; (split; [apply SO; reflexivity|reflexivity]).
  - exists (Delete1 w). cbn [step]. rewrite PC. eexists; (split; [apply SO; reflexivity|reflexivity]).
  - exists (Delete2 w). cbn [step]. rewrite PC, NL. eexists; (split; [apply SO; reflexivity|reflexivity]).
  - exists (Update1 w). cbn [step]. rewrite PC. eexists; (split; [apply SO; reflexivity|reflexivity]).
  - exists (Update2 w). cbn [step]. rewrite PC, NL. eexists; (split; [apply SO; reflexivity|reflexivity]).
  - exists (Insert w 0). cbn [step]. rewrite PC. eexists; (split; [apply SO; reflexivity|reflexivity]).
  - exists (Commit w). cbn [step]. rewrite PC. eexists; (split; [apply SO; reflexivity|reflexivity]).
  - exists (Commit w). cbn [step]. rewrite PC. eexists; (split; [apply SO; reflexivity|reflexivity]).
  - exists (Log w). cbn [step]. rewrite PC. eexists; (split; [apply SO; reflexivity|reflexivity]).
  - exists (Listen w). cbn [step]. rewrite PC. eexists; (split; [apply SO; reflexivity|reflexivity]).
  - destruct (pending (get s w)) eqn:PN; [destruct (Q eq_refl eq_refl)|]. exists (Wake w). cbn [step]. rewrite PC, PN. eexists; (split; [apply SO; reflexivity|reflexivity]).
Qed.

(** With no arrivals, no other worker at work and no failing statements, a worker comes to an end,
    however its audits fare; then every item has been taken exactly once, in order, and is gone. *)
Theorem a_lone_worker_serves_the_queue :
  forall d n s w es s', sound_db d -> reachable d n s -> (forall v, v <> w -> tx (get s v) = no_txn) ->
  pc (get s w) = PTop -> tx (get s w) = no_txn -> forallb (solo w) es = true -> run s es = Some s' ->
  (List.length es <= 12 * List.length (queue (db s)) + 3 + 4 * pending (get s w))%nat /\
  ((forall e, solo w e = true -> step s' e = None) ->
   queue (db s') = [] /\
   exists qs, Permutation qs (queue (db s)) /\ rev (taken_ids (hist s')) = rev (taken_ids (hist s)) ++ map q_id qs /\
     StronglySorted (fun a b => ~ precedes b a) qs).
Proof.
  intros d n s w es s' SD RE AL PC TX F R.
  assert (NH : forall s0, (forall v, tx (get s0 v) = no_txn) -> avail s0 = queue (db s0)).
  { intros s0 H. unfold avail. rewrite (filter_ext_in' _ (fun _ => true)).
    - induction (queue (db s0)) as [|y l IH]; [reflexivity|]. cbn [filter]. f_equal. exact IH.
    - intros q _. apply negb_true_iff. destruct (taken s0 (q_id q)) eqn:T; [|reflexivity]. apply taken_spec in T as (v & T). unfold holds in T. rewrite H in T. destruct T. }
  assert (AV : avail s = queue (db s)). { apply NH. intro v. destruct (Nat.eq_dec v w) as [->|N]; [exact TX|apply AL, N]. }
  destruct (solo_run w es s s') as (I2 & AL2 & B2 & P2 & Q2 & M2 & qs & PM & TK & SS); auto.
  - exact (reachable_inv d n s SD RE).
  - rewrite TX. reflexivity.
  - rewrite PC. discriminate.
  - intro X. rewrite PC in X. destruct X as [X|[X|X]]; discriminate X.
  - unfold todo in M2. rewrite AV, PC in M2. cbn [stage] in M2. split; [lia|]. intro END.
    assert (ID : pc (get s' w) = PIdle).
    { destruct (pc (get s' w)) eqn:PC2; try reflexivity; exfalso;
      (destruct (solo_progress s' w I2 AL2) as (e & s2 & A & B); [congruence|intro X; congruence|rewrite (END e A) in B; discriminate]). }
    assert (AV2 : avail s' = []) by (apply Q2; left; exact ID).
    assert (QU : queue (db s') = []).
    { rewrite <- AV2. symmetry. apply NH. intro v. destruct (Nat.eq_dec v w) as [->|N]; [|apply AL2, N]. destruct I2 as (_ & _ & C & _). pose proof (C w) as (_ & _ & W). rewrite ID in W. exact W. }
    split; [exact QU|]. exists qs. split; [|auto]. rewrite <- AV. rewrite PM, AV2, app_nil_r. apply Permutation_refl.
Qed.
Print Assumptions a_lone_worker_serves_the_queue.
Example lone_worker_example :
  match run (initial (mkDb [item1; item2] [] 3 1) 1) [Start 0] with
  | Some s => tx (get s 0) = no_txn /\ pc (get s 0) = PTop /\
      match run s [Take 0 no_tie; NoArea 0; Take 0 no_tie; Fail 0 true; Commit 0; Take 0 no_tie; Commit 0; Listen 0] with
      | Some s' => queue (db s') = [] /\ List.length (taken_ids (hist s')) = 2%nat
      | None => False
      end
  | None => False
  end.
Proof. vm_compute. repeat split. Qed.
