From Coq Require Import List ZArith Bool String Arith Lia.
From Verif Require Import Prelude Server ServerSpec.
Import ListNotations.
Local Open Scope Z_scope.

Lemma memZ_in x l : memZ x l = true <-> In x l.
Proof.
  unfold memZ. rewrite existsb_exists. split.
  - intros (y & I & E). apply Z.eqb_eq in E. subst. exact I.
  - intro I. exists x. split; [exact I|apply Z.eqb_refl].
Qed.
Lemma memZ_out x l : memZ x l = false <-> ~ In x l.
Proof. rewrite <- memZ_in. destruct (memZ x l); intuition congruence. Qed.

Lemma put_len l : forall w x, List.length (put l w x) = List.length l.
Proof. induction l as [|y l IH]; intros [|w] x; cbn [put List.length]; auto. Qed.
Lemma nth_put l : forall w i x, nth i (put l w x) dead = if Nat.eqb i w then (if Nat.ltb w (List.length l) then x else dead) else nth i l dead.
Proof.
  induction l as [|y l IH]; intros w i x.
  - cbn [put List.length]. destruct i; cbn [nth]; destruct (Nat.eqb _ w); try reflexivity; destruct w; reflexivity.
  - destruct w as [|w], i as [|i]; cbn [put nth List.length Nat.eqb]; try reflexivity.
    rewrite IH. destruct (Nat.eqb i w); [|reflexivity]. destruct (Nat.ltb w (List.length l)) eqn:E.
    + apply Nat.ltb_lt in E. replace (Nat.ltb (S w) (S (List.length l))) with true by (symmetry; apply Nat.ltb_lt; lia). reflexivity.
    + apply Nat.ltb_ge in E. replace (Nat.ltb (S w) (S (List.length l))) with false by (symmetry; apply Nat.ltb_ge; lia). reflexivity.
Qed.
Lemma get_out s w : (List.length (workers s) <= w)%nat -> get s w = dead.
Proof. intro L. unfold get. apply nth_overflow. exact L. Qed.
Lemma alive_in s w : pc (get s w) <> PDead -> (w < List.length (workers s))%nat.
Proof. intro N. destruct (Nat.lt_ge_cases w (List.length (workers s))) as [L|G]; [exact L|]. exfalso. apply N. rewrite get_out by exact G. reflexivity. Qed.

(** reading the workers after a change *)
Lemma get_mkS d l h w : get (mkS d l h) w = nth w l dead.
Proof. reflexivity. Qed.
Lemma get_put s d h w x i : (w < List.length (workers s))%nat ->
  get (mkS d (put (workers s) w x) h) i = if Nat.eqb i w then x else get s i.
Proof. intro L. rewrite get_mkS, nth_put. apply Nat.ltb_lt in L. rewrite L. reflexivity. Qed.
Lemma get_move s w x h i : (w < List.length (workers s))%nat -> get (move s w x h) i = if Nat.eqb i w then x else get s i.
Proof. apply get_put. Qed.

Lemma taken_spec s id : taken s id = true <-> exists w, holds s w id.
Proof.
  unfold taken, holds. rewrite existsb_exists. split.
  - intros (x & I & M). apply memZ_in in M. destruct (In_nth _ _ dead I) as (n & _ & E). exists n. unfold get. rewrite E. exact M.
  - intros (w & M). destruct (Nat.lt_ge_cases w (List.length (workers s))) as [L|G].
    + exists (get s w). split; [apply nth_In; exact L|apply memZ_in; exact M].
    + rewrite get_out in M by exact G. contradiction.
Qed.
Lemma notified s d h f : (f dead = dead) -> forall i, get (mkS d (map f (workers s)) h) i = f (get s i).
Proof. intros F i. rewrite get_mkS. unfold get. rewrite <- F at 1. apply map_nth. Qed.

(** ** Serving order *)
Lemma first_row_spec tie l :
  match first_row tie l with
  | None => l = []
  | Some q => In q l /\ forall q', In q' l -> ~ precedes q' q
  end.
Proof.
  assert (B : forall a b, before tie a b = true -> ~ precedes b a).
  { intros a b. unfold before, precedes. destruct (q_priority a =? q_priority b) eqn:E.
    - apply Z.eqb_eq in E. destruct (q_ts a =? q_ts b) eqn:F; [apply Z.eqb_eq in F; lia|]. rewrite Z.ltb_lt. lia.
    - apply Z.eqb_neq in E. rewrite Z.ltb_lt. lia. }
  assert (B' : forall a b, before tie a b = false -> ~ precedes a b).
  { intros a b. unfold before, precedes. destruct (q_priority a =? q_priority b) eqn:E.
    - apply Z.eqb_eq in E. destruct (q_ts a =? q_ts b) eqn:F; [apply Z.eqb_eq in F; lia|]. rewrite Z.ltb_ge. lia.
    - apply Z.eqb_neq in E. rewrite Z.ltb_ge. lia. }
  assert (T : forall a b c, ~ precedes b a -> ~ precedes c b -> ~ precedes c a) by (intros a b c; unfold precedes; lia).
  assert (R : forall a, ~ precedes a a) by (intro a; unfold precedes; lia).
  induction l as [|x l IH]; cbn [first_row]; [reflexivity|].
  destruct (first_row tie l) as [y|].
  - destruct IH as [I M]. destruct (before tie x y) eqn:E.
    + split; [left; reflexivity|]. intros q' [<-|J]; [apply R|]. exact (T x y q' (B x y E) (M q' J)).
    + split; [right; exact I|]. intros q' [<-|J]; [exact (B' _ _ E)|exact (M q' J)].
  - subst l. split; [left; reflexivity|]. intros q' [<-|[]]. apply R.
Qed.
Lemma next_row_some s tie q : next_row s tie = Some q ->
  In q (queue (db s)) /\ (forall w, ~ holds s w (q_id q)) /\
  forall q', In q' (queue (db s)) -> (forall w, ~ holds s w (q_id q')) -> ~ precedes q' q.
Proof.
  unfold next_row. intro E. pose proof (first_row_spec tie (filter (fun q => negb (taken s (q_id q))) (queue (db s)))) as S. rewrite E in S.
  destruct S as [I M]. apply filter_In in I as [I N]. split; [exact I|]. split.
  - intros w H. apply negb_true_iff in N. assert (taken s (q_id q) = true) by (apply taken_spec; exists w; exact H). congruence.
  - intros q' J H. apply M. apply filter_In. split; [exact J|]. destruct (taken s (q_id q')) eqn:T; [|reflexivity].
    apply taken_spec in T as (w & T). destruct (H w T).
Qed.
Lemma next_row_none s tie : next_row s tie = None -> forall q, In q (queue (db s)) -> exists w, holds s w (q_id q).
Proof.
  unfold next_row. intro E. pose proof (first_row_spec tie (filter (fun q => negb (taken s (q_id q))) (queue (db s)))) as S. rewrite E in S.
  intros q I. apply taken_spec. destruct (taken s (q_id q)) eqn:T; [reflexivity|].
  assert (In q []) by (rewrite <- S; apply filter_In; rewrite T; auto). contradiction.
Qed.

(** ** Invariants of single workers *)
Definition idle_txn (t : txn) : Prop := t_bad t = false /\ t_del t = [] /\ t_off t = [] /\ t_ins t = None.
Definition in_hand (d : database) (t : txn) (q : qrow) : Prop := In q (queue d) /\ In (q_id q) (t_take t).
Definition made_from (q : qrow) (r : rrow) : Prop := exists id res ts rev, r = new_result id q res ts rev.
Definition wok (d : database) (x : worker) : Prop :=
  NoDup (t_take (tx x)) /\ incl (t_take (tx x)) (map q_id (queue d)) /\
  match pc x with
  | PDead | PFresh | PIdle | PUnlogged _ => tx x = no_txn
  | PTop | PClose => idle_txn (tx x)
  | PItem q | PBroken q => idle_txn (tx x) /\ in_hand d (tx x) q
  | PDel q _ | PDelWait q _ _ => idle_txn (tx x) /\ in_hand d (tx x) q /\ q_link q = false
  | POff q _ | POffWait q _ _ => t_bad (tx x) = false /\ t_off (tx x) = [] /\ t_ins (tx x) = None /\ in_hand d (tx x) q /\ q_link q = false
  | PIns q _ => t_bad (tx x) = false /\ t_ins (tx x) = None /\ in_hand d (tx x) q /\ (q_link q = true -> idle_txn (tx x))
  | PEnd q => (t_bad (tx x) = true /\ t_take (tx x) = [] /\ t_del (tx x) = [] /\ t_off (tx x) = [] /\ t_ins (tx x) = None) \/
              (t_bad (tx x) = false /\ in_hand d (tx x) q /\ match t_ins (tx x) with None => True | Some r => made_from q r end /\
               (q_link q = true -> t_del (tx x) = [] /\ t_off (tx x) = []))
  end.
Definition one_hand (s : state) : Prop := forall v w id, v <> w -> holds s v id -> holds s w id -> False.
Definition inv (s : state) : Prop :=
  NoDup (map q_id (queue (db s))) /\ (forall q, In q (queue (db s)) -> q_id q < next_q (db s)) /\
  (forall w, wok (db s) (get s w)) /\ one_hand s.

Lemma wok_queue d d' x : (forall q, In q (queue d) -> In q (queue d')) -> wok d x -> wok d' x.
Proof.
  intros H (N & I & P). split; [exact N|]. split.
  - intros id J. apply I in J. apply in_map_iff in J as (q & <- & J). apply in_map. apply H. exact J.
  - destruct (pc x); unfold in_hand in *; intuition.
Qed.
Lemma inv_initial d n : sound_db d -> inv (initial d n).
Proof.
  intros (A & B & _). split; [exact A|]. split; [exact B|].
  assert (G : forall w, get (initial d n) w = dead).
  { intro w. unfold get, initial. cbn [workers]. destruct (Nat.lt_ge_cases w n) as [L|L].
    - apply nth_repeat.
    - apply nth_overflow. rewrite repeat_length. exact L. }
  split.
  - intro w. rewrite G. split; [constructor|]. split; [intros x []|reflexivity].
  - intros v w id _ H. unfold holds in H. rewrite G in H. contradiction.
Qed.

(** a worker moves, the database stays, and it holds no row it did not hold *)
Lemma inv_change s w x d h :
  inv s -> (w < List.length (workers s))%nat -> queue d = queue (db s) -> next_q d = next_q (db s) ->
  wok d x -> incl (t_take (tx x)) (t_take (tx (get s w))) -> inv (mkS d (put (workers s) w x) h).
Proof.
  intros (A & B & C & D) L Q NQ W I. unfold inv. cbn [db]. rewrite Q, NQ. split; [exact A|]. split; [exact B|]. split.
  - intro v. rewrite get_put by exact L. destruct (Nat.eqb v w); [exact W|].
    eapply wok_queue; [|apply C]. rewrite Q. auto.
  - intros u v id N H K. unfold holds in H, K. rewrite get_put in H, K by exact L.
    destruct (Nat.eqb u w) eqn:E, (Nat.eqb v w) eqn:F.
    + apply Nat.eqb_eq in E, F. congruence.
    + apply Nat.eqb_eq in E. subst u. exact (D w v id N (I _ H) K).
    + apply Nat.eqb_eq in F. subst v. exact (D u w id N H (I _ K)).
    + exact (D u v id N H K).
Qed.

Lemma at_pc_tx x p : tx (at_pc x p) = tx x. Proof. reflexivity. Qed.

Lemma commit_queue d t q : In q (queue (commit d t)) <-> In q (queue d) /\ (t_bad t = true \/ ~ In (q_id q) (t_take t)).
Proof.
  unfold commit. destruct (t_bad t); [intuition|]. cbn [queue]. rewrite filter_In, negb_true_iff, memZ_out. intuition congruence.
Qed.
Lemma commit_next d t : next_q (commit d t) = next_q d /\ next_r (commit d t) = next_r d.
Proof. unfold commit. destruct (t_bad t); auto. Qed.
Lemma NoDup_map_filter {A B} (f : A -> B) p l : NoDup (map f l) -> NoDup (map f (filter p l)).
Proof.
  induction l as [|x l IH]; [auto|]. intro N. inversion N as [|? ? X Y]; subst. cbn [filter]. destruct (p x); [|auto].
  cbn [map]. constructor; [|auto]. intro J. apply X. apply in_map_iff in J as (y & E & J). apply filter_In in J as [J _]. rewrite <- E. apply in_map. exact J.
Qed.

Lemma inv_commit s w p h :
  inv s -> (w < List.length (workers s))%nat ->
  (forall d, wok d (with_tx (get s w) p no_txn)) ->
  inv (mkS (commit (db s) (tx (get s w))) (put (workers s) w (with_tx (get s w) p no_txn)) h).
Proof.
  intros (A & B & C & D) L W. unfold inv. cbn [db]. destruct (commit_next (db s) (tx (get s w))) as [NQ _]. rewrite NQ.
  split. { unfold commit. destruct (t_bad _); [exact A|]. cbn [queue]. apply NoDup_map_filter, A. }
  split. { intros q J. apply commit_queue in J as [J _]. apply B, J. }
  split.
  - intro v. rewrite get_put by exact L. destruct (Nat.eqb v w) eqn:E; [apply W|]. apply Nat.eqb_neq in E.
    destruct (C v) as (N1 & I1 & P1). split; [exact N1|].
    assert (K : forall q, In q (queue (db s)) -> In (q_id q) (t_take (tx (get s v))) -> In q (queue (commit (db s) (tx (get s w))))).
    { intros q J T. apply commit_queue. split; [exact J|]. right. intro T2. exact (D v w (q_id q) E T T2). }
    split.
    + intros id J. pose proof (I1 id J) as J2. apply in_map_iff in J2 as (q & <- & J2). apply in_map. apply K; assumption.
    + destruct (pc (get s v)); unfold in_hand in *; intuition.
  - intros u v id N H K. unfold holds in H, K. rewrite get_put in H, K by exact L.
    destruct (Nat.eqb u w); [contradiction|]. destruct (Nat.eqb v w); [contradiction|]. exact (D u v id N H K).
Qed.

Ltac alive H := match type of H with pc (get ?s ?w) = ?p => let L := fresh "L" in assert (L : (w < List.length (workers s))%nat) by (apply alive_in; rewrite H; discriminate) end.

Lemma wok_at d x p : wok d x -> (match pc x with _ => True end) ->
  (match p with
  | PDead | PFresh | PIdle | PUnlogged _ => tx x = no_txn
  | PTop | PClose => idle_txn (tx x)
  | PItem q | PBroken q => idle_txn (tx x) /\ in_hand d (tx x) q
  | PDel q _ | PDelWait q _ _ => idle_txn (tx x) /\ in_hand d (tx x) q /\ q_link q = false
  | POff q _ | POffWait q _ _ => t_bad (tx x) = false /\ t_off (tx x) = [] /\ t_ins (tx x) = None /\ in_hand d (tx x) q /\ q_link q = false
  | PIns q _ => t_bad (tx x) = false /\ t_ins (tx x) = None /\ in_hand d (tx x) q /\ (q_link q = true -> idle_txn (tx x))
  | PEnd q => (t_bad (tx x) = true /\ t_take (tx x) = [] /\ t_del (tx x) = [] /\ t_off (tx x) = [] /\ t_ins (tx x) = None) \/
              (t_bad (tx x) = false /\ in_hand d (tx x) q /\ match t_ins (tx x) with None => True | Some r => made_from q r end /\
               (q_link q = true -> t_del (tx x) = [] /\ t_off (tx x) = []))
  end) -> wok d (at_pc x p).
Proof. intros (N & I & _) _ P. split; [exact N|]. split; [exact I|]. exact P. Qed.

Lemma inv_move s w x h : inv s -> (w < List.length (workers s))%nat -> wok (db s) x -> incl (t_take (tx x)) (t_take (tx (get s w))) -> inv (move s w x h).
Proof. intros I L W T. unfold move. apply inv_change; auto. Qed.

Lemma wok_fresh d p l n : (match p with PDead | PFresh | PIdle | PUnlogged _ | PTop | PClose => True | _ => False end) -> wok d (mkW p l n no_txn).
Proof. intro P. split; [constructor|]. split; [intros ? []|]. cbn [pc tx]. destruct p; try contradiction; try reflexivity; repeat split. Qed.

Lemma inv_step s e s' : inv s -> step s e = Some s' -> inv s'.
Proof.
  intros I. pose proof I as (A & B & C & D). destruct e; cbn [step].
  - intros [= <-]. unfold inv. cbn [db queue next_q].
    assert (G : forall i, get (mkS (mkDb (queue (db s) ++ [mkQ (next_q (db s)) priority ts student stnum catalog code run expires link]) (results (db s)) (next_q (db s) + 1) (next_r (db s)))
                (map (fun x => if listening x then mkW (pc x) true (S (pending x)) (tx x) else x) (workers s)) (hist s)) i
             = (fun x => if listening x then mkW (pc x) true (S (pending x)) (tx x) else x) (get s i)) by (apply notified; reflexivity).
    assert (GT : forall x, tx (if listening x then mkW (pc x) true (S (pending x)) (tx x) else x) = tx x) by (intro x; destruct (listening x); reflexivity).
    split. { rewrite map_app. cbn [map q_id].
      clear -A B. induction (queue (db s)) as [|q l IH]; cbn [map app]; [repeat constructor; intros []|].
      inversion A as [|? ? X Y]; subst. constructor.
      - rewrite in_app_iff. intros [J|[J|[]]]; [exact (X J)|]. specialize (B q (or_introl eq_refl)). lia.
      - apply IH; [exact Y|]. intros q' J. apply B. right. exact J. }
    split. { intros q J. apply in_app_iff in J as [J|[<-|[]]]; [apply B in J; lia|cbn [q_id]; lia]. }
    split.
    + intro w. rewrite G. cbv beta. apply wok_queue with (d := db s). { intros q J. cbn [queue]. apply in_app_iff. auto. }
      destruct (C w) as (P1 & P2 & P3). destruct (listening (get s w)); [|split; [exact P1|split; [exact P2|exact P3]]].
      split; [exact P1|]. split; [exact P2|exact P3].
    + intros v w id N H K. unfold holds in H, K. rewrite G in H, K. cbv beta in H, K. rewrite GT in H, K. exact (D v w id N H K).
  - destruct (forallb _ _); [|discriminate]. intros [= <-]. unfold inv. cbn [db queue next_q]. split; [exact A|]. split; [exact B|]. split; [|exact D]. intro w. apply wok_queue with (d := db s); [auto|apply C].
  - destruct (pc (get s w)) eqn:P; try discriminate. destruct (Nat.ltb _ _) eqn:L; [|discriminate]. apply Nat.ltb_lt in L. intros [= <-].
    apply inv_move; auto; [apply wok_fresh; exact Logic.I|intros ? []].
  - destruct (pc (get s w)) eqn:P; try discriminate. alive P. pose proof (C w) as W. destruct (next_row s tie) as [q|] eqn:E; intros [= <-].
    + apply next_row_some in E as (J & F & _). destruct W as (W1 & W2 & W3). rewrite P in W3.
      unfold inv, move. cbn [db]. split; [exact A|]. split; [exact B|]. split.
      * intro v. rewrite get_put by exact L. destruct (Nat.eqb v w); [|apply C].
        split; [cbn [with_tx tx t_take]; constructor; [exact (F w)|exact W1]|]. split.
        { cbn [with_tx tx t_take]. intros id [<-|K]; [apply in_map; exact J|exact (W2 id K)]. }
        cbn [with_tx pc tx]. split; [exact W3|]. split; [exact J|left; reflexivity].
      * intros u v id N H K. unfold holds in H, K. rewrite get_put in H, K by exact L.
        destruct (Nat.eqb u w) eqn:Eu, (Nat.eqb v w) eqn:Ev.
        { apply Nat.eqb_eq in Eu, Ev. congruence. }
        { apply Nat.eqb_eq in Eu. subst u. cbn [with_tx tx t_take] in H. destruct H as [<-|H]; [exact (F v K)|exact (D w v id N H K)]. }
        { apply Nat.eqb_eq in Ev. subst v. cbn [with_tx tx t_take] in K. destruct K as [<-|K]; [exact (F u H)|exact (D u w id N H K)]. }
        { exact (D u v id N H K). }
    + apply inv_move; auto; [|apply incl_refl]. apply wok_at; auto. destruct W as (_ & _ & W). rewrite P in W. exact W.
  - destruct (pc (get s w)) eqn:P; try discriminate. alive P. pose proof (C w) as W. intros [= <-]. apply inv_move; auto; [|apply incl_refl]. apply wok_at; auto.
    destruct W as (_ & _ & W). rewrite P in W. apply W.
  - destruct (pc (get s w)) eqn:P; try discriminate. alive P. pose proof (C w) as W. pose proof W as (_ & _ & W3). rewrite P in W3. destruct W3 as [(I1 & I2 & I3 & I4) W3].
    destruct inside; intros [= <-]; (apply inv_move; [exact I|exact L| |apply incl_refl]); apply wok_at; auto.
    + right. rewrite I4. repeat split; auto; apply W3.
    + repeat split; auto; apply W3.
  - destruct (pc (get s w)) eqn:P; try discriminate. alive P. pose proof (C w) as W. pose proof W as (_ & _ & W3). rewrite P in W3. destruct W3 as [I1 W3].
    intros [= <-]; (apply inv_move; [exact I|exact L| |apply incl_refl]); apply wok_at; auto.
    destruct (q_link q) eqn:Q; repeat split; auto; try apply W3; apply I1.
  - destruct (pc (get s w)) eqn:P; try discriminate. alive P. pose proof (C w) as W. pose proof W as (_ & _ & W3). rewrite P in W3.
    intros [= <-]; (apply inv_move; [exact I|exact L| |apply incl_refl]); apply wok_at; auto.
  - destruct (pc (get s w)) eqn:P; try discriminate. alive P. pose proof (C w) as W. pose proof W as (W1 & W2 & W3). rewrite P in W3.
    destruct (existsb _ _); [discriminate|]. intros [= <-]; (apply inv_move; [exact I|exact L| |apply incl_refl]).
    split; [exact W1|]. split; [exact W2|]. cbn [with_tx pc tx t_bad t_off t_ins]. destruct W3 as ((E1 & E2 & E3 & E4) & E5 & E6). repeat split; auto; apply E5.
  - destruct (pc (get s w)) eqn:P; try discriminate. alive P. pose proof (C w) as W. pose proof W as (_ & _ & W3). rewrite P in W3.
    intros [= <-]; (apply inv_move; [exact I|exact L| |apply incl_refl]); apply wok_at; auto.
  - destruct (pc (get s w)) eqn:P; try discriminate. alive P. pose proof (C w) as W. pose proof W as (W1 & W2 & W3). rewrite P in W3.
    destruct (existsb _ _); [discriminate|]. intros [= <-]; (apply inv_move; [exact I|exact L| |apply incl_refl]).
    split; [exact W1|]. split; [exact W2|]. cbn [with_tx pc tx t_bad t_off t_ins]. destruct W3 as (E1 & E2 & E3 & E4 & E5). split; [exact E1|]. split; [exact E3|]. split; [exact E4|]. intro; congruence.
  - destruct (pc (get s w)) eqn:P; try discriminate. alive P. pose proof (C w) as W. pose proof W as (W1 & W2 & W3). rewrite P in W3.
    intros [= <-]. apply inv_change; auto; [|apply incl_refl].
    split; [exact W1|]. split; [exact W2|]. cbn [with_tx pc tx t_bad t_off t_ins t_del]. destruct W3 as (E1 & E2 & E3 & E4). right. split; [exact E1|]. split; [exact E3|]. split.
    + do 4 eexists. reflexivity.
    + intro Q. destruct (E4 Q) as (_ & ? & ? & _). auto.
  - destruct (pc (get s w)) eqn:P; try discriminate. alive P. pose proof (C w) as W. pose proof W as (_ & _ & W3). rewrite P in W3.
    intros [= <-]; (apply inv_move; [exact I|exact L| |apply incl_refl]); apply wok_at; auto.
    destruct W3 as (E1 & E2 & E3 & E4). right. rewrite E2. split; [exact E1|]. split; [exact E3|]. split; [exact Logic.I|]. intro Q. destruct (E4 Q) as (_ & ? & ? & _). auto.
  - assert (G : forall q, (w < List.length (workers s))%nat -> inv (move s w (with_tx (get s w) (PEnd q) (mkT true [] [] [] None)) [HLogged (q_id q)])).
    { intros q L. apply inv_move; auto; [|intros ? []]. split; [constructor|]. split; [intros ? []|]. left. repeat split. }
    destruct (pc (get s w)) eqn:P; try discriminate; alive P; intros [= <-]; apply G; exact L.
  - destruct (pc (get s w)) eqn:P; try discriminate; alive P; intros [= <-]; (apply inv_commit; [exact I|exact L|]); intro d; apply wok_fresh; try exact Logic.I.
    destruct (listening (get s w)); exact Logic.I.
  - destruct (pc (get s w)) eqn:P; try discriminate. alive P. pose proof (C w) as W. pose proof W as (_ & _ & W3). rewrite P in W3.
    intros [= <-]; (apply inv_move; [exact I|exact L| |apply incl_refl]); apply wok_at; auto. rewrite W3. repeat split.
  - destruct (pc (get s w)) eqn:P; try discriminate. alive P. pose proof (C w) as W. pose proof W as (_ & _ & W3). rewrite P in W3.
    intros [= <-]; (apply inv_move; [exact I|exact L| |apply incl_refl]). rewrite W3. apply wok_fresh. exact Logic.I.
  - destruct (pc (get s w)) eqn:P; try discriminate. alive P. destruct (pending (get s w)) eqn:PN; try discriminate. pose proof (C w) as W. pose proof W as (_ & _ & W3). rewrite P in W3.
    intros [= <-]; (apply inv_move; [exact I|exact L| |apply incl_refl]). rewrite W3. apply wok_fresh. exact Logic.I.
  - assert (G : (w < List.length (workers s))%nat -> inv (move s w dead [])).
    { intro L. apply inv_move; auto; [|intros ? []]. apply wok_fresh. exact Logic.I. }
    destruct (pc (get s w)) eqn:P; try discriminate; alive P; intros [= <-]; apply G; exact L.
Qed.

Lemma run_app s es fs : run s (es ++ fs) = match run s es with None => None | Some s' => run s' fs end.
Proof. revert s. induction es as [|e es IH]; intro s; cbn [app run]; [reflexivity|]. destruct (step s e); [apply IH|reflexivity]. Qed.
Lemma run_inv (P : state -> Prop) : (forall s e s', P s -> step s e = Some s' -> P s') -> forall es s s', P s -> run s es = Some s' -> P s'.
Proof.
  intro H. induction es as [|e es IH]; intros s s' I; cbn [run]; [intros [= <-]; exact I|].
  destruct (step s e) as [s1|] eqn:E; [|discriminate]. apply IH. eapply H; eassumption.
Qed.
Lemma reachable_inv d n s : sound_db d -> reachable d n s -> inv s.
Proof. intros S (es & R). eapply run_inv; [exact inv_step|apply inv_initial; exact S|exact R]. Qed.
