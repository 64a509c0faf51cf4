From Coq Require Import List ZArith Bool String Arith Lia.
From Verif Require Import Prelude Server ServerSpec ServerProofs.
Import ListNotations.
Local Open Scope Z_scope.

(** ** Items are settled *)
Definition open_item (x : worker) : option qrow :=
  match pc x with
  | PItem q | PBroken q | PDel q _ | PDelWait q _ _ | POff q _ | POffWait q _ _ | PIns q _ => Some q
  | PEnd q => match t_ins (tx x) with Some _ => Some q | None => None end
  | _ => None
  end.
(** what a worker holds is its item, or it was logged *)
Definition hinv (s : state) : Prop :=
  forall w id, holds s w id -> logged s id \/ exists q, open_item (get s w) = Some q /\ q_id q = id.

Lemma hinv_change s w x d h0 :
  hinv s -> (w < List.length (workers s))%nat ->
  (forall id, In id (t_take (tx x)) -> In (HLogged id) (h0 ++ hist s) \/ exists q, open_item x = Some q /\ q_id q = id) ->
  hinv (mkS d (put (workers s) w x) (h0 ++ hist s)).
Proof.
  intros H L X v id K. unfold holds in K. rewrite get_put in K by exact L. unfold logged. cbn [hist]. rewrite get_put by exact L. destruct (Nat.eqb v w).
  - apply X. exact K.
  - destruct (H v id K) as [J|J]; [left; apply in_app_iff; right; exact J|right; exact J].
Qed.

Lemma hinv_step s e s' : inv s -> hinv s -> step s e = Some s' -> hinv s'.
Proof.
  intros I H. pose proof I as (A & B & C & D).
  assert (HW : forall w id, In id (t_take (tx (get s w))) -> In (HLogged id) (hist s) \/ exists q, open_item (get s w) = Some q /\ q_id q = id) by (exact H).
  unfold open_item in HW.
  destruct e; cbn [step].
  - intros [= <-] w id K. unfold holds in K. unfold logged. cbn [hist].
    rewrite (notified s _ _ (fun x => if listening x then mkW (pc x) true (S (pending x)) (tx x) else x)) in K |- * by reflexivity. cbv beta in *.
    destruct (listening (get s w)); exact (H w id K).
  - destruct (forallb _ _); [|discriminate]. intros [= <-] w id K. exact (H w id K).
  - destruct (pc (get s w)) eqn:P; try discriminate. destruct (Nat.ltb _ _) eqn:L; [|discriminate]. apply Nat.ltb_lt in L. intros [= <-]. apply hinv_change; auto. intros id [].
  - destruct (pc (get s w)) eqn:P; try discriminate. alive P. specialize (HW w). rewrite P in HW. destruct (next_row s tie) as [q|] eqn:E; intros [= <-]; apply hinv_change; auto.
    + cbn [with_tx tx t_take open_item pc]. intros id [<-|K]; [right; exists q; auto|]. left. right. destruct (HW id K) as [J|(q1 & J & _)]; [exact J|discriminate].
  - destruct (pc (get s w)) eqn:P; try discriminate. alive P. specialize (HW w). rewrite P in HW. intros [= <-]. apply hinv_change; auto.
    intros id K. left. destruct (HW id K) as [J|(q1 & [= <-] & J)]; [right; exact J|left; congruence].
  - destruct (pc (get s w)) eqn:P; try discriminate. alive P. specialize (HW w). rewrite P in HW. destruct inside; intros [= <-]; apply hinv_change; auto.
    intros id K. left. destruct (HW id K) as [J|(q1 & [= <-] & J)]; [right; exact J|left; congruence].
  - destruct (pc (get s w)) eqn:P; try discriminate. alive P. specialize (HW w). rewrite P in HW. intros [= <-]. apply hinv_change; auto.
    intros id K. destruct (HW id K) as [J|(q1 & [= <-] & J)]; [left; exact J|right]. exists q. cbn [at_pc open_item pc]. destruct (q_link q); auto.
  - destruct (pc (get s w)) eqn:P; try discriminate. alive P. specialize (HW w). rewrite P in HW. intros [= <-]. apply hinv_change; auto.
  - destruct (pc (get s w)) eqn:P; try discriminate. alive P. specialize (HW w). rewrite P in HW. destruct (existsb _ _); [discriminate|]. intros [= <-]. apply hinv_change; auto.
  - destruct (pc (get s w)) eqn:P; try discriminate. alive P. specialize (HW w). rewrite P in HW. intros [= <-]. apply hinv_change; auto.
  - destruct (pc (get s w)) eqn:P; try discriminate. alive P. specialize (HW w). rewrite P in HW. destruct (existsb _ _); [discriminate|]. intros [= <-]. apply hinv_change; auto.
  - destruct (pc (get s w)) eqn:P; try discriminate. alive P. specialize (HW w). rewrite P in HW. intros [= <-]. apply (hinv_change s w _ _ []); auto.
  - destruct (pc (get s w)) eqn:P; try discriminate. alive P. specialize (HW w). rewrite P in HW. intros [= <-]. apply hinv_change; auto.
    intros id K. left. destruct (HW id K) as [J|(q1 & [= <-] & J)]; [right; exact J|left; congruence].
  - destruct (pc (get s w)) eqn:P; try discriminate; alive P; intros [= <-]; (apply hinv_change; [exact H|exact L|]); intros id [].
  - destruct (pc (get s w)) eqn:P; try discriminate; alive P; intros [= <-]; (apply hinv_change; [exact H|exact L|]); intros id [].
  - destruct (pc (get s w)) eqn:P; try discriminate. alive P. pose proof (C w) as (_ & _ & W). rewrite P in W. intros [= <-]. apply hinv_change; auto. cbn [at_pc tx]. rewrite W. intros id [].
  - destruct (pc (get s w)) eqn:P; try discriminate. alive P. pose proof (C w) as (_ & _ & W). rewrite P in W. intros [= <-]. apply hinv_change; auto. cbn [tx]. rewrite W. intros id [].
  - destruct (pc (get s w)) eqn:P; try discriminate. alive P. destruct (pending _); try discriminate. pose proof (C w) as (_ & _ & W). rewrite P in W. intros [= <-]. apply hinv_change; auto. cbn [tx]. rewrite W. intros id [].
  - destruct (pc (get s w)) eqn:P; try discriminate; alive P; intros [= <-]; (apply hinv_change; [exact H|exact L|]); intros id [].
Qed.

(** what an event does to the committed database, the history and the workers *)
Inductive effect (s : state) (e : event) (s' : state) : Prop :=
| ef_outside : actor e = None -> hist s' = hist s -> (forall q, In q (queue (db s)) -> In q (queue (db s'))) ->
    (forall w, pc (get s' w) = pc (get s w)) -> effect s e s'
| ef_commit w q0 : e = Commit w -> db s' = commit (db s) (tx (get s w)) -> hist s' = facts_of q0 (tx (get s w)) ++ hist s ->
    (forall v, v <> w -> get s' v = get s v) ->
    (pc (get s w) = PClose /\ q0 = None \/ exists q, q0 = Some q /\ (pc (get s w) = PEnd q \/ pc (get s w) = PBroken q /\ pc (get s' w) = PUnlogged q)) -> effect s e s'
| ef_own w h0 : actor e = Some w -> (forall v, v <> w -> get s' v = get s v) -> queue (db s') = queue (db s) -> results (db s') = results (db s) -> hist s' = h0 ++ hist s ->
    (forall f, In f h0 -> match f with HTook _ | HLogged _ => True | _ => False end) ->
    (forall q, pc (get s w) = PUnlogged q -> In (HLogged (q_id q)) h0 \/ e = Crash w) -> (forall w', e <> Commit w') -> effect s e s'.

Lemma step_effect s e s' : step s e = Some s' -> effect s e s'.
Proof.
  assert (M : forall w x h0 s', (w < List.length (workers s))%nat -> actor e = Some w -> move s w x h0 = s' ->
    (forall f, In f h0 -> match f with HTook _ | HLogged _ => True | _ => False end) ->
    (forall q, pc (get s w) = PUnlogged q -> In (HLogged (q_id q)) h0 \/ e = Crash w) -> (forall w', e <> Commit w') -> effect s e s').
  { intros w x h0 s1 L AC <- F U NC. apply (ef_own s e _ w h0); auto. intros v N. rewrite get_move by exact L. apply Nat.eqb_neq in N. rewrite N. reflexivity. }
  assert (NF : forall f : fact, In f [] -> match f with HTook _ | HLogged _ => True | _ => False end) by (intros f []).
  assert (TF : forall id f, In f [HTook id] -> match f with HTook _ | HLogged _ => True | _ => False end) by (intros id f [<-|[]]; exact I).
  assert (LF : forall id f, In f [HLogged id] -> match f with HTook _ | HLogged _ => True | _ => False end) by (intros id f [<-|[]]; exact I).
  destruct e; cbn [step].
  - intros [= <-]. apply ef_outside; auto.
    + intros q J. cbn [db queue]. apply in_app_iff. auto.
    + intro w. rewrite (notified s _ _ (fun x => if listening x then mkW (pc x) true (S (pending x)) (tx x) else x)) by reflexivity. cbv beta. destruct (listening _); reflexivity.
  - destruct (forallb _ _); [|discriminate]. intros [= <-]. apply ef_outside; auto.
  - destruct (pc (get s w)) eqn:P; try discriminate. destruct (Nat.ltb _ _) eqn:L; [|discriminate]. apply Nat.ltb_lt in L. intros [= E]. apply (M w _ _ _ L eq_refl E); auto; congruence.
  - destruct (pc (get s w)) eqn:P; try discriminate. alive P. destruct (next_row s tie) as [q|]; intros [= E]; apply (M w _ _ _ L eq_refl E); auto; try congruence; apply TF.
  - destruct (pc (get s w)) eqn:P; try discriminate. alive P. intros [= E]; apply (M w _ _ _ L eq_refl E); auto; try congruence; apply LF.
  - destruct (pc (get s w)) eqn:P; try discriminate. alive P. destruct inside; intros [= E]; apply (M w _ _ _ L eq_refl E); auto; try congruence; apply LF.
  - destruct (pc (get s w)) eqn:P; try discriminate. alive P. intros [= E]; apply (M w _ _ _ L eq_refl E); auto; congruence.
  - destruct (pc (get s w)) eqn:P; try discriminate. alive P. intros [= E]; apply (M w _ _ _ L eq_refl E); auto; congruence.
  - destruct (pc (get s w)) eqn:P; try discriminate. alive P. destruct (existsb _ _); [discriminate|]. intros [= E]; apply (M w _ _ _ L eq_refl E); auto; congruence.
  - destruct (pc (get s w)) eqn:P; try discriminate. alive P. intros [= E]; apply (M w _ _ _ L eq_refl E); auto; congruence.
  - destruct (pc (get s w)) eqn:P; try discriminate. alive P. destruct (existsb _ _); [discriminate|]. intros [= E]; apply (M w _ _ _ L eq_refl E); auto; congruence.
  - destruct (pc (get s w)) eqn:P; try discriminate. alive P. intros [= <-]. apply (ef_own s _ _ w []); auto; try congruence.
    intros v N. rewrite get_put by exact L. apply Nat.eqb_neq in N. rewrite N. reflexivity.
  - destruct (pc (get s w)) eqn:P; try discriminate. alive P. intros [= E]; apply (M w _ _ _ L eq_refl E); auto; try congruence; apply LF.
  - destruct (pc (get s w)) eqn:P; try discriminate; alive P; intros [= E]; apply (M w _ _ _ L eq_refl E); auto; try congruence; apply LF.
  - assert (G : forall x h d v, (w < List.length (workers s))%nat -> v <> w -> get (mkS d (put (workers s) w x) h) v = get s v).
    { intros x h d v L N. rewrite get_put by exact L. apply Nat.eqb_neq in N. rewrite N. reflexivity. }
    destruct (pc (get s w)) eqn:P; try discriminate; alive P; intros [= <-].
    + apply (ef_commit s _ _ w None); auto.
    + apply (ef_commit s _ _ w (Some q)); auto. right. exists q. auto.
    + apply (ef_commit s _ _ w (Some q)); auto. right. exists q. split; [reflexivity|]. right. split; [exact P|]. rewrite get_put by exact L. rewrite Nat.eqb_refl. reflexivity.
  - destruct (pc (get s w)) eqn:P; try discriminate. alive P. intros [= E]; apply (M w _ _ _ L eq_refl E); auto; try congruence; [apply LF|]. intros q' E'. rewrite P in E'. injection E' as <-. left. left. reflexivity.
  - destruct (pc (get s w)) eqn:P; try discriminate. alive P. intros [= E]; apply (M w _ _ _ L eq_refl E); auto; congruence.
  - destruct (pc (get s w)) eqn:P; try discriminate. alive P. destruct (pending _); try discriminate. intros [= E]; apply (M w _ _ _ L eq_refl E); auto; congruence.
  - destruct (pc (get s w)) eqn:P; try discriminate; alive P; intros [= E]; apply (M w _ _ _ L eq_refl E); auto; congruence.
Qed.

Lemma facts_in f q0 t : In f (facts_of q0 t) -> t_bad t = false /\
  ((exists q r, q0 = Some q /\ t_ins t = Some r /\ f = HSaved (q_id q) r) \/ exists id, In id (t_take t) /\ f = HRemoved id).
Proof.
  unfold facts_of. destruct (t_bad t); [intros []|]. intro I. split; [reflexivity|]. apply in_app_iff in I as [I|I].
  - left. destruct q0 as [q|]; [|destruct I]. destruct (t_ins t) as [r|]; [|destruct I]. destruct I as [<-|[]]. eauto.
  - right. apply in_map_iff in I as (id & <- & I). eauto.
Qed.

Definition settled_or (E : Z -> Prop) (s : state) (q : qrow) : Prop :=
  (exists r, In (HSaved (q_id q) r) (hist s) /\ result_of q r) \/ logged s (q_id q) \/
  (exists w q', pc (get s w) = PUnlogged q' /\ q_id q' = q_id q) \/ E (q_id q).

Lemma made_result q r : made_from q r -> result_of q r.
Proof. intros (id & res & ts & rev & ->). repeat split. Qed.

Lemma NoDup_in_inj {A B} (f : A -> B) l a b : NoDup (map f l) -> In a l -> In b l -> f a = f b -> a = b.
Proof.
  induction l as [|x l IH]; [contradiction|]. cbn [map]. intros N [<-|I] [<-|J] E; inversion N as [|? ? X Y]; subst; auto.
  - exfalso. apply X. rewrite E. apply in_map. exact J.
  - exfalso. apply X. rewrite <- E. apply in_map. exact I.
Qed.

Lemma settle_step s e s' q E :
  inv s -> hinv s -> step s e = Some s' ->
  In q (queue (db s)) \/ removed s (q_id q) /\ settled_or E s q ->
  In q (queue (db s')) \/ removed s' (q_id q) /\
    settled_or (fun id => E id \/ exists w q', e = Crash w /\ pc (get s w) = PUnlogged q' /\ q_id q' = id) s' q.
Proof.
  intros I H ST. pose proof I as (A & B & C & D). pose proof (step_effect s e s' ST) as EF.
  intros [Q|[R S]].
  - destruct EF as [AC HH QQ PP|w q0 -> DB HH GG PP|w h0 AC GG QQ RR HH FF UU NC].
    + left. apply QQ, Q.
    + rewrite DB. destruct (t_bad (tx (get s w))) eqn:TB; [left; apply commit_queue; auto|].
      destruct (in_dec Z.eq_dec (q_id q) (t_take (tx (get s w)))) as [T|T]; [|left; apply commit_queue; auto].
      right. unfold removed. rewrite HH. split.
      { apply in_app_iff. left. unfold facts_of. rewrite TB. apply in_app_iff. right. apply in_map. exact T. }
      destruct (H w (q_id q) T) as [J|(q1 & J & J1)].
      { right. left. unfold logged. rewrite HH. apply in_app_iff. right. exact J. }
      pose proof (C w) as (_ & _ & W). unfold open_item in J.
      destruct PP as [[PP _]|(q2 & -> & [PP|[PP P2]])]; rewrite PP in J, W; try discriminate.
      * destruct (t_ins (tx (get s w))) as [r|] eqn:TI; [|discriminate]. injection J as ->.
        destruct W as [(W & _)|(_ & W1 & W2 & _)]; [congruence|].
        assert (q1 = q) by (apply (NoDup_in_inj q_id (queue (db s))); auto; apply W1). subst q1.
        left. exists r. split; [|apply made_result, W2]. rewrite HH. apply in_app_iff. left. unfold facts_of. rewrite TB, TI. left. reflexivity.
      * injection J as ->. right. right. left. exists w, q1. auto.
    + left. rewrite QQ. exact Q.
  - right. assert (HS : exists h0, hist s' = h0 ++ hist s) by (destruct EF as [? HH|? ? ? ? HH|? ? ? ? ? ? HH]; rewrite HH; [exists []; reflexivity|eauto|eauto]).
    destruct HS as [h0 HS]. split. { unfold removed. rewrite HS. apply in_app_iff. right. exact R. }
    destruct S as [(r & S & S2)|[S|[(w & q' & S & S2)|S]]].
    + left. exists r. split; [|exact S2]. rewrite HS. apply in_app_iff. auto.
    + right. left. unfold logged. rewrite HS. apply in_app_iff. auto.
    + destruct EF as [AC HH QQ PP|w1 q0 -> DB HH GG PP|w1 h1 AC GG QQ RR HH FF UU NC].
      * right. right. left. exists w, q'. rewrite PP. auto.
      * destruct (Nat.eq_dec w w1) as [->|N].
        { exfalso. destruct PP as [[PP _]|(q2 & _ & [PP|[PP _]])]; congruence. }
        right. right. left. exists w, q'. rewrite GG by exact N. auto.
      * destruct (Nat.eq_dec w w1) as [->|N].
        { destruct (UU q' S) as [U| ->].
          - right. left. unfold logged. rewrite HH. apply in_app_iff. left. rewrite <- S2. exact U.
          - right. right. right. right. eauto. }
        right. right. left. exists w, q'. rewrite GG by exact N. auto.
    + right. right. right. left. exact S.
Qed.

Lemma settle_run es : forall s s' q E,
  inv s -> hinv s -> run s es = Some s' ->
  In q (queue (db s)) \/ removed s (q_id q) /\ settled_or E s q ->
  In q (queue (db s')) \/ removed s' (q_id q) /\ settled_or (fun id => E id \/ stopped_before_logging s es id) s' q.
Proof.
  induction es as [|e es IH]; intros s s' q E I H; cbn [run].
  - intros [= <-] [Q|[R S]]; [left; exact Q|right]. split; [exact R|]. unfold settled_or in *. tauto.
  - destruct (step s e) as [s1|] eqn:ST; [|discriminate]. intros R Q.
    assert (I1 := inv_step _ _ _ I ST). assert (H1 := hinv_step _ _ _ I H ST).
    destruct (IH s1 s' q _ I1 H1 R (settle_step s e s1 q E I H ST Q)) as [Q1|[Q1 Q2]]; [left; exact Q1|right]. split; [exact Q1|].
    unfold settled_or in Q2 |- *. cbn [stopped_before_logging]. rewrite ST. tauto.
Qed.

Lemma hinv_initial d n : hinv (initial d n).
Proof.
  intros w id H. exfalso. unfold holds, get, initial in H. cbn [workers] in H. destruct (Nat.lt_ge_cases w n) as [L|L].
  - rewrite nth_repeat in H. exact H.
  - rewrite nth_overflow in H by (rewrite repeat_length; exact L). exact H.
Qed.
Lemma reachable_hinv d n s : sound_db d -> reachable d n s -> inv s /\ hinv s.
Proof.
  intros S (es & R). apply (run_inv (fun s => inv s /\ hinv s)) with (es := es) (s := initial d n); [|split; [apply inv_initial, S|apply hinv_initial]|exact R].
  intros s0 e s1 [I H] ST. split; [eapply inv_step; eassumption|eapply hinv_step; eassumption].
Qed.

(** ** Removed once *)
Definition rinv (s : state) : Prop :=
  NoDup (removed_ids (hist s)) /\ (forall id, In id (removed_ids (hist s)) -> id < next_q (db s) /\ ~ In id (map q_id (queue (db s)))) /\
  NoDup (saved_ids (hist s)) /\ incl (saved_ids (hist s)) (removed_ids (hist s)).

Lemma removed_app h h' : removed_ids (h ++ h') = removed_ids h ++ removed_ids h'.
Proof. apply flat_map_app. Qed.
Lemma saved_app h h' : saved_ids (h ++ h') = saved_ids h ++ saved_ids h'.
Proof. apply flat_map_app. Qed.
Lemma removed_map l : removed_ids (map HRemoved l) = l.
Proof. induction l as [|x l IH]; [reflexivity|]. cbn [map removed_ids flat_map app]. f_equal. exact IH. Qed.
Lemma saved_map l : saved_ids (map HRemoved l) = [].
Proof. induction l as [|x l IH]; [reflexivity|]. exact IH. Qed.
Lemma quiet_facts h : (forall f, In f h -> match f with HTook _ | HLogged _ => True | _ => False end) -> removed_ids h = [] /\ saved_ids h = [].
Proof.
  induction h as [|f h IH]; [auto|]. intro F. destruct IH as [A B]; [intros g J; apply F; right; exact J|].
  specialize (F f (or_introl eq_refl)). destruct f; try contradiction; cbn [removed_ids saved_ids flat_map app]; auto.
Qed.
Lemma NoDup_app_intro {A} (l l' : list A) : NoDup l -> NoDup l' -> (forall x, In x l -> ~ In x l') -> NoDup (l ++ l').
Proof.
  induction l as [|x l IH]; [auto|]. intros N M D. inversion N as [|? ? X Y]; subst. cbn [app]. constructor.
  - rewrite in_app_iff. intros [J|J]; [exact (X J)|exact (D x (or_introl eq_refl) J)].
  - apply IH; auto. intros y J. apply D. right. exact J.
Qed.

Lemma rinv_step s e s' : inv s -> rinv s -> step s e = Some s' -> rinv s'.
Proof.
  intros I R ST. pose proof I as (A & B & C & D). destruct R as (R1 & R2 & R3 & R4).
  pose proof (step_effect s e s' ST) as EF.
  destruct EF as [AC HH QQ PP|w q0 -> DB HH GG PP|w h0 AC GG QQ RR HH FF UU NC].
  - unfold rinv. rewrite HH. split; [exact R1|]. split; [|auto]. destruct e; try discriminate AC; cbn [step] in ST.
    + injection ST as <-. cbn [db queue next_q]. intros id J. apply R2 in J as [J K]. split; [lia|]. rewrite map_app, in_app_iff. cbn [map q_id]. intros [X|[X|[]]]; [exact (K X)|lia].
    + destruct (forallb _ _); [|discriminate]. injection ST as <-. exact R2.
  - pose proof (C w) as (N & IN & W). set (t := tx (get s w)) in *.
    assert (NI : forall id, In id (t_take t) -> ~ In id (removed_ids (hist s))).
    { intros id J K. apply R2 in K as [_ K]. apply K. apply IN. exact J. }
    unfold rinv. rewrite HH, DB. rewrite removed_app, saved_app. destruct (commit_next (db s) t) as [-> _].
    unfold facts_of, commit. destruct (t_bad t) eqn:TB; [cbn [removed_ids saved_ids flat_map app]; auto|].
    rewrite removed_app, saved_app, removed_map, saved_map, app_nil_r. cbn [queue].
    assert (E1 : removed_ids (match q0 with Some q => match t_ins t with Some r => [HSaved (q_id q) r] | None => [] end | None => [] end) = []) by (destruct q0; [destruct (t_ins t)|]; reflexivity).
    rewrite E1. cbn [app]. split; [apply NoDup_app_intro; auto|].
    split.
    { intros id J. apply in_app_iff in J as [J|J].
      - split; [pose proof (IN id J) as K; apply in_map_iff in K as (q & <- & K); apply B; exact K|].
        intro K. apply in_map_iff in K as (q & <- & K). apply filter_In in K as [_ K]. apply negb_true_iff, memZ_out in K. exact (K J).
      - apply R2 in J as [J K]. split; [exact J|]. intro K2. apply K. apply in_map_iff in K2 as (q & <- & K2). apply filter_In in K2 as [K2 _]. apply in_map. exact K2. }
    assert (SV : forall id, In id (saved_ids (match q0 with Some q => match t_ins t with Some r => [HSaved (q_id q) r] | None => [] end | None => [] end)) -> In id (t_take t)).
    { intros id J. destruct q0 as [q|]; [|destruct J]. destruct (t_ins t) eqn:TI; [|destruct J]. destruct J as [<-|[]].
      destruct PP as [[_ PP]|(q2 & [= <-] & [PP|[PP _]])]; [discriminate| |]; rewrite PP in W.
      - destruct W as [(W & _)|(_ & (_ & W) & _)]; [congruence|exact W].
      - destruct W as (_ & _ & W). exact W. }
    split.
    { apply NoDup_app_intro; [|exact R3|].
      - destruct q0; [destruct (t_ins t)|]; cbn; repeat constructor; intros [].
      - intros id J K. exact (NI id (SV id J) (R4 id K)). }
    intros id J. apply in_app_iff in J as [J|J]; apply in_app_iff; [left; exact (SV id J)|right; exact (R4 id J)].
  - unfold rinv. rewrite HH, removed_app, saved_app. destruct (quiet_facts h0 FF) as [-> ->]. cbn [app]. split; [exact R1|]. split; [|auto].
    rewrite QQ. intros id J. apply R2 in J as [J K]. split; [|exact K].
    enough (next_q (db s') = next_q (db s)) by lia. clear -ST AC NC. destruct e; cbn [actor] in AC; try discriminate AC; cbn [step] in ST;
      repeat match type of ST with
      | context [pc (get s ?w)] => destruct (pc (get s w)); try discriminate ST
      | context [next_row s ?t] => destruct (next_row s t)
      | context [if ?b then _ else _] => destruct b; try discriminate ST
      | context [pending ?x] => destruct (pending x); try discriminate ST
      end; try (injection ST as <-; reflexivity); destruct (NC w0 eq_refl).
Qed.
Lemma rinv_initial d n : rinv (initial d n).
Proof. repeat split; try constructor; try contradiction. intros ? []. Qed.
Lemma reachable_rinv d n s : sound_db d -> reachable d n s -> rinv s.
Proof.
  intros S (es & R). apply (run_inv (fun s => inv s /\ rinv s)) with (es := es) (s := initial d n); [|split; [apply inv_initial, S|apply rinv_initial]|exact R].
  intros s0 e s1 [I H] ST. split; [eapply inv_step; eassumption|eapply rinv_step; eassumption].
Qed.
