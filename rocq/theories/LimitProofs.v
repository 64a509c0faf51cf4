From Coq Require Import List ZArith QArith Bool String Lia Lqa Permutation Sorted Arith.
From Verif Require Import Prelude Dec Course Op OpProofs Context Predicate LazyProduct LazyRun EnumSpec EnumProofs ListFacts StrFacts Limit LimitSpec.
Import ListNotations.
Local Open Scope list_scope.

(** ** the course order *)
Lemma course_eqb_spec a b : course_eqb a b = true <-> a = b.
Proof. unfold course_eqb. destruct course_eq_dec; split; congruence. Qed.

Definition cmp_ok {A} (cmp : A -> A -> comparison) : Prop :=
  (forall a b, cmp a b = Lt <-> cmp b a = Gt) /\
  (forall a b c, cmp a b <> Gt -> cmp b c <> Gt -> cmp a c <> Gt) /\
  (forall a b c, cmp a b = Eq -> cmp a c = cmp b c).

Lemma then_cmp_gt x y : then_cmp x y <> Gt <-> x = Lt \/ (x = Eq /\ y <> Gt).
Proof. destruct x; simpl; intuition congruence. Qed.

Lemma course_total a b : course_leb a b = true \/ course_leb b a = true.
Proof.
  unfold course_leb, course_cmp.
  rewrite (Z.compare_antisym (course_type_order (c_course_type a)) (course_type_order (c_course_type b))).
  rewrite (Z.compare_antisym (c_year a) (c_year b)).
  destruct (course_type_order (c_course_type a) ?= course_type_order (c_course_type b))%Z; simpl; auto.
  destruct (c_year a ?= c_year b)%Z; simpl; auto.
  destruct (String.compare (c_term a) (c_term b)) eqn:T; simpl; auto.
  - apply str_compare_eq in T. rewrite T, str_compare_refl. simpl.
    destruct (String.compare (c_clbid a) (c_clbid b)) eqn:K; simpl; auto.
    apply str_compare_lt_gt in K. rewrite K. auto.
  - apply str_compare_lt_gt in T. rewrite T. auto.
Qed.

Lemma str_le_trans a b c : String.compare a b <> Gt -> String.compare b c <> Gt -> String.compare a c <> Gt.
Proof.
  destruct (String.compare a b) eqn:X; [apply str_compare_eq in X as ->; auto| |congruence].
  destruct (String.compare b c) eqn:Y; [apply str_compare_eq in Y as ->; congruence| |congruence].
  rewrite (str_lt_trans _ _ _ X Y). congruence.
Qed.

Lemma course_leb_iff a b : course_leb a b = true <-> course_cmp a b <> Gt.
Proof. unfold course_leb. destruct (course_cmp a b); split; congruence. Qed.

Lemma course_trans a b c : course_leb a b = true -> course_leb b c = true -> course_leb a c = true.
Proof.
  rewrite !course_leb_iff. unfold course_cmp. rewrite !then_cmp_gt, !Z.compare_lt_iff, !Z.compare_eq_iff.
  intros [H|[H [K|[K [T|[T U]]]]]] [H'|[H' [K'|[K' [T'|[T' U']]]]]]; try (left; lia); right; (split; [lia|]);
    try (left; lia); right; (split; [lia|]).
  - left. eapply str_lt_trans; eauto.
  - apply str_compare_eq in T'. rewrite <- T'. left. exact T.
  - apply str_compare_eq in T. rewrite T. left. exact T'.
  - right. apply str_compare_eq in T. rewrite T. split; [exact T'|]. eapply str_le_trans; eauto.
Qed.

Lemma course_antisym a b : course_leb a b = true -> course_leb b a = true -> c_clbid a = c_clbid b.
Proof.
  rewrite !course_leb_iff. unfold course_cmp. rewrite !then_cmp_gt, !Z.compare_lt_iff, !Z.compare_eq_iff.
  intros [H|[H [K|[K [T|[T U]]]]]] [H'|[H' [K'|[K' [T'|[T' U']]]]]]; try lia.
  - apply str_compare_lt_gt in T. congruence.
  - apply str_compare_eq in T'. rewrite T' in T. rewrite str_compare_refl in T. discriminate.
  - apply str_compare_eq in T. rewrite T in T'. rewrite str_compare_refl in T'. discriminate.
  - destruct (String.compare (c_clbid a) (c_clbid b)) eqn:E; [apply str_compare_eq; exact E| |congruence].
    apply str_compare_lt_gt in E. congruence.
Qed.

Lemma isort_before l : StronglySorted before (isort course_leb l).
Proof.
  assert (H := isort_sorted course_leb course_total course_trans l).
  induction H as [|x xs S IH F]; constructor; auto.
  eapply Forall_impl; [|exact F]. intros y Hy. apply course_leb_iff. exact Hy.
Qed.

(** ** where clauses *)
Lemma matches_iff l c : lm_match l c = Ok true <-> matches l c.
Proof. reflexivity. Qed.

Lemma in_clbid k F : existsb (String.eqb k) F = true <-> In k F.
Proof.
  rewrite existsb_exists. split.
  - intros (x & H & E). apply String.eqb_eq in E. subst. exact H.
  - intro H. exists k. split; [exact H|apply String.eqb_refl].
Qed.

Lemma in_restricted F l t c : In c (restricted F l t) <-> In c t /\ ~ forced F c /\ matches l c.
Proof.
  unfold restricted. rewrite filter_In, andb_true_iff, negb_true_iff. unfold forced, matches.
  rewrite <- (in_clbid (c_clbid c) F).
  destruct (existsb (String.eqb (c_clbid c)) F); destruct (apply_pred (ICourse c) (lm_where l)) as [[]|]; intuition congruence.
Qed.

(** ** step 1: the sets of matched courses *)
Definition sets_ok (d : limit_sets) (M : limit -> course -> Prop) : Prop :=
  NoDup (map (fun p => lm_id (fst p)) d) /\
  (forall l s, In (l, s) d -> NoDup s /\ (forall c, In c s <-> exists l', M l' c /\ lm_id l' = lm_id l) /\ exists c, M l c) /\
  (forall l c, M l c -> exists l' s, In (l', s) d /\ lm_id l' = lm_id l).

Lemma set_add_in c s x : In x (set_add c s) <-> x = c \/ In x s.
Proof.
  unfold set_add. destruct (memb course_eqb c s) eqn:E.
  - apply (memb_In course_eqb course_eqb_spec) in E. intuition (subst; auto).
  - rewrite in_app_iff. simpl. intuition.
Qed.
Lemma set_add_NoDup c s : NoDup s -> NoDup (set_add c s).
Proof.
  intro N. unfold set_add. destruct (memb course_eqb c s) eqn:E; [exact N|].
  apply (memb_false course_eqb course_eqb_spec) in E.
  apply NoDup_app; [exact N|repeat constructor; simpl; tauto|]. intros x Hx [->|[]]. contradiction.
Qed.

Lemma same_limit_iff a b : same_limit a b = true <-> lm_id a = lm_id b.
Proof. apply Nat.eqb_eq. Qed.

Lemma lset_add_ids d l c :
  map (fun p => lm_id (fst p)) (lset_add d l c) =
    if existsb (fun p => same_limit l (fst p)) d then map (fun p => lm_id (fst p)) d
    else map (fun p => lm_id (fst p)) d ++ [lm_id l].
Proof.
  induction d as [|[l' s] d IH]; simpl; [reflexivity|]. destruct (same_limit l l') eqn:E; simpl; [reflexivity|].
  rewrite IH. destruct (existsb _ d); reflexivity.
Qed.

Lemma lset_add_in d l c l1 s1 : NoDup (map (fun p => lm_id (fst p)) d) ->
  (In (l1, s1) (lset_add d l c) <->
   (lm_id l1 <> lm_id l /\ In (l1, s1) d) \/
   (lm_id l1 = lm_id l /\ exists s, In (l1, s) d /\ s1 = set_add c s) \/
   (l1 = l /\ s1 = [c] /\ forall l' s, In (l', s) d -> lm_id l' <> lm_id l)).
Proof.
  induction d as [|[l' s] d IH]; simpl; intro N.
  - split.
    + intros [E|[]]. injection E as -> ->. right. right. auto.
    + intros [[_ []]|[[_ (s & [] & _)]|(-> & -> & _)]]. auto.
  - inversion N; subst. destruct (same_limit l l') eqn:E.
    + apply same_limit_iff in E. simpl. split.
      * intros [E'|I].
        -- injection E' as <- <-. right. left. split; [auto|]. exists s. auto.
        -- left. split; [|auto]. intro C. apply H1. rewrite <- E, <- C. apply (in_map (fun p => lm_id (fst p)) d (l1, s1) I).
      * intros [[Nq [E'|I]]|[[Eq (s' & [E'|I] & ->)]|(-> & -> & No)]].
        -- injection E' as -> ->. congruence.
        -- auto.
        -- injection E' as -> ->. auto.
        -- exfalso. apply H1. rewrite <- E, <- Eq. apply (in_map (fun p => lm_id (fst p)) d (l1, s') I).
        -- exfalso. apply (No l' s); auto.
    + assert (NE : lm_id l' <> lm_id l) by (intro C; symmetry in C; apply same_limit_iff in C; congruence).
      simpl. rewrite IH by assumption. split.
      * intros [E'|[[A B]|[[A (s' & B & ->)]|(A & B & C)]]].
        -- injection E' as <- <-. left. auto.
        -- left. auto.
        -- right. left. split; [auto|]. exists s'. auto.
        -- right. right. split; [auto|]. split; [auto|]. intros l2 s2 [E'|I]; [injection E' as <- <-; auto|eauto].
      * intros [[A [E'|B]]|[[A (s' & [E'|B] & ->)]|(A & B & C)]].
        -- auto.
        -- right. left. auto.
        -- injection E' as -> ->. congruence.
        -- right. right. left. split; [auto|]. exists s'. auto.
        -- right. right. right. split; [auto|]. split; [auto|]. intros l2 s2 I. apply (C l2 s2). auto.
Qed.

Lemma sets_ok_add d M l c : sets_ok d M -> sets_ok (lset_add d l c) (fun l' c' => M l' c' \/ (l' = l /\ c' = c)).
Proof.
  intros (N & S & C). split; [|split].
  - rewrite lset_add_ids. destruct (existsb _ d) eqn:E; [exact N|].
    apply NoDup_app; [exact N|repeat constructor; simpl; tauto|]. intros x Hx [<-|[]].
    apply in_map_iff in Hx as ((l', s) & E' & I). simpl in E'.
    assert (existsb (fun p => same_limit l (fst p)) d = true); [|congruence].
    apply existsb_exists. exists (l', s). split; [exact I|]. apply same_limit_iff. auto.
  - intros l1 s1 I. apply (lset_add_in d l c l1 s1 N) in I as [[NE I]|[[E (s & I & ->)]|(-> & -> & No)]].
    + destruct (S l1 s1 I) as (NS & IS & (c0 & W)). split; [exact NS|]. split; [|exists c0; auto].
      intro x. rewrite IS. split; [intros (l' & H & E); exists l'; auto|].
      intros (l' & [H|[-> ->]] & E); [exists l'; auto|congruence].
    + destruct (S l1 s I) as (NS & IS & (c0 & W)). split; [apply set_add_NoDup; exact NS|]. split; [|exists c0; auto].
      intro x. rewrite set_add_in, IS. split.
      * intros [->|(l' & H & E')]; [exists l; auto|exists l'; auto].
      * intros (l' & [H|[-> ->]] & E'); [right; exists l'; auto|left; reflexivity].
    + split; [repeat constructor; simpl; tauto|]. split; [|exists c; auto].
      intro x. simpl. split.
      * intros [<-|[]]. exists l. auto.
      * intros (l' & [H|[-> ->]] & E); [|auto]. destruct (C l' x H) as (l2 & s2 & I2 & E2).
        exfalso. apply (No l2 s2 I2). congruence.
  - intros l1 c1 [H|[-> ->]].
    + destruct (C l1 c1 H) as (l2 & s2 & I2 & E2). destruct (Nat.eq_dec (lm_id l2) (lm_id l)) as [E|NE].
      * exists l2, (set_add c s2). split; [|exact E2]. apply lset_add_in; [exact N|]. right. left. split; [exact E|]. exists s2. auto.
      * exists l2, s2. split; [|exact E2]. apply lset_add_in; [exact N|]. left. auto.
    + destruct (existsb (fun p => same_limit l (fst p)) d) eqn:X.
      * apply existsb_exists in X as ((l2, s2) & I2 & E2). apply same_limit_iff in E2. simpl in E2.
        exists l2, (set_add c s2). split; [|auto]. apply lset_add_in; [exact N|]. right. left. split; [auto|]. exists s2. auto.
      * exists l, [c]. split; [|reflexivity]. apply lset_add_in; [exact N|]. right. right. split; [reflexivity|]. split; [reflexivity|].
        intros l2 s2 I2 E2. assert (existsb (fun p => same_limit l (fst p)) d = true); [|congruence].
        apply existsb_exists. exists (l2, s2). split; [exact I2|]. apply same_limit_iff. auto.
Qed.

Lemma sets_ok_ext d M M' : (forall l c, M l c <-> M' l c) -> sets_ok d M -> sets_ok d M'.
Proof.
  intros E (N & S & C). split; [exact N|]. split.
  - intros l s I. destruct (S l s I) as (NS & IS & (c0 & W)). split; [exact NS|]. split; [|exists c0; apply E; exact W].
    intro c. rewrite IS. split; intros (l' & H & E'); exists l'; (split; [apply E; exact H|exact E']).
  - intros l c H. apply E in H. eauto.
Qed.

Lemma probe_courses_ok F l cs : forall d M d', sets_ok d M -> probe_courses F l cs d = Ok d' ->
  sets_ok d' (fun l' c' => M l' c' \/ (l' = l /\ In c' cs /\ ~ forced F c' /\ matches l c')) /\
  (forall c, In c cs -> ~ forced F c -> decided l c).
Proof.
  induction cs as [|c cs IH]; simpl; intros d M d' S E.
  - injection E as <-. split; [|tauto]. eapply sets_ok_ext; [|exact S]. intros; tauto.
  - destruct (existsb (String.eqb (c_clbid c)) F) eqn:X.
    + apply in_clbid in X. destruct (IH _ _ _ S E) as [S' T]. split.
      * eapply sets_ok_ext; [|exact S']. intros l' c'. simpl. split; [tauto|].
        intros [H|(-> & [<-|H] & NF & Hm)]; [auto|contradiction|auto].
      * intros c' [<-|H] NF; [contradiction|auto].
    + assert (NF : ~ forced F c) by (intro K; apply in_clbid in K; congruence).
      destruct (lm_match l c) as [b|] eqn:Mb; [|discriminate]. simpl in E.
      assert (S1 : sets_ok (if b then lset_add d l c else d) (fun l' c' => M l' c' \/ (b = true /\ l' = l /\ c' = c))).
      { destruct b; [eapply sets_ok_ext; [|apply sets_ok_add; exact S]; intros; tauto|].
        eapply sets_ok_ext; [|exact S]. intros; intuition discriminate. }
      destruct (IH _ _ _ S1 E) as [S' T]. split.
      * eapply sets_ok_ext; [|exact S']. intros l' c'. simpl. split.
        -- intros [[H|(-> & -> & ->)]|(-> & H)]; [auto| |tauto]. right. split; [reflexivity|]. split; [auto|]. split; [exact NF|exact Mb].
        -- intros [H|(-> & [<-|H] & NF' & Hm)]; [auto| |tauto]. left. right. unfold matches in Hm. unfold lm_match in Mb. split; [congruence|auto].
      * intros c' [<-|H] NF'; [exists b; exact Mb|auto].
Qed.

Lemma probe_ok F ls cs : forall d M d', sets_ok d M -> probe F ls cs d = Ok d' ->
  sets_ok d' (fun l' c' => M l' c' \/ (In l' ls /\ In c' cs /\ ~ forced F c' /\ matches l' c')) /\
  (forall l c, In l ls -> In c cs -> ~ forced F c -> decided l c).
Proof.
  induction ls as [|l ls IH]; simpl; intros d M d' S E.
  - injection E as <-. split; [|tauto]. eapply sets_ok_ext; [|exact S]. intros; tauto.
  - destruct (probe_courses F l cs d) as [d1|] eqn:P; [|discriminate]. simpl in E.
    destruct (probe_courses_ok F l cs d M d1 S P) as [S1 T1]. destruct (IH _ _ _ S1 E) as [S2 T2]. split.
    + eapply sets_ok_ext; [|exact S2]. intros l' c'. simpl. split.
      * intros [[H|(-> & H)]|H]; tauto.
      * intros [H|([<-|H] & K)]; tauto.
    + intros l' c' [<-|H]; auto.
Qed.
Lemma probe_total F ls cs : (forall l c, In l ls -> In c cs -> ~ forced F c -> decided l c) ->
  forall d, exists d', probe F ls cs d = Ok d'.
Proof.
  intro T. induction ls as [|l ls IH]; simpl; intro d; [eauto|].
  assert (exists d', probe_courses F l cs d = Ok d') as [d1 ->].
  { assert (Tl : forall c, In c cs -> ~ forced F c -> decided l c) by (intros; apply T; simpl; auto).
    clear IH T. revert d. induction cs as [|c cs IH]; simpl; intro d; [eauto|].
    destruct (existsb (String.eqb (c_clbid c)) F) eqn:X; [apply IH; intros; apply Tl; simpl; auto|].
    assert (decided l c) as [b B] by (apply Tl; [simpl; auto|intro K; apply in_clbid in K; congruence]).
    unfold lm_match. rewrite B. simpl. apply IH. intros; apply Tl; simpl; auto. }
  simpl. apply IH. intros; apply T; simpl; auto.
Qed.

Lemma sets_empty : sets_ok [] (fun _ _ => False).
Proof. split; [constructor|]. split; [intros l s []|intros l c []]. Qed.

(** ** the check *)
Lemma count_of_set d l q l' : count_of (count_set d l q) l' = if same_limit l' l then q else count_of d l'.
Proof.
  unfold count_of. induction d as [|[l1 q1] d IH]; simpl.
  - destruct (same_limit l' l); reflexivity.
  - destruct (same_limit l l1) eqn:E; simpl.
    + destruct (same_limit l' l1) eqn:E'.
      * apply same_limit_iff in E, E'. replace (same_limit l' l) with true; [reflexivity|]. symmetry. apply same_limit_iff. congruence.
      * replace (same_limit l' l) with false; [reflexivity|]. symmetry. apply not_true_is_false. intro C. apply same_limit_iff in C, E.
        assert (same_limit l' l1 = true) by (apply same_limit_iff; congruence). congruence.
    + destruct (same_limit l' l1) eqn:E'; [|exact IH].
      replace (same_limit l' l) with false; [reflexivity|]. symmetry. apply not_true_is_false. intro C. apply same_limit_iff in C, E'.
      assert (same_limit l l1 = true) by (apply same_limit_iff; congruence). congruence.
Qed.
Lemma count_of_id d l l' : lm_id l = lm_id l' -> count_of d l = count_of d l'.
Proof. intro E. unfold count_of, same_limit. rewrite E. reflexivity. Qed.

Lemma Qleb_iff a b : Qleb a b = true <-> a <= b.
Proof. apply Qle_bool_iff. Qed.
Lemma Qleb_false a b : Qleb a b = false <-> b < a.
Proof.
  split; intro H.
  - apply Qnot_le_lt. intro C. apply Qleb_iff in C. congruence.
  - apply not_true_is_false. intro C. apply Qleb_iff in C. lra.
Qed.

(** effect of one course on a counter *)
Lemma check_limits_frame ls c : forall d d' l, check_limits ls c d = Ok (Some d') ->
  (forall l', In l' ls -> lm_id l' = lm_id l -> lm_match l' c = Ok false) -> count_of d' l = count_of d l.
Proof.
  induction ls as [|l0 ls IH]; simpl; intros d d' l E NM; [injection E as <-; reflexivity|].
  destruct (lm_match l0 c) as [b|] eqn:B; [|discriminate]. simpl in E. destruct b; simpl in E.
  - destruct (Qleb (lm_max l0) (count_of d l0)); [discriminate|].
    rewrite (IH _ _ _ E) by (intros; apply NM; auto). rewrite count_of_set.
    destruct (same_limit l l0) eqn:S; [|reflexivity]. apply same_limit_iff in S.
    specialize (NM l0 (or_introl eq_refl) (eq_sym S)). congruence.
  - apply (IH _ _ _ E). intros; apply NM; auto.
Qed.
Lemma check_limits_grow ls c : forall d d' l, check_limits ls c d = Ok (Some d') ->
  (forall l', In l' ls -> lm_id l' = lm_id l -> l' = l) -> 0 <= weight l c ->
  count_of d l <= count_of d' l.
Proof.
  induction ls as [|l0 ls IH]; simpl; intros d d' l E CO NN; [injection E as <-; lra|].
  destruct (lm_match l0 c) as [b|] eqn:B; [|discriminate]. simpl in E. destruct b; simpl in E.
  - destruct (Qleb (lm_max l0) (count_of d l0)); [discriminate|].
    eapply Qle_trans; [|apply (IH _ _ _ E); auto]. rewrite count_of_set.
    destruct (same_limit l l0) eqn:S; [|lra]. apply same_limit_iff in S. rewrite (CO l0) by auto. lra.
  - apply (IH _ _ _ E); auto.
Qed.
Lemma check_limits_hit ls c : forall d d' l, check_limits ls c d = Ok (Some d') ->
  (forall l', In l' ls -> lm_id l' = lm_id l -> l' = l) -> 0 <= weight l c -> In l ls -> matches l c ->
  count_of d l < lm_max l /\ count_of d l + weight l c <= count_of d' l.
Proof.
  induction ls as [|l0 ls IH]; simpl; intros d d' l E CO NN I Hm; [tauto|].
  destruct (lm_match l0 c) as [b|] eqn:B; [|discriminate]. simpl in E.
  destruct (Nat.eq_dec (lm_id l0) (lm_id l)) as [EQ|NE].
  - assert (l0 = l) by (apply CO; auto). subst l0. assert (b = true) as -> by (unfold matches in Hm; unfold lm_match in B; congruence).
    simpl in E. destruct (Qleb (lm_max l) (count_of d l)) eqn:Q; [discriminate|]. apply Qleb_false in Q. split; [exact Q|].
    apply (check_limits_grow _ _ _ _ l) in E; [|intros; apply CO; auto|exact NN].
    rewrite count_of_set in E. replace (same_limit l l) with true in E by (symmetry; apply same_limit_iff; reflexivity). exact E.
  - destruct I as [->|I]; [congruence|]. destruct b; simpl in E.
    + destruct (Qleb (lm_max l0) (count_of d l0)); [discriminate|].
      apply (IH _ _ l) in E as [E1 E2]; auto. rewrite count_of_set in E1, E2.
      replace (same_limit l l0) with false in E1, E2; [auto|]. symmetry. apply not_true_is_false. intro C. apply same_limit_iff in C. congruence.
    + apply (IH _ _ l) in E; auto.
Qed.

(** weight of the matching courses of a list *)
Definition load (l : limit) (cs : list course) : Q :=
  Qsum (map (fun c => match lm_match l c with Ok true => weight l c | _ => 0 end) cs).

Lemma load_cons l c cs : load l (c :: cs) = (match lm_match l c with Ok true => weight l c | _ => 0 end) + load l cs.
Proof. reflexivity. Qed.
Lemma load_nonneg l cs : (forall c, In c cs -> 0 <= weight l c) -> 0 <= load l cs.
Proof.
  induction cs as [|c cs IH]; intro H; [unfold load; simpl; lra|]. rewrite load_cons.
  assert (0 <= load l cs) by (apply IH; intros; apply H; simpl; auto). assert (0 <= weight l c) by (apply H; simpl; auto).
  destruct (lm_match l c) as [[]|]; lra.
Qed.

Lemma check_from_sound ls l : (forall l', In l' ls -> lm_id l' = lm_id l -> l' = l) -> In l ls ->
  forall cs d, (forall c, In c cs -> 0 <= weight l c) -> check_from ls cs d = Ok true ->
  forall pre c post, cs = pre ++ c :: post -> matches l c -> count_of d l + load l pre < lm_max l.
Proof.
  intros CO I. induction cs as [|x cs IH]; simpl; intros d NN E pre c post EQ Hm; [destruct pre; discriminate|].
  destruct (check_limits ls x d) as [[d'|]|] eqn:C; simpl in E; try discriminate.
  destruct pre as [|y pre]; simpl in EQ; injection EQ as -> ->.
  - unfold load. simpl. destruct (check_limits_hit ls c d d' l C CO (NN c (or_introl eq_refl)) I Hm). lra.
  - assert (H := IH d' (fun z Hz => NN z (or_intror Hz)) E pre c post eq_refl Hm).
    rewrite load_cons. destruct (lm_match l y) as [[]|] eqn:B.
    + destruct (check_limits_hit ls y d d' l C CO (NN y (or_introl eq_refl)) I B). lra.
    + assert (G := check_limits_grow ls y d d' l C CO (NN y (or_introl eq_refl))). lra.
    + assert (G := check_limits_grow ls y d d' l C CO (NN y (or_introl eq_refl))). lra.
Qed.

(** distinct limits: exact effect *)
Lemma check_limits_exact ls c : NoDup (map lm_id ls) -> (forall l, In l ls -> exists b, lm_match l c = Ok b) -> forall d,
  (forall l, In l ls -> matches l c -> count_of d l < lm_max l) ->
  exists d', check_limits ls c d = Ok (Some d') /\
    forall l, In l ls -> count_of d' l == count_of d l + (match lm_match l c with Ok true => weight l c | _ => 0 end).
Proof.
  induction ls as [|l0 ls IH]; simpl; intros N T d H; [exists d; split; [reflexivity|tauto]|].
  inversion N; subst. destruct (T l0 (or_introl eq_refl)) as [b B]. rewrite B. simpl.
  assert (NE : forall l, In l ls -> same_limit l l0 = false).
  { intros l I. apply not_true_is_false. intro C. apply same_limit_iff in C. apply H2. rewrite <- C. apply in_map. exact I. }
  destruct b; simpl.
  - assert (Q : Qleb (lm_max l0) (count_of d l0) = false) by (apply Qleb_false; apply H; auto). rewrite Q.
    destruct (IH H3 (fun l I => T l (or_intror I)) (count_set d l0 (count_of d l0 + weight l0 c))) as (d' & E & A).
    { intros l I Hm. rewrite count_of_set, (NE l I). auto. }
    exists d'. split; [exact E|]. intros l [<-|I].
    + rewrite B. rewrite (check_limits_frame _ _ _ _ l0 E).
      * rewrite count_of_set. replace (same_limit l0 l0) with true by (symmetry; apply same_limit_iff; reflexivity). lra.
      * intros l' I' Q'. exfalso. apply H2. rewrite <- Q'. apply in_map. exact I'.
    + rewrite (A l I), count_of_set, (NE l I). reflexivity.
  - destruct (IH H3 (fun l I => T l (or_intror I)) d) as (d' & E & A); [intros; apply H; auto|].
    exists d'. split; [exact E|]. intros l [<-|I]; [|apply A; exact I].
    rewrite B. rewrite (check_limits_frame _ _ _ _ l0 E); [lra|].
    intros l' I' Q'. exfalso. apply H2. rewrite <- Q'. apply in_map. exact I'.
Qed.

Lemma check_from_complete ls : NoDup (map lm_id ls) -> forall cs d,
  (forall l c, In l ls -> In c cs -> exists b, lm_match l c = Ok b) ->
  (forall l pre c post, In l ls -> cs = pre ++ c :: post -> matches l c -> count_of d l + load l pre < lm_max l) ->
  check_from ls cs d = Ok true.
Proof.
  intro N. induction cs as [|x cs IH]; simpl; intros d T H; [reflexivity|].
  destruct (check_limits_exact ls x N (fun l I => T l x I (or_introl eq_refl)) d) as (d' & -> & A).
  { intros l I Hm. specialize (H l [] x cs I eq_refl Hm). unfold load in H. simpl in H. lra. }
  simpl. apply IH; [intros; apply T; auto|]. intros l pre c post I E Hm.
  specialize (H l (x :: pre) c post I (f_equal (cons x) E) Hm). rewrite load_cons in H.
  rewrite (A l I). lra.
Qed.

(** distinct limits, decided clauses: the check always answers *)
Lemma check_limits_total ls c : (forall l, In l ls -> exists b, lm_match l c = Ok b) -> forall d, exists o, check_limits ls c d = Ok o.
Proof.
  induction ls as [|l ls IH]; simpl; intros T d; [eauto|]. destruct (T l (or_introl eq_refl)) as [b ->]. simpl.
  destruct b; simpl; [|apply IH; auto]. destruct (Qleb _ _); [eauto|apply IH; auto].
Qed.
Lemma check_from_total ls cs : (forall l c, In l ls -> In c cs -> exists b, lm_match l c = Ok b) -> forall d, exists b, check_from ls cs d = Ok b.
Proof.
  induction cs as [|c cs IH]; simpl; intros T d; [eauto|].
  destruct (check_limits_total ls c (fun l I => T l c I (or_introl eq_refl)) d) as [o ->]. simpl.
  destruct o; [apply IH; intros; apply T; auto|eauto].
Qed.

Lemma load_perm l a b : Permutation a b -> load l a == load l b.
Proof. induction 1; unfold load in *; simpl; lra. Qed.

(** ** the combinations of one limit *)
Lemma zrange_in a b z : In z (zrange a b) <-> (a <= z < b)%Z.
Proof.
  unfold zrange. rewrite in_map_iff. split.
  - intros (i & <- & H). apply in_seq in H. lia.
  - intro H. exists (Z.to_nat (z - a)). split; [lia|]. apply in_seq. lia.
Qed.

Lemma iterate_subseq l cs combo : In combo (iterate l cs) -> subseq combo (isort course_leb cs).
Proof.
  unfold iterate. destruct (lm_what l).
  - unfold iterate_courses. rewrite in_flat_map. intros (n & _ & H). apply in_combs in H. apply H.
  - unfold iterate_credits. destruct (Qleb _ _).
    + intros [<-|[]]. apply subseq_refl.
    + rewrite filter_In, in_flat_map. intros [(n & _ & H) _]. apply in_combs in H. apply H.
Qed.
Lemma iterate_credit_bound l cs combo : lm_what l = Credits -> In combo (iterate l cs) -> sum_credits combo <= lm_max l.
Proof.
  unfold iterate. intros ->. unfold iterate_credits. destruct (Qleb _ _) eqn:E.
  - intros [<-|[]]. apply Qleb_iff. exact E.
  - rewrite filter_In. intros [_ H]. apply Qleb_iff. exact H.
Qed.
Lemma int_of_Q_floor q z : 0 <= q -> (inject_Z z <= q <-> (z <= int_of_Q q)%Z).
Proof.
  intro H. unfold int_of_Q. assert (0 <= Qnum q)%Z by (unfold Qle in H; simpl in H; lia).
  unfold Qle, inject_Z. simpl. rewrite Z.mul_1_r. rewrite Z.quot_div_nonneg by lia. split; intro K.
  - apply Z.div_le_lower_bound; lia.
  - assert (Z.pos (Qden q) * (Qnum q / Z.pos (Qden q)) <= Qnum q)%Z by (apply Z.mul_div_le; lia).
    nia.
Qed.
Lemma iterate_courses_complete l cs combo : lm_what l = Courses -> 0 <= lm_max l ->
  subseq combo (isort course_leb cs) -> count combo <= lm_max l -> In combo (iterate l cs).
Proof.
  unfold iterate. intros -> P S C. unfold iterate_courses. apply in_flat_map.
  exists (Z.of_nat (List.length combo)). split.
  - apply zrange_in. split; [lia|]. unfold count in C. apply int_of_Q_floor in C; [lia|exact P].
  - apply in_combs. split; [exact S|lia].
Qed.

(** ** emission *)
Section EmitFacts.
  Variable ord : list course -> list course.
  Hypothesis ord_perm : forall l, Permutation (ord l) l.
  Variables (ls : list limit) (unmatched : list course).

  Definition these_of (results : list (list course)) : list course := dedup course_eqb (List.concat results).

  Lemma in_these r c : In c (these_of r) <-> exists combo, In combo r /\ In c combo.
  Proof.
    unfold these_of. rewrite (in_dedup course_eqb course_eqb_spec), in_concat. reflexivity.
  Qed.
  Lemma these_NoDup r : NoDup (these_of r).
  Proof. apply (dedup_NoDup course_eqb course_eqb_spec). Qed.

  Lemma set_eqb_iff a b : set_eqb a b = true <-> same_set a b.
  Proof.
    unfold set_eqb, same_set. rewrite andb_true_iff, !forallb_forall.
    setoid_rewrite (memb_In course_eqb course_eqb_spec). split.
    - intros [H K] c. split; auto.
    - intro H. split; intros c; apply H.
  Qed.

  Definition variant (these : list course) : list course := isort course_leb (unmatched ++ ord these).

  Lemma emit_sound combos : forall emitted v, In v (g_items (emit ord ls unmatched combos emitted)) ->
    exists r, In r combos /\ check ls (ord (these_of r)) = Ok true /\ v = variant (these_of r) /\
      forall e, In e emitted -> ~ same_set (these_of r) e.
  Proof.
    induction combos as [|r combos IH]; cbn [emit]; intros emitted v I; [destruct I|].
    fold (these_of r) in I. destruct (check ls (ord (these_of r))) as [[]|] eqn:C.
    - destruct (existsb (set_eqb (these_of r)) emitted) eqn:X.
      + destruct (IH _ _ I) as (r' & H & K). exists r'. split; [simpl; auto|exact K].
      + cbn in I. destruct I as [<-|I].
        * exists r. split; [simpl; auto|]. split; [exact C|]. split; [reflexivity|].
          intros e He S. apply set_eqb_iff in S. assert (existsb (set_eqb (these_of r)) emitted = true); [|congruence].
          apply existsb_exists. exists e. auto.
        * destruct (IH _ _ I) as (r' & H & K1 & K2 & K3). exists r'. split; [simpl; auto|]. split; [exact K1|]. split; [exact K2|].
          intros e He. apply K3. simpl. auto.
    - destruct (IH _ _ I) as (r' & H & K). exists r'. split; [simpl; auto|exact K].
    - destruct I.
  Qed.

  Lemma emit_complete combos : (forall r, In r combos -> exists b, check ls (ord (these_of r)) = Ok b) -> forall emitted,
    g_exn (emit ord ls unmatched combos emitted) = None /\
    forall r, In r combos -> check ls (ord (these_of r)) = Ok true ->
      (exists e, In e emitted /\ same_set (these_of r) e) \/
      (exists r', In r' combos /\ same_set (these_of r) (these_of r') /\ In (variant (these_of r')) (g_items (emit ord ls unmatched combos emitted))).
  Proof.
    induction combos as [|r combos IH]; intros T emitted; cbn [emit]; [split; [reflexivity|intros r []]|].
    fold (these_of r). destruct (T r (or_introl eq_refl)) as [b B]. rewrite B.
    assert (T' : forall r, In r combos -> exists b, check ls (ord (these_of r)) = Ok b) by (intros; apply T; simpl; auto).
    destruct b.
    - destruct (existsb (set_eqb (these_of r)) emitted) eqn:X.
      + destruct (IH T' emitted) as [G H]. split; [exact G|]. intros r' [<-|I] C.
        * left. apply existsb_exists in X as (e & He & E). exists e. split; [exact He|]. apply set_eqb_iff. exact E.
        * destruct (H r' I C) as [L|(r2 & I2 & S2 & K2)]; [left; exact L|]. right. exists r2. simpl. auto.
      + destruct (IH T' (these_of r :: emitted)) as [G H]. unfold gapp. cbn [g_exn g_items gret app]. split; [exact G|].
        intros r' [<-|I] C.
        * right. exists r. split; [simpl; auto|]. split; [intro; reflexivity|]. simpl. left. reflexivity.
        * destruct (H r' I C) as [(e & [<-|He] & S)|(r2 & I2 & S2 & K2)].
          -- right. exists r. split; [simpl; auto|]. split; [exact S|]. simpl. left. reflexivity.
          -- left. exists e. auto.
          -- right. exists r2. simpl. auto.
    - destruct (IH T' emitted) as [G H]. split; [exact G|]. intros r' [<-|I] C; [congruence|].
      destruct (H r' I C) as [L|(r2 & I2 & S2 & K2)]; [left; exact L|]. right. exists r2. simpl. auto.
  Qed.

  Lemma emit_pairwise combos : (forall r, In r combos -> forall c, In c (these_of r) -> ~ In c unmatched) -> forall emitted,
    ForallOrdPairs (fun a b => ~ same_set a b) (g_items (emit ord ls unmatched combos emitted)).
  Proof.
    induction combos as [|r combos IH]; intros D emitted; cbn [emit]; [constructor|].
    assert (D' : forall r, In r combos -> forall c, In c (these_of r) -> ~ In c unmatched) by (intros; eapply D; simpl; eauto).
    fold (these_of r). destruct (check ls (ord (these_of r))) as [[]|]; [|apply IH; exact D'|constructor].
    destruct (existsb (set_eqb (these_of r)) emitted); [apply IH; exact D'|].
    unfold gapp. cbn [g_exn g_items gret app]. constructor; [|apply IH; exact D'].
    apply Forall_forall. intros v Hv. apply emit_sound in Hv as (r' & I & C & -> & NE).
    intro S. apply (NE (these_of r)); [simpl; auto|]. intro c. specialize (S c). unfold variant in S.
    rewrite !in_isort, !in_app_iff in S.
    assert (P : forall l x, In x (ord l) <-> In x l) by (intros; split; apply Permutation_in; [|symmetry]; apply ord_perm).
    rewrite !P in S. specialize (D' r' I c). specialize (D r (or_introl eq_refl) c). tauto.
  Qed.
End EmitFacts.

(** ** the whole generator *)
Section Gen.
  Variable ord : list course -> list course.
  Hypothesis ord_perm : forall l, Permutation (ord l) l.
  Variables (ls : list limit) (F : list string) (cs : list course).
  Hypothesis nonempty : ls <> [].
  Hypothesis coh : coherent ls.

  Definition the_forced := filter (fun k => existsb (String.eqb k) F) (map c_clbid (dedup course_eqb cs)).

  Lemma the_forced_iff c : In c cs -> (forced the_forced c <-> forced F c).
  Proof.
    intro I. unfold forced, the_forced. rewrite filter_In, in_clbid. split; [tauto|]. intro H. split; [|exact H].
    apply in_map. apply (in_dedup course_eqb course_eqb_spec). exact I.
  Qed.

  Definition unmatched_of (matched : limit_sets) : list course :=
    filter (fun c => negb (memb course_eqb c (flat_map snd matched))) (dedup course_eqb cs).

  Definition matched_ok (matched : limit_sets) : Prop :=
    (forall l s, In (l, s) matched -> In l ls /\ NoDup s /\ forall c, In c s <-> In c cs /\ ~ forced F c /\ matches l c) /\
    (forall l c, In l ls -> In c cs -> ~ forced F c -> matches l c -> exists s, In (l, s) matched) /\
    (forall l c, In l ls -> In c cs -> ~ forced F c -> decided l c) /\
    NoDup (map (fun p => lm_id (fst p)) matched).

  Lemma probe_matched matched : probe the_forced ls cs [] = Ok matched -> matched_ok matched.
  Proof.
    intro P. destruct (probe_ok the_forced ls cs [] _ matched sets_empty P) as [(N & S & C) T].
    assert (E : forall l c, ((False \/ In l ls /\ In c cs /\ ~ forced the_forced c /\ matches l c) <-> (In l ls /\ In c cs /\ ~ forced F c /\ matches l c))).
    { intros l c. split; [intros [[]|(A & B & D & G)]|intros (A & B & D & G); right]; rewrite (the_forced_iff c B) in *; auto. }
    assert (HL : forall l s, In (l, s) matched -> In l ls).
    { intros l s I. destruct (S l s I) as (_ & _ & (c & W)). apply E in W. tauto. }
    split; [|split; [|split]].
    - intros l s I. destruct (S l s I) as (NS & IS & _). split; [eapply HL; eauto|]. split; [exact NS|].
      intro c. rewrite IS. split.
      + intros (l' & H & E'). apply E in H as (A & B & D & G).
        assert (l' = l) by (apply coh; eauto). subst. auto.
      + intros (A & B & D). exists l. split; [|reflexivity]. apply E. split; [eapply HL; eauto|auto].
    - intros l c Hl Hc NF Hm. destruct (C l c) as (l' & s & I & E'); [apply E; auto|].
      assert (l' = l) by (apply coh; eauto). subst. eauto.
    - intros l c Hl Hc NF. apply T; auto. rewrite (the_forced_iff c Hc). exact NF.
    - exact N.
  Qed.

  Lemma in_all_matched matched c : matched_ok matched -> (In c (flat_map snd matched) <-> In c cs /\ removable F ls c).
  Proof.
    intros (S & C & _ & _). rewrite in_flat_map. split.
    - intros ((l, s) & I & H). simpl in H. destruct (S l s I) as (Hl & _ & IS). apply IS in H as (A & B & D).
      split; [exact A|]. split; [exact B|]. exists l. auto.
    - intros (A & B & l & Hl & Hm). destruct (C l c Hl A B Hm) as (s & I). exists (l, s). split; [exact I|]. simpl.
      destruct (S l s I) as (_ & _ & IS). apply IS. auto.
  Qed.
  Lemma in_unmatched matched c : matched_ok matched -> (In c (unmatched_of matched) <-> In c cs /\ ~ removable F ls c).
  Proof.
    intro MO. unfold unmatched_of. rewrite filter_In, (in_dedup course_eqb course_eqb_spec), negb_true_iff.
    rewrite (memb_false course_eqb course_eqb_spec), in_all_matched by exact MO. tauto.
  Qed.

  (** items of the generator *)
  Definition chosen (matched : limit_sets) (r : list (list course)) : Prop :=
    Forall2 (fun combo p => In combo (iterate (fst p) (snd p))) r matched.

  Lemma product_chosen (matched : limit_sets) r :
    In r (product (map (fun p => iterate (fst p) (snd p)) matched)) <-> chosen matched r.
  Proof.
    rewrite in_product. unfold chosen. split; intro H.
    - remember (map (fun p => iterate (fst p) (snd p)) matched) as ms. revert matched Heqms.
      induction H as [|x m r ms Hx _ IH]; intros [|p matched] E; try discriminate; constructor; simpl in E; injection E as -> ->; auto.
    - induction H; simpl; constructor; auto.
  Qed.

  Lemma limited_form : g_items (limited_transcripts ord ls F cs) = [] \/
    exists matched combos, matched_ok matched /\ (forall r, In r combos -> chosen matched r) /\
      g_items (limited_transcripts ord ls F cs) = g_items (emit ord ls (unmatched_of matched) combos []).
  Proof.
    unfold limited_transcripts. destruct ls as [|l0 ls'] eqn:L; [congruence|]. rewrite <- L in *. fold the_forced.
    destruct (probe the_forced ls cs []) as [matched|] eqn:P; [|left; reflexivity].
    assert (MO := probe_matched matched P). fold (unmatched_of matched).
    replace (map (fun p => gret (iterate (fst p) (snd p))) matched) with (map gret (map (fun p => iterate (fst p) (snd p)) matched)) by (rewrite map_map; reflexivity).
    rewrite lazy_run_pure. destruct (existsb _ _); [left; reflexivity|]. right.
    exists matched, (product (map (fun p => iterate (fst p) (snd p)) matched)). split; [exact MO|]. split; [intro r; apply product_chosen|].
    unfold gapp. cbn [g_exn g_items gret].
    destruct (g_exn (emit ord ls (unmatched_of matched) _ [])); cbn [g_items gnil]; [reflexivity|apply app_nil_r].
  Qed.

  Lemma limited_items v : In v (g_items (limited_transcripts ord ls F cs)) ->
    exists matched r, matched_ok matched /\ chosen matched r /\
      check ls (ord (these_of r)) = Ok true /\ v = variant ord (unmatched_of matched) (these_of r).
  Proof.
    intro I. destruct limited_form as [E|(matched & combos & MO & HC & E)]; rewrite E in I; [destruct I|].
    apply emit_sound in I as (r & Hr & C & EQ & _). exists matched, r. auto.
  Qed.

  Lemma limited_exn : (forall l c, In l ls -> In c cs -> ~ forced F c -> decided l c) ->
    (forall l, In l ls -> lm_what l = Courses /\ 0 <= lm_max l) ->
    exists matched, matched_ok matched /\
      limited_transcripts ord ls F cs = emit ord ls (unmatched_of matched) (product (map (fun p => iterate (fst p) (snd p)) matched)) [].
  Proof.
    intros T K. unfold limited_transcripts. destruct ls as [|l0 ls'] eqn:L; [congruence|]. rewrite <- L in *. fold the_forced.
    destruct (probe_total the_forced ls cs) with (d := @nil (limit * list course)) as [matched P].
    { intros l c Hl Hc NF. apply T; auto. rewrite <- (the_forced_iff c Hc). exact NF. }
    rewrite P. assert (MO := probe_matched matched P). exists matched. split; [exact MO|]. fold (unmatched_of matched).
    replace (map (fun p => gret (iterate (fst p) (snd p))) matched) with (map gret (map (fun p => iterate (fst p) (snd p)) matched)) by (rewrite map_map; reflexivity).
    rewrite lazy_run_pure.
    assert (existsb (fun l : list (list course) => match l with [] => true | _ => false end) (map (fun p => iterate (fst p) (snd p)) matched) = false) as ->.
    { apply not_true_is_false. intro X. apply existsb_exists in X as (it & H & E). apply in_map_iff in H as ((l, s) & <- & I). simpl in E.
      destruct MO as (S & _). destruct (S l s I) as (Hl & _). destruct (K l Hl) as [W P0].
      assert (H : In [] (iterate l s)).
      { apply iterate_courses_complete; [exact W|exact P0|apply subseq_nil_l|]. unfold count. simpl. exact P0. }
      destruct (iterate l s); [destruct H|discriminate]. }
    cbn [g_exn g_items gret]. apply gapp_nil_r.
  Qed.
End Gen.


Lemma chosen_in matched r c : chosen matched r -> In c (these_of r) -> exists l s, In (l, s) matched /\ In c s.
Proof.
  intros F2 I. apply in_these in I as (combo & Hc & Ic).
  induction F2 as [|x [l s] r matched Hx F2 IH]; [destruct Hc|]. destruct Hc as [->|Hc].
  - exists l, s. split; [simpl; auto|]. simpl in Hx. apply iterate_subseq in Hx. eapply subseq_in in Hx; [|exact Ic].
    rewrite in_isort in Hx. exact Hx.
  - destruct (IH Hc) as (l' & s' & I & H). exists l', s'. split; [simpl; auto|exact H].
Qed.

Lemma perm_in (ord : list course -> list course) : (forall l, Permutation (ord l) l) -> forall l x, In x (ord l) <-> In x l.
Proof. intros P l x. split; apply Permutation_in; [apply P|symmetry; apply P]. Qed.

Section Main.
  Variable ord : list course -> list course.
  Hypothesis ord_perm : forall l, Permutation (ord l) l.
  Variables (ls : list limit) (F : list string) (cs : list course).
  Hypothesis nonempty : ls <> [].
  Hypothesis coh : coherent ls.

  Lemma these_removable matched r c : matched_ok ls F cs matched -> chosen matched r -> In c (these_of r) -> In c cs /\ removable F ls c.
  Proof.
    intros MO C I. apply chosen_in with (matched := matched) in I as (l & s & H & K); [|exact C].
    apply (in_all_matched ls F cs matched c MO). apply in_flat_map. exists (l, s). auto.
  Qed.

  Lemma in_variant matched r c : matched_ok ls F cs matched ->
    (In c (variant ord (unmatched_of cs matched) (these_of r)) <-> (In c cs /\ ~ removable F ls c) \/ In c (these_of r)).
  Proof.
    intro MO. unfold variant. rewrite in_isort, in_app_iff, (perm_in ord ord_perm), (in_unmatched ls F cs matched c MO). reflexivity.
  Qed.

  (** shape of every variant *)
  Lemma variant_shape v : In v (g_items (limited_transcripts ord ls F cs)) ->
    NoDup v /\ StronglySorted before v /\ (forall c, In c v -> In c cs) /\ (forall c, In c cs -> ~ removable F ls c -> In c v).
  Proof.
    intro I. apply limited_items in I as (matched & r & MO & C & CH & ->); auto.
    split; [|split; [apply isort_before|split]].
    - unfold variant. apply (Permutation_NoDup (l := unmatched_of cs matched ++ these_of r)).
      + rewrite <- (ord_perm (these_of r)) at 1. symmetry. apply isort_perm.
      + apply NoDup_app.
        * unfold unmatched_of. apply NoDup_filter. apply (dedup_NoDup course_eqb course_eqb_spec).
        * apply these_NoDup.
        * intros c H K. apply (in_unmatched ls F cs matched c MO) in H. apply (these_removable matched r c MO C) in K. tauto.
    - intros c H. apply (in_variant matched r c MO) in H as [[H _]|H]; [exact H|]. apply (these_removable matched r c MO C H).
    - intros c H K. apply (in_variant matched r c MO). left. auto.
  Qed.

  Lemma variants_distinct : ForallOrdPairs (fun a b => ~ same_set a b) (g_items (limited_transcripts ord ls F cs)).
  Proof.
    destruct (limited_form ord ls F cs nonempty coh) as [->|(matched & combos & MO & HC & ->)]; [constructor|].
    apply emit_pairwise; [exact ord_perm|]. intros r Hr c Hc K. apply (in_unmatched ls F cs matched c MO) in K.
    apply (these_removable matched r c MO (HC r Hr)) in Hc. tauto.
  Qed.

  (** the courses a limit restricts, in a variant, are those of its selection *)
  Lemma restricted_these l matched r : In l ls -> matched_ok ls F cs matched -> chosen matched r ->
    Permutation (restricted F l (variant ord (unmatched_of cs matched) (these_of r))) (restricted F l (ord (these_of r))).
  Proof.
    intros Hl MO C.
    assert (NV : NoDup (variant ord (unmatched_of cs matched) (these_of r)) -> NoDup (restricted F l (variant ord (unmatched_of cs matched) (these_of r))))
      by (apply NoDup_filter).
    apply NoDup_Permutation.
    - apply NV. unfold variant. apply (Permutation_NoDup (l := unmatched_of cs matched ++ these_of r)).
      + rewrite <- (ord_perm (these_of r)) at 1. symmetry. apply isort_perm.
      + apply NoDup_app.
        * unfold unmatched_of. apply NoDup_filter. apply (dedup_NoDup course_eqb course_eqb_spec).
        * apply these_NoDup.
        * intros c H K. apply (in_unmatched ls F cs matched c MO) in H. apply (these_removable matched r c MO C) in K. tauto.
    - apply NoDup_filter. apply (Permutation_NoDup (l := these_of r)); [symmetry; apply ord_perm|apply these_NoDup].
    - intro c. rewrite !in_restricted, (in_variant matched r c MO), (perm_in ord ord_perm). split.
      + intros ([[A B]|A] & NF & Hm); [|tauto]. exfalso. apply B. split; [exact NF|]. exists l. auto.
      + tauto.
  Qed.

  Lemma restricted_load l r : In l ls -> (forall c, In c r -> removable F ls c) ->
    load l r == Qsum (map (weight l) (restricted F l r)).
  Proof.
    intros Hl H. induction r as [|c r IH]; [reflexivity|]. rewrite load_cons. unfold restricted. simpl.
    assert (NF : existsb (String.eqb (c_clbid c)) F = false).
    { apply not_true_is_false. intro X. apply in_clbid in X. apply (proj1 (H c (or_introl eq_refl))). exact X. }
    rewrite NF. simpl. fold (restricted F l r). unfold lm_match.
    rewrite IH by (intros; apply H; simpl; auto). destruct (apply_pred (ICourse c) (lm_where l)) as [[]|]; simpl; lra.
  Qed.
End Main.

Lemma Qsum_perm a b : Permutation a b -> Qsum a == Qsum b.
Proof. induction 1; simpl; lra. Qed.
Lemma Qsum_ones {A} (l : list A) : Qsum (map (fun _ => 1) l) == inject_Z (Z.of_nat (List.length l)).
Proof.
  induction l as [|x l IH]; [reflexivity|].
  replace (Z.of_nat (List.length (x :: l))) with (1 + Z.of_nat (List.length l))%Z by (simpl List.length; lia).
  rewrite inject_Z_plus, <- IH. reflexivity.
Qed.

(** the last matching course of a list *)
Lemma last_match l cs : (exists c, In c cs /\ lm_match l c = Ok true) ->
  exists pre c post, cs = pre ++ c :: post /\ lm_match l c = Ok true /\ (forall x, In x post -> lm_match l x <> Ok true).
Proof.
  induction cs as [|y cs IH]; [intros (c & [] & _)|]. intros (c & I & Hm).
  assert (D : (exists c, In c cs /\ lm_match l c = Ok true) \/ (forall x, In x cs -> lm_match l x <> Ok true)).
  { clear. induction cs as [|z cs IH]; [right; intros x []|]. destruct IH as [(c & I & H)|H]; [left; exists c; simpl; auto|].
    destruct (lm_match l z) as [[]|] eqn:E; [left; exists z; simpl; auto| |]; right; intros x [<-|I]; auto; congruence. }
  destruct D as [D|D].
  - destruct (IH D) as (pre & c' & post & -> & H). exists (y :: pre), c', post. auto.
  - destruct I as [->|I]; [|exfalso; eapply D; eauto]. exists [], c, cs. auto.
Qed.
Lemma load_app l a b : load l (a ++ b) == load l a + load l b.
Proof. induction a as [|c a IH]; simpl; [unfold load; simpl; lra|]. rewrite !load_cons, IH. lra. Qed.
Lemma load_nomatch l cs : (forall x, In x cs -> lm_match l x <> Ok true) -> load l cs == 0.
Proof.
  induction cs as [|c cs IH]; intro H; [reflexivity|]. rewrite load_cons, IH by (intros; apply H; simpl; auto).
  specialize (H c (or_introl eq_refl)). destruct (lm_match l c) as [[]|]; congruence || lra.
Qed.

(** a passed check on course counts: fewer than the maximum plus one *)
Lemma check_courses_bound ls l cs : coherent ls -> In l ls -> lm_what l = Courses -> check ls cs = Ok true ->
  (exists c, In c cs /\ lm_match l c = Ok true) -> load l cs < lm_max l + 1.
Proof.
  intros CO Hl W C X. destruct (last_match l cs X) as (pre & c & post & E & Hm & NP).
  assert (WT : forall x, weight l x = 1) by (intro; unfold weight; rewrite W; reflexivity).
  assert (NN : forall x, 0 <= weight l x) by (intro; rewrite WT; lra).
  assert (B := check_from_sound ls l (fun l' H Q => CO l' l H Hl Q) Hl cs [] (fun x _ => NN x) C pre c post E Hm).
  unfold count_of in B. simpl in B. subst cs. rewrite load_app, load_cons, Hm, WT, (load_nomatch l post NP). lra.
Qed.

(** on distinct course-count limits the check is the bound *)
Lemma check_courses_pass ls cs : distinct ls -> (forall l c, In l ls -> In c cs -> exists b, lm_match l c = Ok b) ->
  (forall l, In l ls -> lm_what l = Courses) ->
  (forall l, In l ls -> (exists c, In c cs /\ lm_match l c = Ok true) -> load l cs < lm_max l + 1) -> check ls cs = Ok true.
Proof.
  intros D T W H. apply check_from_complete; [exact D|exact T|]. intros l pre c post Hl E Hm. unfold count_of. simpl.
  assert (X : exists c, In c cs /\ lm_match l c = Ok true) by (exists c; subst; rewrite in_app_iff; simpl; auto).
  specialize (H l Hl X). subst cs. rewrite load_app, load_cons, Hm in H.
  assert (0 <= load l post) by (apply load_nonneg; intros; unfold weight; rewrite (W l Hl); lra).
  unfold weight in H. rewrite (W l Hl) in H. lra.
Qed.

Lemma distinct_coherent ls : distinct ls -> coherent ls.
Proof.
  unfold distinct. induction ls as [|l ls IH]; intros N a b Ha Hb E; [destruct Ha|]. simpl in N. inversion N; subst.
  destruct Ha as [->|Ha], Hb as [->|Hb]; auto.
  - exfalso. apply H1. rewrite E. apply in_map. exact Hb.
  - exfalso. apply H1. rewrite <- E. apply in_map. exact Ha.
  - apply IH; auto.
Qed.
