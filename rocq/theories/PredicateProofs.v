From Coq Require Import List ZArith Bool String Ascii Lia.
From Verif Require Import Prelude Dec Course Op OpProofs Context CondExpr CondExprSpec CondExprProofs Predicate PredicateSpec.
Import ListNotations.
Local Open Scope string_scope.
Local Open Scope list_scope.

Section PInd.
  Variable P : pred -> Prop.
  Hypothesis HAnd : forall l, Forall P l -> P (PAnd l).
  Hypothesis HOr : forall l, Forall P l -> P (POr l).
  Hypothesis HNot : forall x, P x -> P (PNot x).
  Hypothesis HIf1 : forall c t, P t -> P (PIf c t None).
  Hypothesis HIf2 : forall c t e, P t -> P e -> P (PIf c t (Some e)).
  Hypothesis HLeaf : forall l, P (PLeaf l).
  Fixpoint pred_ind' (x : pred) : P x :=
    let go := fix go l : Forall P l :=
      match l with [] => Forall_nil _ | y :: t => Forall_cons _ (pred_ind' y) (go t) end in
    match x with
    | PAnd l => HAnd l (go l)
    | POr l => HOr l (go l)
    | PNot y => HNot y (pred_ind' y)
    | PIf c t None => HIf1 c t (pred_ind' t)
    | PIf c t (Some e) => HIf2 c t e (pred_ind' t) (pred_ind' e)
    | PLeaf l => HLeaf l
    end.
End PInd.
Section WInd.
  Variable P : wdata -> Prop.
  Hypothesis HAnd : forall l, Forall P l -> P (WAnd l).
  Hypothesis HOr : forall l, Forall P l -> P (WOr l).
  Hypothesis HNot : forall x, P x -> P (WNot x).
  Hypothesis HIf1 : forall c t, P t -> P (WIf c t None).
  Hypothesis HIf2 : forall c t e, P t -> P e -> P (WIf c t (Some e)).
  Hypothesis HLeaf : forall l, P (WKeys l).
  Fixpoint wdata_ind' (x : wdata) : P x :=
    let go := fix go l : Forall P l :=
      match l with [] => Forall_nil _ | y :: t => Forall_cons _ (wdata_ind' y) (go t) end in
    match x with
    | WAnd l => HAnd l (go l)
    | WOr l => HOr l (go l)
    | WNot y => HNot y (wdata_ind' y)
    | WIf c t None => HIf1 c t (wdata_ind' t)
    | WIf c t (Some e) => HIf2 c t e (wdata_ind' t) (wdata_ind' e)
    | WKeys l => HLeaf l
    end.
End WInd.

Lemma counted_subject_fun c s : counted_subject c s -> subject_value c = s.
Proof.
  unfold subject_value. destruct 1 as [c E|c E|c E|c n E N1 N2]; rewrite E; try reflexivity.
  apply Z.eqb_neq in N1, N2. rewrite N1, N2. reflexivity.
Qed.
Lemma counted_subject_ex c : counted_subject c (subject_value c).
Proof.
  unfold subject_value. destruct (c_chbi c) as [n|] eqn:E; [|apply cs_plain; assumption].
  destruct (Z.eqb_spec n 125); [subst; simpl; apply cs_125; assumption|].
  destruct (Z.eqb_spec n 126); [subst; simpl; apply cs_126; assumption|].
  simpl. eapply cs_bio; eauto.
Qed.

Lemma apply_grade_spec c l g w : counted_grade c g -> counted_threshold c l w ->
  apply_grade c l = apply_operator (l_op l) (VS (SGrade g)) w.
Proof.
  unfold apply_grade, compare_in_covid, compare_leaf.
  destruct 1 as [c Hc|c Hc Hg|c Hc Hg Hs|c g Hc Hg Hs]; inversion 1; subst; rewrite Hc; try congruence;
    repeat match goal with H : l_covid l = _ |- _ => rewrite H end; try reflexivity.
  - destruct (c_grade_code c); try reflexivity; congruence.
  - destruct (c_grade_code c); try reflexivity; congruence.
  - rewrite Hg, Hs. reflexivity.
  - rewrite Hg, Hs. reflexivity.
  - rewrite Hg, Hs. reflexivity.
  - rewrite Hg, Hs. reflexivity.
Qed.
Lemma counted_grade_ex c : exists g, counted_grade c g.
Proof.
  destruct (c_covid c) eqn:C; [|eexists; apply cg_normal; assumption].
  destruct (grade_code_eq_dec (c_grade_code c) G_S); [|eexists; apply cg_covid_letter; assumption].
  destruct (c_su_grade c) eqn:S; eexists; [eapply cg_covid_su; eauto|apply cg_covid_s; auto].
Qed.
Lemma counted_threshold_ex c l : exists w, counted_threshold c l w.
Proof.
  destruct (c_covid c) eqn:C; [|eexists; apply ct_normal; assumption].
  destruct (l_covid l) eqn:S; eexists; [apply ct_covid; eauto|apply ct_none; auto].
Qed.

Lemma course_type_eqb_spec a b : course_type_eqb a b = true <-> a = b.
Proof. unfold course_type_eqb. destruct course_type_eq_dec; split; congruence. Qed.

(** a clause compares the value the table says *)
Lemma leaf_compares x l v w : compares x l v w -> leaf_apply x l = apply_operator (l_op l) v w.
Proof.
  destruct 1 as [c l v F|c l g w E G T|a l v F|p l v F|s l v F]; simpl.
  - inversion F; subst; unfold course_apply;
      match goal with H : _ = l_key l |- _ => rewrite <- H end; cbn; try reflexivity.
    + replace (course_type_eqb (c_course_type c) CtAP) with true by (symmetry; apply course_type_eqb_spec; assumption).
      reflexivity.
    + match goal with H : counted_subject _ _ |- _ => apply counted_subject_fun in H as -> end. reflexivity.
  - unfold course_apply. rewrite E. cbn. apply apply_grade_spec; assumption.
  - inversion F; subst; unfold area_apply; match goal with H : _ = l_key l |- _ => rewrite <- H end; cbn; try reflexivity.
    match goal with H : a_gpa _ = _ |- _ => rewrite H end. reflexivity.
  - inversion F; subst; unfold perf_apply.
    + match goal with H : slip_field _ _ _ |- _ => inversion H; subst end;
        unfold slip_apply; match goal with H : _ = l_key l |- _ => rewrite <- H end; reflexivity.
    + match goal with H : _ = l_key l |- _ => rewrite <- H end; cbn. match goal with H : mp_status _ = _ |- _ => rewrite H end. reflexivity.
    + match goal with H : _ = l_key l |- _ => rewrite <- H end; cbn. match goal with H : mp_status _ = _ |- _ => rewrite H end. reflexivity.
    + match goal with H : _ = l_key l |- _ => rewrite <- H end; cbn. match goal with H : mp_role _ = _ |- _ => rewrite H end.
      match goal with H : ?r <> "" |- _ => apply String.eqb_neq in H; rewrite H end. reflexivity.
  - inversion F; subst; unfold slip_apply; match goal with H : _ = l_key l |- _ => rewrite <- H end; reflexivity.
Qed.

Ltac each_key H :=
  repeat match type of H with
  | _ \/ _ => destruct H as [H|H]
  | False => destruct H
  end.

(** an item either has the field, or the clause is false *)
Lemma leaf_absent x l : In (l_key l) (known_keys x) ->
  (exists v w, compares x l v w) \/ ((forall v w, ~ compares x l v w) /\ leaf_apply x l = Ok false).
Proof.
  destruct x as [c|a|p|s]; cbn [known_keys In]; intro H; each_key H;
    try (left; do 2 eexists; first [apply cp_course; rewrite <- H; constructor; fail
                                    |apply cp_area; rewrite <- H; constructor; fail
                                    |apply cp_perf; rewrite <- H; constructor; constructor; fail
                                    |apply cp_slip; rewrite <- H; constructor; fail]; fail).
  - destruct (course_type_eq_dec (c_course_type c) CtAP) as [E|E].
    + left. do 2 eexists. apply cp_course. rewrite <- H. constructor. assumption.
    + right. split.
      * intros v w C. inversion C; subst; [|congruence].
        match goal with F : course_field _ _ _ |- _ => inversion F; subst end; try congruence.
      * simpl. unfold course_apply. rewrite <- H. cbn.
        replace (course_type_eqb (c_course_type c) CtAP) with false; [reflexivity|].
        symmetry. apply not_true_is_false. intro K. apply course_type_eqb_spec in K. contradiction.
  - left. destruct (counted_grade_ex c) as (g & G). destruct (counted_threshold_ex c l) as (w & T).
    do 2 eexists. apply cp_grade; eauto.
  - left. do 2 eexists. apply cp_course. rewrite <- H. constructor. apply counted_subject_ex.
  - destruct (a_gpa a) as [g|] eqn:G.
    + left. do 2 eexists. apply cp_area. rewrite <- H. constructor. eassumption.
    + right. split.
      * intros v w C. inversion C; subst. match goal with F : area_field _ _ _ |- _ => inversion F; subst end; congruence.
      * simpl. unfold area_apply. rewrite <- H. cbn. rewrite G. reflexivity.
  - destruct (mp_status p) as [[]|] eqn:G.
    + left. do 2 eexists. apply cp_perf. rewrite <- H. apply pf_entrance. assumption.
    + left. do 2 eexists. apply cp_perf. rewrite <- H. apply pf_continuance. assumption.
    + right. split.
      * intros v w C. inversion C; subst. match goal with F : perf_field _ _ _ |- _ => inversion F; subst end; try congruence.
        match goal with F : slip_field _ _ _ |- _ => inversion F; subst end; congruence.
      * simpl. unfold perf_apply. rewrite <- H. cbn. rewrite G. reflexivity.
  - destruct (mp_role p) as [r|] eqn:G; [destruct (String.eqb_spec r "") as [E|E]|].
    + right. subst r. split.
      * intros v w C. inversion C; subst. match goal with F : perf_field _ _ _ |- _ => inversion F; subst end; try congruence.
        match goal with F : slip_field _ _ _ |- _ => inversion F; subst end; congruence.
      * simpl. unfold perf_apply. rewrite <- H. cbn. rewrite G. reflexivity.
    + left. do 2 eexists. apply cp_perf. rewrite <- H. eapply pf_role; eauto.
    + right. split.
      * intros v w C. inversion C; subst. match goal with F : perf_field _ _ _ |- _ => inversion F; subst end; try congruence.
        match goal with F : slip_field _ _ _ |- _ => inversion F; subst end; congruence.
      * simpl. unfold perf_apply. rewrite <- H. cbn. rewrite G. reflexivity.
Qed.

Lemma leaf_unknown x l : ~ In (l_key l) (known_keys x) -> exists e, leaf_apply x l = Err e.
Proof.
  intro N. destruct x as [c|a|p|s]; cbn [known_keys In] in N; cbn [leaf_apply];
    unfold course_apply, area_apply, perf_apply, slip_apply;
    repeat match goal with
    | |- context [(l_key l =? ?k)%string] =>
        destruct (String.eqb_spec (l_key l) k) as [E|_]; [exfalso; apply N; rewrite E; tauto|]
    end; cbn; eauto.
Qed.

Lemma leaf_spec x l : leaf_ok x l -> exists b, leaf_apply x l = Ok b /\ (b = true <-> satisfied x l).
Proof.
  intros [K D]. destruct (leaf_absent x l K) as [(v & w & C)|[N E]].
  - destruct (D v w C) as [b B]. exists b. rewrite (leaf_compares x l v w C). split; [exact B|]. split.
    + intros ->. exists v, w. auto.
    + intros (v' & w' & C' & B'). apply leaf_compares in C, C'. congruence.
  - exists false. split; [exact E|]. split; [discriminate|]. intros (v & w & C & _). exfalso. eapply N; eauto.
Qed.

Lemma fold_and_in {A} (P : A -> Prop) l : fold_right (fun q R => P q /\ R) True l <-> (forall x, In x l -> P x).
Proof. induction l as [|x l IH]; simpl; [tauto|]. rewrite IH. split; [intros [H K] y [->|Hy]; auto|intro H; split; auto]. Qed.
Lemma fold_or_in {A} (P : A -> Prop) l : fold_right (fun q R => P q \/ R) False l <-> (exists x, In x l /\ P x).
Proof.
  induction l as [|x l IH]; simpl; [split; [tauto|intros (x & [] & _)]|]. rewrite IH. split.
  - intros [H|(y & Hy & H)]; [exists x; auto|exists y; auto].
  - intros (y & [->|Hy] & H); [auto|right; exists y; auto].
Qed.

Lemma pred_spec x p : all_leaves (leaf_ok x) p -> exists b, apply_pred x p = Ok b /\ (b = true <-> holds x p).
Proof.
  induction p as [l IH|l IH|q IH|c t IHt|c t e IHt IHe|l] using pred_ind'; cbn [all_leaves apply_pred holds]; intro H.
  - rewrite Forall_forall in IH. rewrite fold_and_in in H.
    destruct (all_res_spec (apply_pred x) (holds x) l) as (b & E & B); [intros q Hq; apply IH; auto|].
    exists b. rewrite fold_and_in. auto.
  - rewrite Forall_forall in IH. rewrite fold_and_in in H.
    destruct (any_res_spec (apply_pred x) (holds x) l) as (b & E & B); [intros q Hq; apply IH; auto|].
    exists b. rewrite fold_or_in. auto.
  - destruct (IH H) as (b & -> & B). simpl. eexists. split; [reflexivity|]. rewrite <- B. destruct b; simpl; split; congruence.
  - destruct H as [Ht _]. destruct (IHt Ht) as (b & E & B). destruct (e_result c) as [[]|] eqn:R; cbn [truthy].
    + exists b. split; [exact E|]. rewrite B. intuition congruence.
    + exists false. split; [reflexivity|]. intuition congruence.
    + exists false. split; [reflexivity|]. intuition congruence.
  - destruct H as [Ht He]. destruct (IHt Ht) as (b & E & B). destruct (IHe He) as (b' & E' & B').
    destruct (e_result c) as [[]|] eqn:R; cbn [truthy].
    + exists b. split; [exact E|]. rewrite B. intuition congruence.
    + exists b'. split; [exact E'|]. rewrite B'. intuition congruence.
    + exists b'. split; [exact E'|]. rewrite B'. intuition congruence.
  - apply leaf_spec. exact H.
Qed.

(** ** loading *)
Lemma mapr_ok {A B} (f : A -> res B) l r : mapr f l = Ok r -> Forall2 (fun x y => f x = Ok y) l r.
Proof.
  revert r. induction l as [|x l IH]; simpl; intros r E; [injection E as <-; constructor|].
  destruct (f x) as [y|] eqn:F; [|discriminate]. destruct (mapr f l) as [ys|]; [|discriminate].
  injection E as <-. constructor; auto.
Qed.
Lemma F2_in_l {A B} (R : A -> B -> Prop) l r x : Forall2 R l r -> In x l -> exists y, In y r /\ R x y.
Proof. induction 1 as [|a b l r Hab _ IH]; simpl; [tauto|]. intros [->|H]; [eauto|]. destruct (IH H) as (y & Hy & E). eauto. Qed.
Lemma F2_in_r {A B} (R : A -> B -> Prop) l r y : Forall2 R l r -> In y r -> exists x, In x l /\ R x y.
Proof. induction 1 as [|a b l r Hab _ IH]; simpl; [tauto|]. intros [->|H]; [eauto|]. destruct (IH H) as (x & Hx & E). eauto. Qed.

Lemma load_spec cx c m w : NoDup (map fst (cx_exc cx)) -> w_ok w -> forall p, load_predicate cx c m w = Ok p ->
  forall x, holds x p <-> w_holds cx c m x w.
Proof.
  intros N. induction w as [l IH|l IH|q IH|d t IHt|d t e IHt IHe|l] using wdata_ind';
    cbn [w_ok load_predicate w_holds]; intros W p E x.
  - destruct (mapr (load_predicate cx c m) l) as [ps|] eqn:M; [|discriminate]. apply mapr_ok in M. simpl in E.
    destruct (nonempty ps); [|discriminate]. injection E as <-. cbn [holds]. rewrite !fold_and_in.
    rewrite Forall_forall in IH. rewrite fold_and_in in W. split; intros H y Hy.
    + destruct (F2_in_l _ _ _ y M Hy) as (z & Hz & L). apply (IH y Hy (W y Hy) z L). auto.
    + destruct (F2_in_r _ _ _ y M Hy) as (z & Hz & L). apply (IH z Hz (W z Hz) y L). auto.
  - destruct (mapr (load_predicate cx c m) l) as [ps|] eqn:M; [|discriminate]. apply mapr_ok in M. simpl in E.
    destruct (nonempty ps); [|discriminate]. injection E as <-. cbn [holds]. rewrite !fold_or_in.
    rewrite Forall_forall in IH. rewrite fold_and_in in W. split; intros (y & Hy & H).
    + destruct (F2_in_r _ _ _ y M Hy) as (z & Hz & L). exists z. split; [exact Hz|]. apply (IH z Hz (W z Hz) y L). auto.
    + destruct (F2_in_l _ _ _ y M Hy) as (z & Hz & L). exists z. split; [exact Hz|]. apply (IH y Hy (W y Hy) z L). auto.
  - destruct (load_predicate cx c m q) as [p'|]; [|discriminate]. injection E as <-. cbn [holds]. rewrite (IH W p' eq_refl x). tauto.
  - destruct W as (Wd & Wt & _). destruct (load_expr_spec cx d N Wd) as (ex & b & L & R & B). rewrite L in E. simpl in E.
    destruct (load_predicate cx c m t) as [p'|]; [|discriminate]. injection E as <-. cbn [holds]. rewrite (IHt Wt p' eq_refl x).
    rewrite R, <- B. destruct b; intuition congruence.
  - destruct W as (Wd & Wt & We). destruct (load_expr_spec cx d N Wd) as (ex & b & L & R & B). rewrite L in E. simpl in E.
    destruct (load_predicate cx c m t) as [p'|]; [|discriminate]. simpl in E.
    destruct (load_predicate cx c m e) as [p''|]; [|discriminate]. injection E as <-. cbn [holds].
    rewrite (IHt Wt p' eq_refl x), (IHe We p'' eq_refl x). rewrite R, <- B. destruct b; intuition congruence.
  - destruct (mapr _ l) as [ls|] eqn:M; [|discriminate]. apply mapr_ok in M. cbn [bind] in E.
    assert (H : holds x p <-> forall lf, In lf ls -> satisfied x lf).
    { destruct ls as [|y [|z ls]]; injection E as <-.
      - cbn. split; [intros _ lf []|auto].
      - cbn. split; [intros H lf [<-|[]]; exact H|auto].
      - change (PLeaf y :: PLeaf z :: map PLeaf ls) with (map PLeaf (y :: z :: ls)).
        cbn [holds]. rewrite fold_and_in. split.
        + intros H lf Hlf. apply (H (PLeaf lf)). apply (in_map PLeaf (y :: z :: ls)). exact Hlf.
        + intros H q Hq. apply (in_map_iff PLeaf (y :: z :: ls)) in Hq as (lf & <- & Hlf). exact (H lf Hlf). }
    rewrite H. split.
    + intros K k d Hkd. destruct (F2_in_l _ _ _ _ M Hkd) as (lf & Hlf & L). exists lf. auto.
    + intros K lf Hlf. destruct (F2_in_r _ _ _ _ M Hlf) as ([k d] & Hkd & L). destruct (K k d Hkd) as (lf' & L' & S).
      cbn in L. congruence.
Qed.

Lemma get_by_name_spec c s l : stands_for c s l ->
  exists r, get_by_name c s = Ok r /\ l = match r with inl l => l | inr y => [y] end.
Proof.
  destruct 1 as [s l K|s N|s E].
  - destruct K; cbn; try (eexists; split; reflexivity); rewrite H; eexists; split; reflexivity.
  - cbn [get_by_name]. assert (starts_dollar s = false) as ->.
    { destruct s as [|a t]; [reflexivity|]. cbn. destruct (Ascii.eqb_spec a "$"); [|reflexivity]. subst. exfalso. eapply N; eauto. }
    cbn. eexists; split; reflexivity.
  - destruct s; cbn in E; try discriminate; cbn; eexists; split; reflexivity.
Qed.
Lemma get_by_name_unknown c s : (forall l, ~ stands_for c s l) -> get_by_name c s = Err ValueErr.
Proof.
  intro N. destruct s; try (exfalso; eapply N; apply st_other; reflexivity).
  cbn [get_by_name]. destruct (starts_dollar s) eqn:D; cbn.
  2:{ exfalso. eapply N. apply st_text. intros t ->. discriminate. }
  repeat match goal with |- context [(s =? ?k)%string] => destruct (String.eqb_spec s k) as [E|_] end; try reflexivity;
    exfalso; subst s.
  - eapply N. apply st_const. constructor.
  - eapply N. apply st_const. constructor.
  - destruct (k_medium c) eqn:M; eapply N; apply st_const; [eapply kn_medium|eapply kn_media]; eassumption.
  - eapply N. apply st_const. constructor.
  - eapply N. apply st_const. constructor.
Qed.
