From Coq Require Import List ZArith QArith Bool String Lia.
From Verif Require Import Prelude Dec Course Op OpMemo OpSpec StrFacts ListFacts.
Import ListNotations.

Lemma Qeqb_spec a b : Qeqb a b = true <-> a == b.
Proof. unfold Qeqb. apply Qeq_bool_iff. Qed.

Lemma grade_eqb_spec a b : grade_eqb a b = true <-> a = b.
Proof. unfold grade_eqb. destruct (grade_code_eq_dec a b); split; congruence. Qed.
Lemma opt_eqb_spec a b : opt_eqb a b = true <-> a = b.
Proof. unfold opt_eqb. destruct (grade_option_eq_dec a b); split; congruence. Qed.

(** equality after coercion decides [same_value] on non-null scalars *)
Lemma num_not_str a x : num a = Some x -> is_str a = false.
Proof. destruct a; simpl; congruence. Qed.

Lemma scalar_eq_spec a b : non_null a -> non_null b ->
  exists x, op_scalar OEq a b = Ok x /\ op_scalar ONeq a b = Ok (negb x) /\ (x = true <-> same_value a b).
Proof.
  unfold non_null. intros Na Nb. unfold op_scalar.
  assert (M : none_mismatch a b = false).
  { unfold none_mismatch. destruct a, b; try reflexivity; congruence. }
  rewrite M. eexists. split; [reflexivity|]. split; [reflexivity|].
  destruct (is_str a || is_str b) eqn:T.
  - assert (E : py_eq
        (if negb (is_str a) && is_str (if is_str a && negb (is_str b) then SStr (py_str b) else b)
         then SStr (py_str a) else a)
        (if is_str a && negb (is_str b) then SStr (py_str b) else b) = String.eqb (py_str a) (py_str b)).
    { destruct a, b; try discriminate T; reflexivity. }
    rewrite E, String.eqb_eq. apply orb_true_iff in T. split; [apply sv_text; exact T|].
    intro H. inversion H; subst; auto.
    apply num_not_str in H0. apply num_not_str in H1. destruct T; congruence.
  - apply orb_false_iff in T as [Ta Tb]. rewrite Ta, Tb. cbn [negb andb]. rewrite Tb. split.
    + intro E. destruct a, b; try congruence; cbn [py_eq] in E; try discriminate;
        try (apply grade_eqb_spec in E as ->; constructor); try (apply opt_eqb_spec in E as ->; constructor);
        repeat match type of E with context [match num ?x with _ => _ end] => destruct (num x) eqn:?; try discriminate E end;
        apply Qeqb_spec in E; eapply sv_num; eauto.
    + intro H. inversion H; subst.
      * destruct H0; congruence.
      * destruct a, b; try congruence; cbn [py_eq]; try discriminate; rewrite H0, H1; apply Qeqb_spec; assumption.
      * apply grade_eqb_spec. reflexivity.
      * apply opt_eqb_spec. reflexivity.
Qed.

Lemma any_res_spec {A} (f : A -> res bool) (P : A -> Prop) l :
  (forall x, In x l -> exists b, f x = Ok b /\ (b = true <-> P x)) ->
  exists b, any_res f l = Ok b /\ (b = true <-> exists x, In x l /\ P x).
Proof.
  induction l as [|x l IH]; intro H; simpl.
  - exists false. split; [reflexivity|]. split; [discriminate|intros (x & [] & _)].
  - destruct (H x) as (b & -> & B); [simpl; auto|]. simpl. destruct b.
    + exists true. split; [reflexivity|]. split; [|auto]. intros _. exists x. split; [auto|]. tauto.
    + destruct IH as (b & -> & B'); [intros y Hy; apply H; simpl; auto|]. exists b. split; [reflexivity|].
      rewrite B'. split.
      * intros (y & Hy & Py). eauto.
      * intros (y & [->|Hy] & Py); [|eauto]. apply B in Py. discriminate.
Qed.

Lemma all_res_spec {A} (f : A -> res bool) (P : A -> Prop) l :
  (forall x, In x l -> exists b, f x = Ok b /\ (b = true <-> P x)) ->
  exists b, all_res f l = Ok b /\ (b = true <-> forall x, In x l -> P x).
Proof.
  induction l as [|x l IH]; intro H; simpl.
  - exists true. split; [reflexivity|]. split; [intros _ x []|auto].
  - destruct (H x) as (b & -> & B); [simpl; auto|]. simpl. destruct b.
    + destruct IH as (b & -> & B'); [intros y Hy; apply H; simpl; auto|]. exists b. split; [reflexivity|].
      rewrite B'. split.
      * intros H' y [->|Hy]; [apply B; reflexivity|auto].
      * intros H' y Hy. auto.
    + exists false. split; [reflexivity|]. split; [discriminate|]. intro H'.
      apply B. apply H'. auto.
Qed.

Lemma any_all_complement {A} (f g : A -> res bool) l :
  (forall x, In x l -> exists b, f x = Ok b /\ g x = Ok (negb b)) ->
  exists b, any_res f l = Ok b /\ all_res g l = Ok (negb b).
Proof.
  induction l as [|x l IH]; intro H; simpl; [exists false; auto|].
  destruct (H x) as (b & -> & ->); [simpl; auto|]. simpl. destruct b; simpl; [exists true; auto|].
  apply IH. intros y Hy. apply H. simpl; auto.
Qed.

Lemma membership_l l r : Forall non_null l -> non_null r ->
  exists b,
    apply_operator OEq (VT l) (VS r) = Ok b /\ apply_operator OIn (VT l) (VS r) = Ok b /\
    apply_operator ONeq (VT l) (VS r) = Ok (negb b) /\ apply_operator ONin (VT l) (VS r) = Ok (negb b) /\
    (b = true <-> exists x, In x l /\ same_value x r).
Proof.
  intros Fl Nr. rewrite Forall_forall in Fl. unfold apply_operator.
  assert (is_none r = false) as -> by (destruct r; try reflexivity; exfalso; apply Nr; reflexivity).
  assert (P1 : forall x, In x l -> exists b, op_scalar OEq x r = Ok b /\ (b = true <-> same_value x r)).
  { intros x Hx. destruct (scalar_eq_spec x r (Fl x Hx) Nr) as (b & E & _ & B). eauto. }
  assert (P2 : forall x, In x l -> exists b, op_scalar OEq x r = Ok b /\ op_scalar ONeq x r = Ok (negb b)).
  { intros x Hx. destruct (scalar_eq_spec x r (Fl x Hx) Nr) as (b & E & E' & B). eauto. }
  destruct (any_res_spec _ _ l P1) as (b & E & B).
  destruct (any_all_complement _ _ l P2) as (b' & E' & EN). rewrite E in E'. injection E' as <-.
  exists b. unfold op_half_l. rewrite E, EN. split; [|auto].
  destruct l as [|x [|y l]].
  - simpl in E. congruence.
  - simpl in E. destruct (op_scalar OEq x r) as [[]|]; simpl in E; congruence.
  - reflexivity.
Qed.

Lemma membership_r l r : non_null l -> Forall non_null r ->
  exists b,
    apply_operator OEq (VS l) (VT r) = Ok b /\ apply_operator OIn (VS l) (VT r) = Ok b /\
    apply_operator ONeq (VS l) (VT r) = Ok (negb b) /\ apply_operator ONin (VS l) (VT r) = Ok (negb b) /\
    (b = true <-> exists x, In x r /\ same_value l x).
Proof.
  intros Nl Fr. rewrite Forall_forall in Fr. unfold apply_operator.
  assert (is_none l = false) as -> by (destruct l; try reflexivity; exfalso; apply Nl; reflexivity).
  assert (P1 : forall x, In x r -> exists b, op_scalar OEq l x = Ok b /\ (b = true <-> same_value l x)).
  { intros x Hx. destruct (scalar_eq_spec l x Nl (Fr x Hx)) as (b & E & _ & B). eauto. }
  assert (P2 : forall x, In x r -> exists b, op_scalar OEq l x = Ok b /\ op_scalar ONeq l x = Ok (negb b)).
  { intros x Hx. destruct (scalar_eq_spec l x Nl (Fr x Hx)) as (b & E & E' & B). eauto. }
  destruct (any_res_spec (fun v => op_scalar OEq l v) _ r P1) as (b & E & B).
  destruct (any_all_complement (fun v => op_scalar OEq l v) (fun v => op_scalar ONeq l v) r P2) as (b' & E' & EN). rewrite E in E'. injection E' as <-.
  exists b. unfold op_half_r. rewrite E, EN. split; [|auto].
  destruct r as [|x [|y r]].
  - simpl in E. congruence.
  - simpl in E. destruct (op_scalar OEq l x) as [[]|]; simpl in E; congruence.
  - reflexivity.
Qed.

Lemma membership_tuples l r :
  exists b, apply_operator OIn (VT l) (VT r) = Ok b /\
    (b = true <-> exists x y, In x l /\ In y r /\ py_str x = py_str y).
Proof.
  simpl. unfold op_tuples. destruct l as [|x l]; [|destruct r as [|y r]].
  - exists false. split; [reflexivity|]. split; [discriminate|]. intros (x & y & [] & _).
  - exists false. split; [reflexivity|]. split; [discriminate|]. intros (z & y & _ & [] & _).
  - eexists. split; [reflexivity|]. rewrite existsb_exists. split.
    + intros (z & Hz & E). apply existsb_exists in E as (s & Hs & E). apply String.eqb_eq in E.
      apply in_map_iff in Hs as (w & <- & Hw). eauto 6.
    + intros (z & w & Hz & Hw & E). exists z. split; [exact Hz|]. apply existsb_exists.
      exists (py_str w). split; [apply in_map; exact Hw|]. apply String.eqb_eq. exact E.
Qed.

(** ** order *)
Lemma worse_rank a b : worse a b <-> (grade_rank a < grade_rank b)%Z.
Proof.
  assert (POS : forall (l : list grade_code) a b,
    (exists x y z, l = x ++ a :: y ++ b :: z) <->
    match l with
    | [] => False
    | h :: t => (h = a /\ In b t) \/ exists x y z, t = x ++ a :: y ++ b :: z
    end).
  { intros l a' b'. destruct l as [|h t].
    - split; [intros ([|] & y & z & C); discriminate|tauto].
    - split.
      + intros ([|h' x] & y & z & E); simpl in E; injection E as -> ->.
        * left. split; [reflexivity|]. rewrite in_app_iff. simpl. auto.
        * right. eauto.
      + intros [[-> H]|(x & y & z & ->)].
        * apply in_split in H as (y & z & ->). exists [], y, z. reflexivity.
        * exists (h :: x), y, z. reflexivity. }
  unfold worse, grades_ascending. do 28 (rewrite POS).
  rewrite POS. split.
  - intro H. repeat match goal with
    | H : _ \/ _ |- _ => destruct H as [[E H]|H]; [subst a; simpl in H; repeat (destruct H as [<-|H]; [reflexivity|]); destruct H|]
    end. destruct H.
  - intro H. destruct a, b; try (vm_compute in H; discriminate H);
    repeat first [ left; split; [reflexivity|simpl; tauto] | right ].
Qed.

Lemma kind_num s : of_kind KNum s -> exists x, num s = Some x.
Proof. destruct s as [|[]| | | | |]; simpl; try tauto; eauto. Qed.

Lemma num_kind s x : num s = Some x -> of_kind KNum s.
Proof. destruct s; simpl; try discriminate; auto. Qed.

Lemma py_cmp_spec k a b : of_kind k a -> of_kind k b ->
  exists c, py_cmp a b = Ok c /\ (c = Lt <-> less a b) /\ (c = Gt <-> less b a) /\ (c = Eq <-> same_value a b).
Proof.
  intros Ka Kb. destruct k.
  - destruct (kind_num _ Ka) as [x Ex], (kind_num _ Kb) as [y Ey].
    exists (Qcompare x y). split; [destruct a; try destruct Ka; destruct b; try destruct Kb; cbn [py_cmp]; rewrite Ex, Ey; reflexivity|].
    assert (L1 : less a b <-> (x < y)%Q).
    { split; [|intro; eapply ls_num; eauto]. intro H. inversion H; subst; try congruence; simpl in Ex; discriminate. }
    assert (L2 : less b a <-> (y < x)%Q).
    { split; [|intro; eapply ls_num; eauto]. intro H. inversion H; subst; try congruence; simpl in Ex; discriminate. }
    assert (L3 : same_value a b <-> x == y).
    { split; [|intro; eapply sv_num; eauto]. pose proof (num_not_str _ _ Ex). pose proof (num_not_str _ _ Ey).
      intro Hs. inversion Hs; subst; try discriminate; try congruence.
      destruct H1; congruence. }
    rewrite L1, L2, L3. rewrite Qlt_alt, Qgt_alt, Qeq_alt.
    rewrite <- (Qgt_alt x y). rewrite Qgt_alt. tauto.
  - destruct a; try destruct Ka; destruct b; try destruct Kb. exists (String.compare s s0). split; [reflexivity|].
    split; [split; [apply ls_text|intro H; inversion H; subst; [discriminate|auto]]|]. split.
    + rewrite <- str_compare_lt_gt. split; [apply ls_text|intro H; inversion H; subst; [discriminate|auto]].
    + rewrite str_compare_eq. split; [intros ->; apply sv_text; auto|].
      intro H. inversion H; subst; [assumption|discriminate].
  - destruct a; try destruct Ka; destruct b; try destruct Kb. eexists. split; [reflexivity|].
    split; [|split].
    + rewrite Z.compare_lt_iff, <- worse_rank. split; [apply ls_grade|intro H; inversion H; subst; [discriminate|auto]].
    + rewrite Z.compare_gt_iff, <- worse_rank. split; [apply ls_grade|intro H; inversion H; subst; [discriminate|auto]].
    + rewrite Z.compare_eq_iff. split.
      * intro E. assert (g = g0) as -> by (destruct g, g0; vm_compute in E; try discriminate E; reflexivity). apply sv_grade.
      * intro H. inversion H; subst; try reflexivity; try discriminate. simpl in *. intuition discriminate.
Qed.

Lemma kind_non_null k s : of_kind k s -> non_null s.
Proof. destruct k, s; simpl; try tauto; discriminate. Qed.

Lemma kind_no_coercion k a b : of_kind k a -> of_kind k b ->
  none_mismatch a b = false /\
  (if is_str a && negb (is_str b) then SStr (py_str b) else b) = b /\
  (if negb (is_str a) && is_str b then SStr (py_str a) else a) = a.
Proof. destruct k, a; simpl; try tauto; destruct b; simpl; try tauto; auto. Qed.

Lemma order_lemma k a b : of_kind k a -> of_kind k b ->
  exists lt eq,
    apply_operator OLt (VS a) (VS b) = Ok lt /\ (lt = true <-> less a b) /\
    apply_operator OGte (VS a) (VS b) = Ok (negb lt) /\
    apply_operator OEq (VS a) (VS b) = Ok eq /\ (eq = true <-> same_value a b) /\
    apply_operator ONeq (VS a) (VS b) = Ok (negb eq) /\
    apply_operator OLte (VS a) (VS b) = Ok (lt || eq) /\
    apply_operator OGt (VS a) (VS b) = Ok (negb (lt || eq)) /\
    (negb (lt || eq) = true <-> less b a).
Proof.
  intros Ka Kb. destruct (py_cmp_spec k a b Ka Kb) as (c & Ec & L & G & E).
  destruct (scalar_eq_spec a b (kind_non_null _ _ Ka) (kind_non_null _ _ Kb)) as (x & Ex & Ex' & X).
  exists (match c with Lt => true | _ => false end), x.
  destruct (kind_no_coercion k a b Ka Kb) as (N1 & N2 & N3).
  unfold apply_operator. rewrite Ex, Ex'. unfold op_scalar. rewrite N1, N2, N3, Ec. simpl.
  assert (XC : x = match c with Eq => true | _ => false end).
  { destruct c; destruct x; try reflexivity.
    - apply X. apply E. reflexivity.
    - exfalso. assert (Lt = Eq) by (apply E, X; reflexivity). discriminate.
    - exfalso. assert (Gt = Eq) by (apply E, X; reflexivity). discriminate. }
  subst x. destruct c; simpl; repeat split; auto; intro H; try discriminate; try reflexivity;
    try (apply L; reflexivity); try (apply G; reflexivity); try (apply X; auto; fail);
    try (apply L in H; discriminate); try (apply G in H; discriminate); try (apply E in H; discriminate).
Qed.

Lemma less_trans a b c : less a b -> less b c -> less a c.
Proof.
  intros H1 H2. inversion H1; subst; inversion H2; subst; try (simpl in *; discriminate).
  - match goal with A : num b = Some ?u, B : num b = Some ?v |- _ => rewrite A in B; injection B as -> end.
    eapply ls_num; eauto. eapply Qlt_trans; eauto.
  - apply ls_text. eapply str_lt_trans; eauto.
  - apply ls_grade. rewrite worse_rank in *. lia.
Qed.

Lemma less_irrefl a : ~ less a a.
Proof.
  intro H. inversion H; subst.
  - match goal with A : num a = Some ?u, B : num a = Some ?v |- _ => rewrite A in B; injection B as -> end.
    eapply Qlt_irrefl; eauto.
  - rewrite str_compare_refl in *. discriminate.
  - match goal with W : worse _ _ |- _ => rewrite worse_rank in W; lia end.
Qed.
