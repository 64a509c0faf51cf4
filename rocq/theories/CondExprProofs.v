From Coq Require Import List ZArith Bool String Lia.
From Verif Require Import Prelude Status Course Exceptions Op Context CondExpr CondExprSpec OpProofs ExceptionsProofs.
Import ListNotations.
Local Open Scope string_scope.
Local Open Scope list_scope.

(** induction over nested expressions *)
Section XInd.
  Variable P : xdata -> Prop.
  Hypothesis HAnd : forall l, Forall P l -> P (XAnd l).
  Hypothesis HOr : forall l, Forall P l -> P (XOr l).
  Hypothesis HNot : forall x, P x -> P (XNot x).
  Hypothesis HFun : forall f a, P (XFun f a).
  Hypothesis HDyn : forall f a, P (XDyn f a).
  Hypothesis HOther : P XOther.
  Fixpoint xdata_ind' (x : xdata) : P x :=
    let go := fix go l : Forall P l :=
      match l with [] => Forall_nil _ | y :: t => Forall_cons _ (xdata_ind' y) (go t) end in
    match x with
    | XAnd l => HAnd l (go l)
    | XOr l => HOr l (go l)
    | XNot y => HNot y (xdata_ind' y)
    | XFun f a => HFun f a
    | XDyn f a => HDyn f a
    | XOther => HOther
    end.
End XInd.

Lemma sub_type_eqb_spec a b : sub_type_eqb a b = true <-> a = b.
Proof. unfold sub_type_eqb. destruct sub_type_eq_dec; split; congruence. Qed.

(** ** the course filter on the argument patterns used by expressions *)
Lemma filter_by_course id c :
  exists b, course_filter (by_course id) c = Ok b /\ (b = true <-> c_stolaf c = true /\ c_identity c = id).
Proof.
  unfold course_filter, by_course, course_part. cbn.
  destruct (c_stolaf c); cbn; [|eexists; split; [reflexivity|]; split; [discriminate|intros [C _]; discriminate]].
  destruct (String.eqb_spec (c_identity c) id); cbn; eexists; (split; [reflexivity|]); split; auto; try discriminate.
  intros [_ C]; contradiction.
Qed.
Lemma filter_by_course_ip id ip c :
  exists b, course_filter (by_course_ip id ip) c = Ok b /\
    (b = true <-> c_stolaf c = true /\ c_identity c = id /\ c_in_progress c = ip).
Proof.
  unfold course_filter, by_course_ip, course_part. cbn.
  destruct (c_stolaf c); cbn; [|eexists; split; [reflexivity|]; split; [discriminate|intros [C _]; discriminate]].
  destruct (String.eqb_spec (c_identity c) id); cbn; eexists; (split; [reflexivity|]).
  - rewrite Bool.eqb_true_iff. split; [intros ->; auto|intros (_ & _ & ->); reflexivity].
  - split; [discriminate|]. intros (_ & C & _); contradiction.
Qed.
Lemma filter_by_attribute a c :
  exists b, course_filter (by_attribute a) c = Ok b /\ (b = true <-> c_stolaf c = true /\ In a (c_attributes c)).
Proof.
  unfold course_filter, by_attribute, course_part. cbn.
  destruct (c_stolaf c); cbn; [|eexists; split; [reflexivity|]; split; [discriminate|intros [C _]; discriminate]].
  destruct (existsb (String.eqb a) (c_attributes c)) eqn:E; cbn; eexists; (split; [reflexivity|]).
  - split; [intros _|reflexivity]. apply existsb_exists in E as (x & Hx & E). apply String.eqb_eq in E as ->. auto.
  - split; [discriminate|]. intros [_ H].
    assert (existsb (String.eqb a) (c_attributes c) = true); [|congruence].
    apply existsb_exists. exists a. split; [exact H|apply String.eqb_refl].
Qed.

Lemma xget_in d key es : NoDup (map fst d) -> (xget d key = Some es <-> In (key, es) d).
Proof.
  induction d as [|[q l] t IH]; simpl; intro N; [split; [discriminate|tauto]|]. inversion N; subst.
  destruct (path_eqb key q) eqn:E.
  - apply path_eqb_iff in E. subst q. split.
    + injection 1 as <-. auto.
    + intros [C|C]; [congruence|]. exfalso. apply H1. apply (in_map fst) in C. exact C.
  - rewrite IH by assumption. split; [auto|]. intros [C|C]; [|exact C]. injection C as -> ->. rewrite path_eqb_refl in E. discriminate.
Qed.

Lemma overridden_iff d key : NoDup (map fst d) -> (has_waive_for_expression d key = true <-> overridden d key).
Proof.
  intro N. unfold has_waive_for_expression, overridden, exc_at.
  destruct (xget d [key]) as [es|] eqn:X.
  - apply (xget_in d [key] es N) in X. split.
    + destruct (find is_override es) as [e|] eqn:F; [|discriminate].
      assert (exists pre post, es = pre ++ e :: post /\ Forall (fun x => is_override x = false) pre) as (pre & post & -> & FP).
      { clear -F. induction es as [|x es IH]; simpl in F; [discriminate|]. destruct (is_override x) eqn:O.
        - injection F as <-. exists [], es. auto.
        - destruct (IH F) as (pre & post & -> & FP). exists (x :: pre), post. auto. }
      intro E. exists (pre ++ e :: post), pre, e, post. split; [exact X|]. split; [reflexivity|]. split.
      * eapply Forall_impl; [|exact FP]. intros x Hx s C. unfold is_override in Hx. rewrite C in Hx. discriminate.
      * destruct (ex_act e); try discriminate. destruct s; try discriminate. reflexivity.
    + intros (es' & pre & e & post & I & -> & FP & E).
      assert (es = pre ++ e :: post) as ->.
      { apply (xget_in d [key] es N) in X. apply (xget_in d [key] _ N) in I. congruence. }
      assert (find is_override (pre ++ e :: post) = Some e) as ->.
      { clear -FP E. induction FP as [|x pre Hx _ IH]; simpl.
        - unfold is_override. rewrite E. reflexivity.
        - replace (is_override x) with false; [exact IH|]. unfold is_override. destruct (ex_act x) eqn:A; try reflexivity.
          exfalso. eapply Hx; eauto. }
      rewrite E. reflexivity.
  - simpl. split; [discriminate|]. intros (es & _ & _ & _ & I & _). apply (xget_in d [key] es N) in I. congruence.
Qed.

Lemma exam_iff p a : known_exam a -> exists b, passed_exam p a = Ok b /\ (b = true <-> exam_passed p a).
Proof.
  unfold passed_exam, proficiency_status. intros H.
  repeat (destruct H as [<-|H]; [eexists; split; [reflexivity|];
    match goal with |- context [prof_counts true ?x] => destruct x eqn:E end; cbn; split; try discriminate; auto;
    try (intros _; constructor; assumption); intro C; inversion C; congruence|]).
  destruct H.
Qed.

Lemma fact_iff cx f a : NoDup (map fst (cx_exc cx)) -> (f = FPassedProficiencyExam -> known_exam a) ->
  exists b, eval_pfun cx f a = Ok b /\ (b = true <-> fact cx f a).
Proof.
  intros N K. destruct f; simpl.
  - unfold has_ip_course, some_course.
    destruct (any_res_spec (course_filter (by_course_ip a true)) (fun c => c_stolaf c = true /\ c_identity c = a /\ c_in_progress c = true) (cx_transcript cx)) as (b & E & B).
    { intros c _. apply filter_by_course_ip. }
    exists b. split; [exact E|exact B].
  - unfold has_completed_course, some_course.
    destruct (any_res_spec (course_filter (by_course_ip a false)) (fun c => c_stolaf c = true /\ c_identity c = a /\ c_in_progress c = false) (cx_transcript cx)) as (b & E & B).
    { intros c _. apply filter_by_course_ip. }
    exists b. split; [exact E|exact B].
  - unfold has_course, some_course.
    destruct (any_res_spec (course_filter (by_course a)) (fun c => c_stolaf c = true /\ c_identity c = a) (cx_transcript cx)) as (b & E & B).
    { intros c _. apply filter_by_course. }
    exists b. split; [exact E|exact B].
  - apply exam_iff. auto.
  - unfold has_declared_area_code. eexists. split; [reflexivity|]. rewrite existsb_exists. split.
    + intros (x & Hx & E). apply String.eqb_eq in E. exists x. auto.
    + intros (x & Hx & E). exists x. split; [exact Hx|]. apply String.eqb_eq. auto.
  - unfold some_course.
    destruct (any_res_spec (course_filter (by_attribute a)) (fun c => c_stolaf c = true /\ In a (c_attributes c)) (cx_transcript cx)) as (b & E & B).
    { intros c _. apply filter_by_attribute. }
    exists b. split; [exact E|exact B].
  - eexists. split; [reflexivity|]. apply overridden_iff. exact N.
Qed.

(** a list of subexpressions *)
Lemma mapr_load cx l :
  Forall (fun x => static_ok x -> exists e b, load_expr cx x = Ok e /\ e_result e = Some b /\ (b = true <-> true_of cx x)) l ->
  fold_right (fun y P => static_ok y /\ P) True l ->
  exists es, mapr (load_expr cx) l = Ok es /\
    (forallb (fun e => truthy (e_result e)) es = true <-> fold_right (fun y P => true_of cx y /\ P) True l) /\
    (existsb (fun e => truthy (e_result e)) es = true <-> fold_right (fun y P => true_of cx y \/ P) False l).
Proof.
  induction 1 as [|x l Hx _ IH]; simpl; intro S.
  - exists []. simpl. repeat split; auto; try discriminate; tauto.
  - destruct S as [Sx Sl]. destruct (Hx Sx) as (e & b & -> & R & B). destruct (IH Sl) as (es & -> & A & O).
    exists (e :: es). split; [reflexivity|]. cbn [forallb existsb]. rewrite R. cbn [truthy].
    rewrite andb_true_iff, orb_true_iff, A, O, B. tauto.
Qed.

Lemma load_expr_spec cx x : NoDup (map fst (cx_exc cx)) -> static_ok x ->
  exists e b, load_expr cx x = Ok e /\ e_result e = Some b /\ (b = true <-> true_of cx x).
Proof.
  intro N. induction x as [l IH|l IH|x IH|f a|f a|] using xdata_ind'; simpl; intro S; try contradiction.
  - destruct (mapr_load cx l IH S) as (es & -> & A & _). simpl. do 2 eexists. split; [reflexivity|]. simpl. split; [reflexivity|exact A].
  - destruct (mapr_load cx l IH S) as (es & -> & _ & O). simpl. do 2 eexists. split; [reflexivity|]. simpl. split; [reflexivity|exact O].
  - destruct (IH S) as (e & b & -> & R & B). simpl. do 2 eexists. split; [reflexivity|]. simpl. split; [reflexivity|].
    rewrite R. simpl. rewrite <- B. destruct b; simpl; split; intro H; congruence.
  - destruct (fact_iff cx f a N S) as (b & -> & B). simpl. do 2 eexists. split; [reflexivity|]. simpl. split; [reflexivity|exact B].
Qed.

Lemma evaluate_fixed cx e b : e_result e = Some b -> evaluate cx e = Ok e.
Proof. destruct e; simpl; intros ->; reflexivity. Qed.

Lemma mapr_ext_map {A B C} (f : A -> res C) (g : B -> res C) (h : B -> A) l :
  Forall (fun x => f (h x) = g x) l -> mapr f (map h l) = mapr g l.
Proof. induction 1 as [|x l E _ IH]; simpl; [reflexivity|]. rewrite E, IH. reflexivity. Qed.

Lemma evaluate_unevaluated cx x : static_ok x -> evaluate cx (unevaluated x) = load_expr cx x.
Proof.
  induction x as [l IH|l IH|x IH|f a|f a|] using xdata_ind'; simpl; intro S; try contradiction; try reflexivity.
  - rewrite (mapr_ext_map (evaluate cx) (load_expr cx) unevaluated); [reflexivity|].
    induction IH as [|x l Hx _ IHl]; constructor; destruct S; auto.
  - rewrite (mapr_ext_map (evaluate cx) (load_expr cx) unevaluated); [reflexivity|].
    induction IH as [|x l Hx _ IHl]; constructor; destruct S; auto.
  - rewrite IH by assumption. reflexivity.
Qed.

(** ** dynamic expressions *)
Lemma filter_res_ok {A} (f : A -> res bool) (P : A -> Prop) l :
  (forall x, exists b, f x = Ok b /\ (b = true <-> P x)) ->
  exists r, filter_res f l = Ok r /\ (forall x, In x r <-> In x l /\ P x) /\
    (List.length r = 1 <-> exists pre c post, l = pre ++ c :: post /\ P c /\ forall c', In c' (pre ++ post) -> ~ P c') /\
    (List.length r = 0 <-> forall c, In c l -> ~ P c).
Proof.
  intro H. induction l as [|x l (r & E & I & L1 & L0)]; simpl.
  - exists []. split; [reflexivity|]. split; [simpl; tauto|]. split; [|simpl; split; auto; tauto].
    split; [discriminate|]. intros ([|] & c & post & C & _); discriminate.
  - destruct (H x) as (b & Eb & B). rewrite Eb, E. simpl. destruct b.
    + exists (x :: r). split; [reflexivity|]. assert (P x) by (apply B; reflexivity). split; [|split].
      * intro y. simpl. rewrite I. intuition (subst; auto).
      * simpl. split.
        -- intro EL. exists [], x, l. split; [reflexivity|]. split; [assumption|]. simpl. apply L0. lia.
        -- intros (pre & c & post & EE & Pc & N). destruct pre as [|y pre]; simpl in EE; injection EE as -> ->.
           ++ simpl in N. f_equal. apply L0. exact N.
           ++ exfalso. apply (N y); simpl; auto.
      * simpl. split; [discriminate|]. intro N. exfalso. apply (N x); auto.
    + exists r. split; [reflexivity|]. assert (~ P x) by (intro C; apply B in C; discriminate). split; [|split].
      * intro y. simpl. rewrite I. intuition (subst; tauto).
      * rewrite L1. split.
        -- intros (pre & c & post & -> & Pc & N). exists (x :: pre), c, post. split; [reflexivity|]. split; [exact Pc|].
           intros c' [->|Hc']; auto.
        -- intros (pre & c & post & EE & Pc & N). destruct pre as [|y pre]; simpl in EE; injection EE as -> ->; [contradiction|].
           exists pre, c, post. split; [reflexivity|]. split; [exact Pc|]. intros c' Hc'. apply N. simpl. auto.
      * rewrite L0. split; [intros N c [->|Hc]; auto|intros N c Hc; apply N; auto].
Qed.

Lemma dfact_iff data f a : exists b, eval_dfun f a data = Ok b /\ (b = true <-> dfact data f a).
Proof.
  destruct f; simpl.
  - unfold some_course.
    destruct (any_res_spec (course_filter (by_attribute a)) (fun c => c_stolaf c = true /\ In a (c_attributes c)) data) as (b & E & B).
    { intros c _. apply filter_by_attribute. }
    exists b. split; [exact E|exact B].
  - destruct (filter_res_ok (course_filter (by_attribute a)) (fun c => c_stolaf c = true /\ In a (c_attributes c)) data) as (r & -> & _ & L1 & _).
    { intro c. apply filter_by_attribute. }
    simpl. eexists. split; [reflexivity|]. rewrite Nat.eqb_eq, L1. split.
    + intros (pre & c & post & E & [S I] & N). exists pre, c, post. split; [exact E|]. split; [exact S|]. split; [exact I|].
      intros c' Hc' S' I'. apply (N c' Hc'). auto.
    + intros (pre & c & post & E & S & I & N). exists pre, c, post. split; [exact E|]. split; [auto|].
      intros c' Hc' [S' I']. apply (N c' Hc' S' I').
Qed.

Lemma mapr_dyn data l :
  Forall (fun x => dyn_ok x -> exists d e b, load_dyn x = Ok d /\ eval_dyn data d = Ok e /\ d_result e = Some b /\ (b = true <-> dyn_true data x) /\ eval_dyn data e = Ok e) l ->
  fold_right (fun y P => dyn_ok y /\ P) True l ->
  exists ds es, mapr load_dyn l = Ok ds /\ mapr (eval_dyn data) ds = Ok es /\
    (forallb (fun e => truthy (d_result e)) es = true <-> fold_right (fun y P => dyn_true data y /\ P) True l) /\
    (existsb (fun e => truthy (d_result e)) es = true <-> fold_right (fun y P => dyn_true data y \/ P) False l).
Proof.
  induction 1 as [|x l Hx _ IH]; simpl; intro S.
  - exists [], []. simpl. repeat split; auto; try discriminate; tauto.
  - destruct S as [Sx Sl]. destruct (Hx Sx) as (d & e & b & -> & E & R & B & _). destruct (IH Sl) as (ds & es & -> & E' & A & O).
    exists (d :: ds), (e :: es). split; [reflexivity|]. simpl. rewrite E, E'. simpl. split; [reflexivity|].
    rewrite R. cbn [truthy]. rewrite andb_true_iff, orb_true_iff, A, O, B. tauto.
Qed.

Lemma dyn_spec data x : dyn_ok x ->
  exists d e b, load_dyn x = Ok d /\ eval_dyn data d = Ok e /\ d_result e = Some b /\ (b = true <-> dyn_true data x) /\ eval_dyn data e = Ok e.
Proof.
  induction x as [l IH|l IH|x IH|f a|f a|] using xdata_ind'; simpl; intro S; try contradiction.
  - destruct (mapr_dyn data l IH S) as (ds & es & -> & E & A & _). simpl. do 3 eexists. split; [reflexivity|]. simpl. rewrite E. simpl.
    split; [reflexivity|]. split; [reflexivity|]. split; [exact A|reflexivity].
  - destruct (mapr_dyn data l IH S) as (ds & es & -> & E & _ & O). simpl. do 3 eexists. split; [reflexivity|]. simpl. rewrite E. simpl.
    split; [reflexivity|]. split; [reflexivity|]. split; [exact O|reflexivity].
  - destruct (dfact_iff data f a) as (b & E & B). do 3 eexists. split; [reflexivity|]. simpl. rewrite E. simpl.
    split; [reflexivity|]. split; [reflexivity|]. split; [exact B|]. simpl. rewrite E. reflexivity.
Qed.
