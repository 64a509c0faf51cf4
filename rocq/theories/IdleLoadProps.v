(** Property theorems about loading an area for a student with and without a class that it does
    not ask about (C186). *)
From Coq Require Import List ZArith QArith Bool Ascii String Lia Permutation.
From Verif Require Import Transcript Prelude Dec Status Course Claims Exceptions Op Context CondExpr Paths Predicate Limit LimitLoad Apply Assertion Query CourseRule EnumSpec LazyRun Tree Solve Driver Area StudentLoad Run Loader AreaLoad.
From Verif Require Import ListFacts CondExprProofs ExceptionsProofs LoaderSpec LoaderProofs LoaderProps TreeSpec TreeSolSpec TreeSolProps AreaLoadSpec AreaLoadProofs AreaLoadProps CommonProps MonoProps MonoExcProps AreaEndProps FrameSpec FrameProofs FrameProps GoneProofs GoneProps IdleSpec IdleProofs IdleProps IdleLoadSpec IdleLoadProofs.
Import ListNotations.
Local Open Scope string_scope.
Local Open Scope list_scope.

Lemma answers_alike x cx f a : about_others x f a -> eval_pfun (without x cx) f a = eval_pfun cx f a.
Proof.
  destruct f; cbn [about_others eval_pfun]; intro H; try reflexivity; unfold has_course, has_ip_course, has_completed_course; cbn [without cx_transcript]; apply any_drop;
    match goal with
    | |- course_filter (by_course ?b) x = _ => destruct (filter_by_course b x) as [[|] [E B]]
    | |- course_filter (by_course_ip ?b ?ip) x = _ => destruct (filter_by_course_ip b ip x) as [[|] [E B]]
    | |- course_filter (by_attribute ?b) x = _ => destruct (filter_by_attribute b x) as [[|] [E B]]
    end; solve [destruct (H (proj1 B eq_refl))|exact E].
Qed.
Lemma required_drop x cx n : unnamed x cx -> (forall k r, part_of n (NCourse k r) -> rule_ignores x r) -> (forall k i k' r, part_of n (NProf k i (Some (k', r))) -> rule_ignores x r) -> required_of (without x cx) n = required_of cx n.
Proof.
  intro UN. assert (R : forall r, rule_ignores x r -> c_required (without x cx) r = c_required cx r) by (intros r H; unfold c_required; rewrite (c_matches_eq x cx UN r H); reflexivity).
  induction n as [k r|k q|k i items IH|k i o IH|k i t f IHt IHf|k i co] using node_induction; cbn [required_of]; intros C P; try reflexivity.
  - apply R. eapply C. apply pt_self.
  - rewrite (mapr_in (required_of (without x cx)) (required_of cx)); [reflexivity|]. intros y I. apply (IH y I); [intros k' r Y; eapply C|intros k' i' k0 r Y; eapply P]; eapply pt_count; eauto.
  - destruct o as [y|]; [|reflexivity]. apply (IH y eq_refl); [intros k' r Y; eapply C|intros k' i' k0 r Y; eapply P]; apply pt_req; exact Y.
  - destruct (e_result _) as [[|]|]; [apply IHt; [intros k' r Y; eapply C|intros k' i' k0 r Y; eapply P]; apply pt_true; exact Y| |reflexivity].
    destruct f as [y|]; [|reflexivity]. apply (IHf y eq_refl); [intros k' r Y; eapply C|intros k' i' k0 r Y; eapply P]; apply pt_false; exact Y.
  - destruct co as [[k' r]|]; [|reflexivity]. apply R. eapply P. apply pt_self.
Qed.
Lemma block_part p k n y : part_of n y -> part_of (block p k n) (block p k y).
Proof. induction 1; cbn [block]; [apply pt_self|eapply pt_count; [apply in_map; eassumption|assumption]|apply pt_req; assumption|apply pt_true; assumption|apply pt_false; assumption]. Qed.
Lemma exclude_part ks n y : part_of n y -> part_of (exclude ks n) (exclude ks y).
Proof. induction 1; cbn [exclude]; [apply pt_self|eapply pt_count; [apply in_map; eassumption|assumption]|apply pt_req; assumption|apply pt_true; assumption|apply pt_false; assumption]. Qed.
Lemma blocked_part es : forall n y, part_of n y -> part_of (blocked es n) (blocked es y).
Proof. induction es as [|e0 es IH]; intros n y P; [exact P|]. cbn [blocked fold_left]. apply IH. destruct (ex_act e0); try exact P. apply block_part, P. Qed.
Lemma blocked_course es x : forall k r, ignores x (blocked es (NCourse k r)) -> rule_ignores x r.
Proof.
  induction es as [|e0 es IH]; intros k r H; [exact H|]. cbn [blocked fold_left] in H. destruct (ex_act e0) as [| |b| | |]; try exact (IH k r H). apply IH in H. clear IH. unfold c_block in H. destruct (path_eqb _ _); exact H.
Qed.
Lemma blocked_prof es : forall k i o, blocked es (NProf k i o) = NProf k i o.
Proof. induction es as [|e0 es IH]; intros k i o; [reflexivity|]. cbn [blocked fold_left]. destruct (ex_act e0); apply IH. Qed.

(** ** C186 *)

(** An area is loaded to the same rules for the student who has not taken the class, if no rule for
    a course is for it, no exception names it, and no condition of the area asks about it. *)
Theorem idle_classes_leave_the_rules_alone :
  forall c tm st es x all_emphases s u, load_area c tm st es all_emphases s = Ok u ->
  asks_about_others x s -> all_ignore x (u_result u) -> not_excepted x es ->
  load_area c tm (without_class x st) es all_emphases s = Ok u.
Proof.
  intros c tm st es x all s u L AO AI NE.
  assert (FOR : forall es', not_excepted x es' -> forall p e0, In e0 (get_inserts (cx_exc (load_ctx (without_class x st) es')) p) -> forced_by_clbid (load_ctx (without_class x st) es') (exc_clbid e0) = forced_by_clbid (load_ctx st es') (exc_clbid e0)).
  { intros es' NE' p e0 I. change (load_ctx (without_class x st) es') with (without x (load_ctx st es')). apply forced_eq. unfold get_inserts in I. apply filter_In in I as [I K]. apply (names_other es' x NE' e0); [|left; exact K]. apply (grouped es' p). exact I. }
  assert (EV : forall es' f a, area_asks s f a -> eval_pfun (load_ctx (without_class x st) es') f a = eval_pfun (load_ctx st es') f a) by (intros es' f a A; change (load_ctx (without_class x st) es') with (without x (load_ctx st es')); apply answers_alike, AO, A).
  assert (EMP : mapr (check_emphasis c tm (without_class x st)) (ar_emphases s) = mapr (check_emphasis c tm st) (ar_emphases s)).
  { apply mapr_in. intros e0 I. unfold check_emphasis. cbn [without_class t_areas]. assert (N0 : not_excepted x []) by (intros ? ? ? []).
    assert (FO := FOR [] N0). fold (without_class x st).
    rewrite (top_alike (area_asks s) (load_ctx (without_class x st) []) (load_ctx st []) c tm (EV []) eq_refl FO); [|intros y E n f a M B; apply (aa_emphasis s f a e0 n I); [eapply mi_result; eauto|exact B]| |intros ? []].
    2:{ intros k b J n f a M B. apply (aa_emphasis s f a e0 n I); [|exact B]. unfold reqs_of in J. destruct (rb_reqs (em_body e0)) as [l|] eqn:EL; [|destruct J]. eapply mi_req; eauto. }
    rewrite (limits_alike (area_asks s) (load_ctx (without_class x st) []) (load_ctx st []) c (EV [])) by (intros f a A; eapply aa_emphasis_limit; eauto).
    rewrite (prepare_alike (area_asks s) (load_ctx (without_class x st) []) (load_ctx st []) c tm (EV []) eq_refl FO). reflexivity. }
  assert (FO := FOR es NE). unfold load_area in *. rewrite EMP. destruct (mapr (check_emphasis c tm st) (ar_emphases s)) as [us|]; cbn [bind] in *; [|discriminate L].
  change (chosen_emphases (without_class x st) all (ar_emphases s)) with (chosen_emphases st all (ar_emphases s)).
  rewrite (top_alike (area_asks s) (load_ctx (without_class x st) es) (load_ctx st es) c tm (EV es) eq_refl FO);
    [|intros y E n f a M B; eapply aa_result; eauto|intros k b J n f a M B; eapply aa_req; eauto|].
  2:{ intros e0 I n f a M B. apply (aa_emphasis s f a e0 n); [|exact M|exact B]. unfold chosen_emphases in I. apply filter_In in I. apply I. }
  destruct (load_top _ c tm _ _ _) as [t|] eqn:LT; cbn [bind] in *; [|discriminate L]. destruct (required_of (load_ctx st es) t) as [cs|] eqn:RQ; cbn [bind] in L; [|discriminate L].
  destruct (load_limits _ c (ar_limit s)) as [lims|] eqn:LL; cbn [bind] in L; [|discriminate L].
  destruct (ar_bad s); [discriminate L|]. destruct (prepare_common (load_ctx st es) _ _ _ _ _ _) as [common|] eqn:PC; cbn [bind] in L; [|discriminate L]. injection L as <-. cbn [u_result] in AI.
  change (load_ctx (without_class x st) es) with (without x (load_ctx st es)) in *. rewrite required_drop.
  - rewrite RQ. cbn [bind]. rewrite (limits_alike (area_asks s) (without x (load_ctx st es)) (load_ctx st es) c (EV es)) by (intros f a A; apply aa_limit, A). rewrite LL. cbn [bind].
    change (t_areas (without_class x st)) with (t_areas st). rewrite (prepare_alike (area_asks s) (without x (load_ctx st es)) (load_ctx st es) c tm (EV es) eq_refl FO), PC. reflexivity.
  - intros p e0 I K. apply (names_other es x NE e0); [|exact K]. apply (grouped es p). exact I.
  - intros k r P. apply (blocked_course es x k). apply AI. exact (blocked_part es _ _ (exclude_part (map c_clbid cs) _ _ P)).
  - intros k i k' r P. assert (H := AI _ (blocked_part es _ _ (exclude_part (map c_clbid cs) _ _ P))). cbn [exclude] in H. rewrite blocked_prof in H. exact H.
Qed.
Print Assumptions idle_classes_leave_the_rules_alone.

(** So the whole of the audit of an area, its rules too, is the same. *)
Corollary idle_classes_are_as_good_as_not_taken :
  forall c tm ord nord st es x all_emphases s u, (forall l, Permutation (ord l) l) -> (forall l, Permutation (nord l) l) ->
  load_area c tm st es all_emphases s = Ok u -> u_kind u <> "degree" -> asks_about_others x s -> idle u x -> not_excepted x es ->
  load_area c tm (without_class x st) es all_emphases s = Ok u /\ same_outcome ord nord u st (without_class x st) es.
Proof.
  intros c tm ord nord st es x all s u ORD NORD L KD AO ID NE. split; [|exact (idle_classes_do_not_matter c tm ord nord st es x all s u ORD NORD L KD ID NE)]. exact (idle_classes_leave_the_rules_alone c tm st es x all s u L AO (proj1 ID) NE).
Qed.
Print Assumptions idle_classes_are_as_good_as_not_taken.

(** ** Samples *)

(** an area that is for one course or for another, as a condition decides *)
Definition choosing (x : xdata) : aspec :=
  mkAspec (Some "Sample") (Some "concentration") (Some "B.A.") (Some "100") [] (Some (d_if x (d_course "A 1") (Some (d_course "B 1")) false)) None None [] false.
Lemma choosing_asks x f a : area_asks (choosing x) f a -> asks x f a.
Proof.
  assert (C : forall id y, mentions (d_course id) y -> rule_asks y f a -> False).
  { intros id y M B. inversion M as [|? ? ? ? E|? ? ? ? E|? ? ? ? ? E|? ? ? ? E]; subst; try discriminate E. destruct B as [[q [E _]]|[[k [l [r [E _]]]]|[z [E _]]]]; discriminate E. }
  intros [d y E M B|k b y [] _ _|[l [r [w [E _]]]]|e0 y [] _ _|e0 [] _]; [|discriminate E]. injection E as <-.
  inversion M as [|? z t ? E F N|? z t ? E F N|? ? ? ? ? E|? ? ? ? E]; subst; try discriminate E.
  - destruct B as [[q [E _]]|[[k [l [r [E _]]]]|[z [E B]]]]; try discriminate E. injection E as <-. exact B.
  - injection E as <-. injection F as <-. destruct (C _ _ N B).
  - injection E as <-. injection F as <-. destruct (C _ _ N B).
Qed.
Example unasked_class_example :
  exists u, load_area sample_const [] both_taken [] false (choosing (XFun FHasCourse "B 1")) = Ok u /\ u_kind u <> "degree" /\ asks_about_others unused (choosing (XFun FHasCourse "B 1")) /\ idle u unused /\ not_excepted unused [] /\ In unused (t_courses both_taken).
Proof.
  destruct (load_area sample_const [] both_taken [] false (choosing (XFun FHasCourse "B 1"))) as [u|] eqn:L; [|vm_compute in L; discriminate L]. exists u. split; [reflexivity|].
  vm_compute in L. injection L as <-. split; [discriminate|]. split; [intros f a A; apply choosing_asks in A; inversion A; subst; intros [_ E]; discriminate E|]. split; [|split; [intros e0 k f []|right; right; left; reflexivity]].
  split; [|split; [intros l []|intro E; discriminate E]]. intros y P. cbn [u_result] in P. inversion P as [| | |? ? ? ? ? Q0|? ? ? ? ? Q0]; subst; [exact Logic.I| |]; inversion Q0; subst; (split; [intro G; discriminate G|intros _; vm_compute; reflexivity]).
Qed.
(** A condition that asks about the class chooses other rules. *)
Definition idle_classes_never_choose : Prop :=
  forall c tm st es x all_emphases s u, load_area c tm st es all_emphases s = Ok u -> idle u x -> not_excepted x es ->
  load_area c tm (without_class x st) es all_emphases s = Ok u.
Theorem idle_classes_never_choose_refuted : ~ idle_classes_never_choose.
Proof.
  intro H. destruct (load_area sample_const [] both_taken [] false (choosing (XFun FHasCourse "G 1"))) as [u|] eqn:L; [|vm_compute in L; discriminate L].
  specialize (H _ _ _ _ unused _ _ _ L). assert (ID : idle u unused).
  { clear H. vm_compute in L. injection L as <-. split; [|split; [intros l []|intro E; discriminate E]]. intros y P. cbn [u_result] in P. inversion P as [| | |? ? ? ? ? Q0|? ? ? ? ? Q0]; subst; [exact Logic.I| |]; inversion Q0; subst; (split; [intro G; discriminate G|intros _; vm_compute; reflexivity]). }
  specialize (H ID (fun e0 k f I => match I with end)). rewrite <- L in H. vm_compute in H. discriminate H.
Qed.
Print Assumptions idle_classes_never_choose_refuted.
