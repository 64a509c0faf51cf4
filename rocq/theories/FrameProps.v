(** Property theorems about exceptions that no part of an area looks for (C182). *)
From Coq Require Import List ZArith QArith Bool String Lia Permutation.
From Verif Require Import Transcript Prelude Dec Status Course Claims Exceptions Op Context CondExpr Paths Predicate Limit Apply Assertion Query CourseRule EnumSpec LazyRun Tree Solve Driver Area.
From Verif Require Import ListFacts ExceptionsProofs TreeSpec TreeSolSpec TreeSolProps LimitProps AreaProps AssertionProps MonoProps MonoAskProps FrameSpec FrameProofs.
Import ListNotations.
Local Open Scope list_scope.

(** ** Lookups with one exception more *)
Lemma at_more a x b p : p <> ex_path x -> exc_at (group_exceptions (a ++ b)) p = exc_at (group_exceptions (a ++ x :: b)) p.
Proof.
  intro N. destruct (groups_ok (a ++ b)) as (_ & A & _), (groups_ok (a ++ x :: b)) as (_ & A' & _). rewrite A, A', !filter_app. f_equal. cbn [filter].
  match goal with |- _ = (if ?t then _ else _) => destruct t eqn:E end; [|reflexivity]. apply path_eqb_iff in E. congruence.
Qed.
Lemma beneath_more a x b p : ~ above p (ex_path x) -> has_exception_beneath (group_exceptions (a ++ b)) p = has_exception_beneath (group_exceptions (a ++ x :: b)) p.
Proof.
  intro N. apply eq_true_iff_eq. rewrite !beneath_iff. split; intros [e0 [r [I E]]]; exists e0, r; (split; [|exact E]).
  - apply in_app_or in I as [I|I]; apply in_or_app; [left|right; right]; exact I.
  - apply in_app_or in I as [I|[<-|I]]; [apply in_or_app; left; exact I|destruct N; exists r; exact E|apply in_or_app; right; exact I].
Qed.
Definition elsewhere (q : path) (d : exc_dict) : exc_dict := filter (fun g => negb (path_eqb q (fst g))) d.
Lemma elsewhere_add q d e0 : q <> ex_path e0 -> elsewhere q (xadd d e0) = xadd (elsewhere q d) e0.
Proof.
  intro N. induction d as [|[p l] d IH]; cbn [xadd elsewhere filter fst].
  - destruct (path_eqb q (ex_path e0)) eqn:E; [apply path_eqb_iff in E; congruence|reflexivity].
  - destruct (path_eqb (ex_path e0) p) eqn:E.
    + cbn [elsewhere filter fst]. destruct (path_eqb q p) eqn:F; cbn [negb]; [apply path_eqb_iff in E, F; congruence|]. cbn [xadd]. rewrite E. reflexivity.
    + cbn [elsewhere filter fst]. destruct (path_eqb q p); cbn [negb]; [apply IH|]. cbn [xadd]. rewrite E. f_equal. apply IH.
Qed.
Lemma elsewhere_own d x : elsewhere (ex_path x) (xadd d x) = elsewhere (ex_path x) d.
Proof.
  induction d as [|[p l] d IH]; cbn [xadd elsewhere filter fst].
  - rewrite (proj2 (path_eqb_iff _ _) eq_refl). reflexivity.
  - destruct (path_eqb (ex_path x) p) eqn:E; cbn [elsewhere filter fst]; rewrite E; cbn [negb]; [reflexivity|]. f_equal. apply IH.
Qed.
Lemma elsewhere_fold q b : forall d d', elsewhere q d = elsewhere q d' -> elsewhere q (fold_left xadd b d) = elsewhere q (fold_left xadd b d').
Proof.
  induction b as [|e0 b IH]; intros d d' E; [exact E|]. cbn [fold_left]. apply IH. destruct (path_eqb q (ex_path e0)) eqn:F.
  - apply path_eqb_iff in F. subst q. rewrite !elsewhere_own. exact E.
  - assert (N : q <> ex_path e0) by (intro; subst q; rewrite (proj2 (path_eqb_iff _ _) eq_refl) in F; discriminate F). rewrite !elsewhere_add by exact N. rewrite E. reflexivity.
Qed.
Lemma prefix_above p q : prefix_eqb p q = true -> above p q.
Proof. unfold prefix_eqb. intro H. apply path_eqb_iff in H. exists (skipn (List.length p) q). rewrite <- H at 1. symmetry. apply firstn_skipn. Qed.
Lemma inserts_beneath_more a x b p : ~ above p (ex_path x) -> get_inserts_beneath (group_exceptions (a ++ b)) p = get_inserts_beneath (group_exceptions (a ++ x :: b)) p.
Proof.
  intro N. unfold get_inserts_beneath. rewrite (beneath_more a x b p N). destruct (has_exception_beneath _ _); [|reflexivity].
  assert (ALL : forall d, flat_map (fun g => if prefix_eqb p (fst g) then filter is_insert (snd g) else []) d = flat_map (fun g => if prefix_eqb p (fst g) then filter is_insert (snd g) else []) (elsewhere (ex_path x) d)).
  { induction d as [|[q l] d IH]; [reflexivity|]. cbn [elsewhere filter flat_map fst snd]. destruct (path_eqb (ex_path x) q) eqn:E; cbn [negb].
    - apply path_eqb_iff in E. subst q. destruct (prefix_eqb p (ex_path x)) eqn:F; [destruct N; apply prefix_above, F|]. exact IH.
    - cbn [flat_map fst snd]. rewrite IH. reflexivity. }
  rewrite ALL, (ALL (group_exceptions (a ++ x :: b))). f_equal. unfold group_exceptions. rewrite !fold_left_app. cbn [fold_left]. apply elsewhere_fold. symmetry. apply elsewhere_own.
Qed.

(** ** Areas *)
Section Areas.
  Variables (ord : list course -> list course) (nord : list node -> list node).
  Hypothesis NORD : forall l, Permutation (nord l) l.
  Variables (u : study) (st : student) (es es' : list exc).
  Let d := group_exceptions es.
  Let d' := group_exceptions es'.
  Let S1 p := exc_at d p = exc_at d' p.
  Let S2 p := has_exception_beneath d p = has_exception_beneath d' p.
  Hypothesis FM : forall k, In k (forced_clbids es) <-> In k (forced_clbids es').
  Hypothesis T : tcov S1 S2 (u_result u).
  Hypothesis R : rcov S1 (u_result u).
  Hypothesis CP : forall n, In n (u_common u) -> pcov S1 S2 n.
  Hypothesis CR : forall n, In n (u_common u) -> rcov S1 n.
  Hypothesis CI : forall n, In n (u_common u) -> get_inserts_beneath d (path_of n) = get_inserts_beneath d' (path_of n).
  Let AT : forall p, S1 p -> exc_at d p = exc_at d' p := fun p H => H.
  Let BE : forall p, S2 p -> has_exception_beneath d p = has_exception_beneath d' p := fun p H => H.

  Definition other (z : area_solution) : area_solution := mkAsol (swap d' (z_ctx z)) (z_claims z) (z_sol z).
  Lemma forced_member k : existsb (String.eqb k) (forced_clbids es) = existsb (String.eqb k) (forced_clbids es').
  Proof. apply eq_true_iff_eq. rewrite !existsb_exists. split; intros [j [I E]]; exists j; (split; [apply FM; exact I|exact E]). Qed.
  Lemma forced_courses_same cs : forced_courses es cs = forced_courses es' cs.
  Proof.
    unfold forced_courses. generalize (@nil (string * course)). induction cs as [|c0 cs IH]; intro t; [reflexivity|]. cbn [fold_left].
    change (smem (c_clbid c0) (forced_clbids es)) with (existsb (String.eqb (c_clbid c0)) (forced_clbids es)). change (smem (c_clbid c0) (forced_clbids es')) with (existsb (String.eqb (c_clbid c0)) (forced_clbids es')). rewrite forced_member. apply IH.
  Qed.
  Lemma ctx_same lt : limited_ctx u st es' lt = swap d' (limited_ctx u st es lt).
  Proof. unfold limited_ctx. rewrite forced_courses_same. reflexivity. Qed.
  Lemma transcripts_same : transcripts ord u st es' = transcripts ord u st es.
  Proof. unfold transcripts, limited_transcripts. rewrite !(filter_ext _ _ forced_member). reflexivity. Qed.
  Lemma swap_own cx : swap (cx_exc cx) cx = cx.
  Proof. destruct cx. reflexivity. Qed.
  Lemma top_same lt t : top_solutions ord nord (limited_ctx u st es lt) t (u_result u) = top_solutions ord nord (limited_ctx u st es' lt) t (u_result u).
  Proof.
    rewrite ctx_same. rewrite <- (swap_own (limited_ctx u st es lt)) at 1. change (cx_exc (limited_ctx u st es lt)) with d.
    apply (top_eq ord nord d d' S1 S2 AT BE NORD); assumption.
  Qed.
  Lemma map_solutions cx t l : map (mkAsol (swap d' cx) t) l = map other (map (mkAsol cx t) l).
  Proof. rewrite map_map. reflexivity. Qed.
  Lemma gapp_map {A B} (g : A -> B) x y : gmap g (gapp x y) = gapp (gmap g x) (gmap g y).
  Proof. unfold gapp, gmap. cbn [g_exn g_items]. destruct (g_exn x) eqn:E; cbn [g_exn g_items]; [rewrite E; reflexivity|]. rewrite map_app. reflexivity. Qed.
  Lemma solutions_from_same lts e0 : forall t, solutions_from ord nord u st es' t lts e0 = gmap other (solutions_from ord nord u st es t lts e0).
  Proof.
    induction lts as [|lt lts IH]; intro t; [reflexivity|]. cbn [solutions_from]. rewrite <- top_same. destruct (top_solutions _ _ _ _ _) as [[[|s ss] [x|]] t1].
    - reflexivity.
    - apply IH.
    - rewrite gapp_map, <- IH, ctx_same. unfold gmap at 1. cbn [g_items g_exn map]. rewrite <- map_solutions. reflexivity.
    - rewrite gapp_map, <- IH, ctx_same. unfold gmap at 1. cbn [g_items g_exn map]. rewrite <- map_solutions. reflexivity.
  Qed.
  Lemma area_solutions_same : area_solutions ord nord u st es' = gmap other (area_solutions ord nord u st es).
  Proof. unfold area_solutions. rewrite transcripts_same. apply solutions_from_same. Qed.
  Lemma solutions_from_good lts e0 : forall t z, In z (g_items (solutions_from ord nord u st es t lts e0)) -> cx_exc (z_ctx z) = d /\ kind_of (z_sol z) = KSol /\ within (u_result u) (z_sol z).
  Proof.
    induction lts as [|lt lts IH]; intros t z I; [destruct I|]. cbn [solutions_from] in I.
    assert (G := top_good ord nord (limited_ctx u st es lt) (u_result u) t). destruct (top_solutions _ _ _ _ _) as [[[|s ss] x] t1]; [destruct x; [destruct I|eapply IH; exact I]|].
    apply in_gapp in I as [I|I]; [|eapply IH; exact I]. cbn [g_items] in I. cbn [fst g_items] in G. destruct I as [<-|I].
    - split; [reflexivity|]. apply G. apply in_eq.
    - apply in_map_iff in I as [s' [<- I]]. split; [reflexivity|]. apply G. right. exact I.
  Qed.
  Lemma best_same cx n : In n (u_common u) -> best_or_fail ord (swap d cx) n = best_or_fail ord (swap d' cx) n.
  Proof. intro I. unfold best_or_fail. rewrite (find_best_eq ord d d' S1 S2 AT BE cx [] n false (CP n I) (CR n I)). reflexivity. Qed.
  Lemma nth_in i n : nth_rule (u_common u) i = Ok n -> In n (u_common u).
  Proof. unfold nth_rule. destruct (nth_error _ _) eqn:E; [|discriminate]. intro H. injection H as <-. eapply nth_error_In; eauto. Qed.
  Lemma common_same cx r : audit_common ord u (swap d cx) r = audit_common ord u (swap d' cx) r.
  Proof.
    unfold audit_common. destruct (nth_rule (u_common u) 0) as [r0|] eqn:E0; cbn [bind]; [|reflexivity].
    assert (CE : common_exceptions (swap d cx) (path_of r0) = common_exceptions (swap d' cx) (path_of r0)).
    { unfold common_exceptions. cbn [cx_exc swap]. rewrite (CI r0 (nth_in _ _ E0)). reflexivity. }
    rewrite CE. clear CE. destruct (common_exceptions (swap d' cx) (path_of r0)) as [forced|]; cbn [bind]; [|reflexivity].
    change (claimed_ctx ord (swap d cx) r forced) with (swap d (claimed_ctx ord cx r forced)). change (claimed_ctx ord (swap d' cx) r forced) with (swap d' (claimed_ctx ord cx r forced)).
    rewrite (best_same _ r0 (nth_in _ _ E0)). destruct (best_or_fail _ _ r0); cbn [bind]; [|reflexivity].
    destruct (nth_rule (u_common u) 1) as [r1|] eqn:E1; cbn [bind]; [|reflexivity]. rewrite (best_same _ r1 (nth_in _ _ E1)). destruct (best_or_fail _ _ r1); cbn [bind]; [|reflexivity].
    destruct (nth_rule (u_common u) 2) as [r2|] eqn:E2; cbn [bind]; [|reflexivity].
    change (whole_ctx (swap d cx)) with (swap d (whole_ctx cx)). change (whole_ctx (swap d' cx)) with (swap d' (whole_ctx cx)). rewrite (best_same _ r2 (nth_in _ _ E2)). reflexivity.
  Qed.
  Lemma audit_same z : In z (g_items (area_solutions ord nord u st es)) ->
    area_audit ord u (other z) = let! (v, t) := area_audit ord u z in Ok (mkAres (v_area v) (swap d' (v_ctx v)) (v_result v), t).
  Proof.
    intro I. unfold area_solutions in I. destruct (solutions_from_good _ _ _ _ I) as [E [K W]]. destruct z as [cx t s]. cbn [z_ctx z_sol] in *. unfold other, area_audit. cbn [z_ctx z_claims z_sol].
    assert (AE : audit ord (swap d' cx) t s = audit ord cx t s).
    { rewrite <- (swap_own cx) at 2. rewrite E. symmetry. apply (audit_eq ord d d' S1 AT); [exact K|]. eapply lcov_of; [exact R|exact W]. }
    rewrite AE. destruct (audit ord cx t s) as [[r t']|]; cbn [bind]; [|reflexivity]. destruct (String.eqb (u_kind u) "major"); [|reflexivity].
    assert (CE : audit_common ord u (swap d' cx) r = audit_common ord u cx r) by (rewrite <- (swap_own cx) at 2; rewrite E; symmetry; apply common_same).
    rewrite CE. destruct (audit_common ord u cx r); cbn [bind]; [|reflexivity]. destruct r; reflexivity.
  Qed.
End Areas.

(** ** C182 *)
Definition named (u : study) (p : path) : Prop :=
  names_part (u_result u) p \/ names_assertion (u_result u) p \/ exists n, In n (u_common u) /\ (names_part n p \/ names_assertion n p).
(** the exception names no part of the area, and no part that is asked lies above what it names *)
Definition apart_from (u : study) (x : exc) : Prop :=
  ~ named u (ex_path x) /\ (forall p, asked_beneath (u_result u) p -> ~ above p (ex_path x)) /\
  (forall n p, In n (u_common u) -> p = path_of n \/ names_part n p -> ~ above p (ex_path x)).
Definition not_forced (x : exc) : Prop := forall k, ex_act x <> AInsert k true.
Definition decided_area (u : study) : Prop := decided (u_result u) /\ forall n, In n (u_common u) -> decided n.
(** the same result, claims and average, or the same failure *)
Definition same_audit (a b : res (area_result * claims)) : Prop :=
  match a, b with
  | Ok (v, t), Ok (w, t') => v_area w = v_area v /\ v_result w = v_result v /\ area_gpa w = area_gpa v /\ t' = t
  | Err e, Err e' => e' = e
  | _, _ => False
  end.
Definition same_solutions (ord : list course -> list course) (nord : list node -> list node) (u : study) (st : student) (es es' : list exc) : Prop :=
  let g := area_solutions ord nord u st es in
  let g' := area_solutions ord nord u st es' in
  g_exn g' = g_exn g /\
  Forall2 (fun z z' => z_sol z' = z_sol z /\ z_claims z' = z_claims z /\ same_audit (area_audit ord u z) (area_audit ord u z')) (g_items g) (g_items g').

(** An exception that names no part of the area, wherever it stands among the others, changes
    neither what is tried nor what is found. *)
Theorem exceptions_apart_change_nothing :
  forall ord nord u st a x b, (forall l, Permutation (nord l) l) -> decided_area u -> apart_from u x -> not_forced x ->
  same_solutions ord nord u st (a ++ b) (a ++ x :: b).
Proof.
  intros ord nord u st a x b NORD [DR DC] [NN [AB CA]] NF.
  assert (FC : forced_clbids (a ++ b) = forced_clbids (a ++ x :: b)).
  { unfold forced_clbids. rewrite !flat_map_app. cbn [flat_map]. unfold not_forced in NF. destruct (ex_act x) as [k [|]| | | | |]; try reflexivity. destruct (NF k eq_refl). }
  assert (OUT : forall p, named u p -> p <> ex_path x) by (intros p N E; subst p; exact (NN N)).
  assert (RC : forall n, (forall p, names_assertion n p -> named u p) -> decided n -> rcov (fun p => exc_at (group_exceptions (a ++ b)) p = exc_at (group_exceptions (a ++ x :: b)) p) n).
  { intros n NA D y c Y I. split; [exact (D y c Y I)|]. intros v V. apply at_more, OUT, NA. exists y, c, v. auto. }
  assert (FM : forall k, In k (forced_clbids (a ++ b)) <-> In k (forced_clbids (a ++ x :: b))) by (intro k; rewrite FC; reflexivity).
  assert (H := area_solutions_same ord nord NORD u st (a ++ b) (a ++ x :: b) FM).
  assert (T : tcov (fun p => exc_at (group_exceptions (a ++ b)) p = exc_at (group_exceptions (a ++ x :: b)) p) (fun p => has_exception_beneath (group_exceptions (a ++ b)) p = has_exception_beneath (group_exceptions (a ++ x :: b)) p) (u_result u)).
  { split; [intros p N; apply at_more, OUT; left; exact N|intros p N; apply beneath_more, AB, N]. }
  assert (R : rcov (fun p => exc_at (group_exceptions (a ++ b)) p = exc_at (group_exceptions (a ++ x :: b)) p) (u_result u)) by (apply RC; [intros p N; right; left; exact N|exact DR]).
  specialize (H T R). unfold same_solutions. rewrite H. cbn [gmap g_exn g_items]. split; [reflexivity|].
  assert (AUD : forall z, In z (g_items (area_solutions ord nord u st (a ++ b))) -> area_audit ord u (other (a ++ x :: b) z) = let! (v, t) := area_audit ord u z in Ok (mkAres (v_area v) (swap (group_exceptions (a ++ x :: b)) (v_ctx v)) (v_result v), t)).
  { intros z I. apply (audit_same ord nord u st (a ++ b) (a ++ x :: b) R); [| | |exact I].
    - intros n N p P. split; [apply at_more, OUT; right; right; exists n; auto|apply beneath_more, (CA n p N); right; exact P].
    - intros n N. apply RC; [|exact (DC n N)]. intros p P. right. right. exists n. auto.
    - intros n N. apply inserts_beneath_more, (CA n _ N). left. reflexivity. }
  revert AUD. induction (g_items (area_solutions ord nord u st (a ++ b))) as [|z l IH]; intro AUD; cbn [map]; constructor; [|apply IH; intros y I; apply AUD; right; exact I].
  split; [reflexivity|]. split; [reflexivity|]. rewrite (AUD z (in_eq _ _)). unfold same_audit. destruct (area_audit ord u z) as [[v t]|]; cbn [bind]; [|reflexivity]. repeat split; reflexivity.
Qed.
Print Assumptions exceptions_apart_change_nothing.

(** Of exceptions that name no part this is not true in general: those beneath a part make the
    search take it up, and those that insert by force take the class out of the limits. *)
Definition exceptions_at_no_part_change_nothing : Prop :=
  forall ord nord u st a x b, (forall l, Permutation (nord l) l) -> decided_area u -> ~ named u (ex_path x) -> not_forced x ->
  same_solutions ord nord u st (a ++ b) (a ++ x :: b).
Definition forced_insertions_apart_change_nothing : Prop :=
  forall ord nord u st a x b, (forall l, Permutation (nord l) l) -> decided_area u -> apart_from u x ->
  same_solutions ord nord u st (a ++ b) (a ++ x :: b).

(** ** Samples *)
Local Open Scope string_scope.
Definition found (u : study) (st : student) (es : list exc) : list (res status) :=
  map (fun z => let! (v, _) := area_audit same_order u z in Ok (area_status v)) (g_items (area_solutions same_order (fun l => l) u st es)).
Lemma same_found u st es es' : same_solutions same_order (fun l => l) u st es es' -> found u st es' = found u st es.
Proof.
  intros [_ F]. unfold found. induction F as [|z z' l l' [_ [_ A]] F IH]; [reflexivity|]. cbn [map]. rewrite IH. f_equal. unfold same_audit in A.
  destruct (area_audit _ _ z) as [[v t]|], (area_audit _ _ z') as [[w t']|]; try (destruct A; fail); cbn [bind]; [|congruence]. destruct A as [_ [R _]]. unfold area_status. rewrite R. reflexivity.
Qed.
(** a query that asks that there be none *)
Definition at_query : path := ["$"; ".count"; "[0]"; ".query"].
Definition none_outside : query := mkQuery at_query false QCourses DtCourse [APlain (AssertionProps.plain KCourses OEq 0 false)] [] (Some (CommonProofs.p_not "REG")) false true true false [] [] [] [] [] [].
Definition asks_for_none : study := AreaProps.one_rule "concentration" (AreaProps.all_of [NQuery KRule none_outside]) [].
Definition in_reg : student := AreaProps.took [a_class "300" "REG"].
Definition mistyped : exc := mkExc (at_query ++ [".asert"])%list (AValue (mkDec 2 0)).
Definition far_off : exc := mkExc ["$"; "%Core"; ".count"] (AOverride Waived).
Example an_exception_too_many : found asks_for_none in_reg [] = [Ok Empty] /\ found asks_for_none in_reg [far_off] = [Ok Empty] /\ found asks_for_none in_reg [mistyped] = [Ok Done].
Proof. vm_compute. auto. Qed.
(** at most one class outside of REG counts; two are asked for *)
Definition two_under_limit : study :=
  mkStudy "X" "concentration" (Some "B.A.") None "100" [mkLimit 0 (mkDec 1 0) Courses (CommonProofs.p_not "REG")] (AreaProps.all_of [NQuery KRule (outside_reg 2)]) [] [].
Definition two_outside : student := AreaProps.took [a_class "100" "A"; a_class "200" "B"].
Definition far_insertion : exc := mkExc ["$"; "%Core"; ".count"] (AInsert "100" true).
Example a_forced_insertion_too_many : found two_under_limit two_outside [] = [Ok Empty; Ok NeedsMoreItems; Ok NeedsMoreItems] /\ found two_under_limit two_outside [far_insertion] = [Ok NeedsMoreItems; Ok Done].
Proof. vm_compute. auto. Qed.

(** the parts of these areas *)
Lemma parts_of_one q x : part_of (AreaProps.all_of [NQuery KRule q]) x -> x = AreaProps.all_of [NQuery KRule q] \/ x = NQuery KRule q.
Proof. intro P. inversion P; subst; [left; reflexivity|]. match goal with I : In _ [_] |- _ => destruct I as [<-|[]] end. match goal with Q : part_of (NQuery _ _) _ |- _ => inversion Q end. right. reflexivity. Qed.
Lemma one_query_names q limits x : let u := mkStudy "X" "concentration" (Some "B.A.") None "100" limits (AreaProps.all_of [NQuery KRule q]) [] [] in
  named u x -> x = ["$"; ".count"] \/ x = q_path q \/ exists a v, In a (q_asserts q) /\ In v (variants a) /\ x = as_path v.
Proof.
  intros u [[y [Y I]]|[[y [a [v [Y [A [V E]]]]]]|[n [[] _]]]]; destruct (parts_of_one q y Y) as [->| ->].
  - destruct I as [<-|[]]. left. reflexivity.
  - destruct I as [<-|[]]. right. left. reflexivity.
  - destruct A.
  - right. right. exists a, v. auto.
Qed.
Lemma one_query_decided q limits : (forall a, In a (q_asserts q) -> decided_assertion a) -> decided_area (mkStudy "X" "concentration" (Some "B.A.") None "100" limits (AreaProps.all_of [NQuery KRule q]) [] []).
Proof. intro D. split; [|intros n []]. intros y a Y I. destruct (parts_of_one q y Y) as [->| ->]; [destruct I|apply D, I]. Qed.
Lemma one_query_asked q limits p : asked_beneath (u_result (mkStudy "X" "concentration" (Some "B.A.") None "100" limits (AreaProps.all_of [NQuery KRule q]) [] [])) p -> p = q_path q.
Proof.
  intro A. cbn [u_result] in A. unfold AreaProps.all_of in A. inversion A as [k i items y p0 I N| | |n p0 F N]; subst; [|destruct F]. destruct I as [<-|[]].
  destruct N as [y [Y I]]. inversion Y; subst. destruct I as [<-|[]]. reflexivity.
Qed.
Lemma far_apart q limits act : (forall r, q_path q <> ["$"; "%Core"; ".count"] /\ ["$"; "%Core"; ".count"] <> (q_path q ++ r)%list) -> (forall a v, In a (q_asserts q) -> In v (variants a) -> as_path v = ["$"; ".assert"]) ->
  apart_from (mkStudy "X" "concentration" (Some "B.A.") None "100" limits (AreaProps.all_of [NQuery KRule q]) [] []) (mkExc ["$"; "%Core"; ".count"] act).
Proof.
  intros Q0 A0. split; [|split].
  - intro N. apply one_query_names in N as [N|[N|[a [v [A [V N]]]]]]; cbn [ex_path] in N; [discriminate N|destruct (Q0 []); congruence|rewrite (A0 a v A V) in N; discriminate N].
  - intros p A [r E]. apply one_query_asked in A. subst p. destruct (Q0 r) as [_ N]. exact (N E).
  - intros n p [].
Qed.
Theorem exceptions_at_no_part_change_nothing_refuted : ~ exceptions_at_no_part_change_nothing.
Proof.
  intro H. assert (F : found asks_for_none in_reg [mistyped] = found asks_for_none in_reg []).
  { apply same_found. apply (H same_order (fun l => l) asks_for_none in_reg [] mistyped []).
    - intro l. reflexivity.
    - apply one_query_decided. intros a [<-|[]]. exact Logic.I.
    - intro N. apply one_query_names in N as [N|[N|[a [v [[<-|[]] [[<-|[]] N]]]]]]; discriminate N.
    - intros k E. discriminate E. }
  vm_compute in F. discriminate F.
Qed.
Print Assumptions exceptions_at_no_part_change_nothing_refuted.
Theorem forced_insertions_apart_change_nothing_refuted : ~ forced_insertions_apart_change_nothing.
Proof.
  intro H. assert (F : found two_under_limit two_outside [far_insertion] = found two_under_limit two_outside []).
  { apply same_found. apply (H same_order (fun l => l) two_under_limit two_outside [] far_insertion []).
    - intro l. reflexivity.
    - apply one_query_decided. intros a [<-|[]]. exact Logic.I.
    - apply far_apart; [intro r; split; discriminate|]. intros a v [<-|[]] [<-|[]]. reflexivity. }
  vm_compute in F. discriminate F.
Qed.
Print Assumptions forced_insertions_apart_change_nothing_refuted.
(** the hypotheses of the theorem are met by an exception for another area's part *)
Example far_off_is_apart : decided_area asks_for_none /\ apart_from asks_for_none far_off /\ not_forced far_off.
Proof.
  split; [apply one_query_decided; intros a [<-|[]]; exact Logic.I|]. split; [|intros k E; discriminate E].
  apply far_apart; [intro r; split; discriminate|]. intros a v [<-|[]] [<-|[]]. reflexivity.
Qed.
