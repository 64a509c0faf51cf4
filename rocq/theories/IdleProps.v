(** Property theorems about classes that no part of an area can use (C185). *)
From Coq Require Import List ZArith QArith Bool Ascii String Lia Permutation.
From Verif Require Import Transcript Prelude Dec Status Course Claims Exceptions Op Context CondExpr Paths Predicate Limit LimitLoad Apply Assertion Query CourseRule EnumSpec LazyRun Tree Solve Driver Area StudentLoad Run Loader AreaLoad.
From Verif Require Import ListFacts ExceptionsProofs LoaderSpec LoaderProofs LoaderProps TreeSpec TreeSolSpec TreeSolProps AreaLoadSpec AreaLoadProofs AreaLoadProps CommonProps MonoProps MonoExcProps AreaEndProps FrameSpec FrameProofs FrameProps GoneProps IdleSpec IdleProofs.
Import ListNotations.
Local Open Scope string_scope.
Local Open Scope list_scope.

(** ** Areas *)
Section Areas.
  Variables (ord : list course -> list course) (nord : list node -> list node) (u : study) (st : student) (es : list exc) (x : course).
  Hypothesis ORD : forall l, Permutation (ord l) l.
  Hypothesis NORD : forall l, Permutation (nord l) l.
  Hypothesis DR : decided (u_result u).
  Hypothesis DC : forall n, In n (u_common u) -> decided n.
  Hypothesis ID : idle u x.
  Hypothesis NE : not_excepted x es.
  Let sy := without_class x st.
  Lemma names_other e0 : In e0 es -> is_insert e0 = true \/ is_block e0 = true -> exc_clbid e0 <> c_clbid x.
  Proof.
    intros I K. unfold exc_clbid. destruct (ex_act e0) as [k f| |k| | |] eqn:A; try (destruct K as [K|K]; unfold is_insert, is_block in K; rewrite A in K; discriminate K); [apply (NE e0 k f I)|apply (NE e0 k false I)]; auto.
  Qed.
  Lemma grouped p e0 : In e0 (exc_at (group_exceptions es) p) -> In e0 es.
  Proof. destruct (groups_ok es) as (_ & A & _). rewrite A. intro I. apply filter_In in I. apply I. Qed.
  Lemma ctx_unnamed cx : cx_exc cx = group_exceptions es -> unnamed x cx.
  Proof. intros E p e0 I. rewrite E in I. apply names_other, (grouped p), I. Qed.
  Lemma not_forced_in : ~ In (c_clbid x) (forced_clbids es).
  Proof.
    intro I. unfold forced_clbids in I. apply in_flat_map in I as [e0 [I J]]. destruct (ex_act e0) as [k [|]| | | | |] eqn:A; try (destruct J; fail). destruct J as [J|[]]. exact (NE e0 k true I (or_introl A) J).
  Qed.
  Lemma forced_courses_drop cs : forced_courses es (drop x cs) = forced_courses es cs.
  Proof.
    unfold forced_courses. generalize (@nil (string * course)). induction cs as [|c cs IH]; intro t; [reflexivity|]. cbn [drop filter]. fold (drop x cs). destruct (course_eqb c x) eqn:E; cbn [negb fold_left]; [|apply IH].
    apply is_it in E. subst c. destruct (smem (c_clbid x) (forced_clbids es)) eqn:F; [|apply IH]. destruct not_forced_in. unfold smem in F. apply existsb_exists in F as [k [I E]]. apply String.eqb_eq in E. subst k. exact I.
  Qed.
  Lemma ctx_drop lt : limited_ctx u sy es (drop x lt) = without x (limited_ctx u st es lt).
  Proof. unfold limited_ctx, without, with_transcript. cbn [t_courses t_failed sy without_class base_ctx cx_multi cx_exc cx_areas cx_perf cx_att cx_prof cx_transcript cx_excluded cx_failed cx_forced t_areas t_perf t_slips t_prof]. rewrite forced_courses_drop. reflexivity. Qed.
  Lemma transcripts_drop : transcripts ord u sy es = gmap (drop x) (transcripts ord u st es).
  Proof. unfold transcripts. cbn [t_courses sy without_class]. apply limited_drop; [exact ORD|apply ID|exact not_forced_in]. Qed.
  Lemma top_drop lt t : top_solutions ord nord (limited_ctx u sy es (drop x lt)) t (u_result u) = top_solutions ord nord (limited_ctx u st es lt) t (u_result u).
  Proof. rewrite ctx_drop. exact (top_eq ord nord x (limited_ctx u st es lt) (ctx_unnamed (limited_ctx u st es lt) eq_refl) NORD (u_result u) t (proj1 ID) DR). Qed.
  Definition lesser (z : area_solution) : area_solution := mkAsol (without x (z_ctx z)) (z_claims z) (z_sol z).
  Lemma solutions_from_drop lts e0 : forall t, solutions_from ord nord u sy es t (map (drop x) lts) e0 = gmap lesser (solutions_from ord nord u st es t lts e0).
  Proof.
    induction lts as [|lt lts IH]; intro t; [reflexivity|]. cbn [map solutions_from]. rewrite top_drop. destruct (top_solutions _ _ _ _ _) as [[[|s ss] [y|]] t1].
    - reflexivity.
    - apply IH.
    - rewrite gapp_map, <- IH, ctx_drop. unfold gmap at 1. cbn [g_items g_exn map]. rewrite map_map. reflexivity.
    - rewrite gapp_map, <- IH, ctx_drop. unfold gmap at 1. cbn [g_items g_exn map]. rewrite map_map. reflexivity.
  Qed.
  Lemma area_solutions_drop : area_solutions ord nord u sy es = gmap lesser (area_solutions ord nord u st es).
  Proof. unfold area_solutions. rewrite transcripts_drop. apply solutions_from_drop. Qed.
  Lemma solutions_from_fine lts e0 : forall t z, In z (g_items (solutions_from ord nord u st es t lts e0)) -> cx_exc (z_ctx z) = group_exceptions es /\ kind_of (z_sol z) = KSol /\ livable (z_sol z).
  Proof.
    assert (ONE : forall lt t s, In s (g_items (fst (top_solutions ord nord (limited_ctx u st es lt) t (u_result u)))) -> kind_of s = KSol /\ livable s).
    { intros lt t s I. destruct (top_good _ _ _ _ _ _ I) as [K W]. split; [exact K|]. refine (livable_of x (u_result u) s DR (proj1 ID) W _). eapply top_quotes. exact I. }
    induction lts as [|lt lts IH]; intros t z I; [destruct I|]. cbn [solutions_from] in I.
    assert (G := ONE lt t). destruct (top_solutions _ _ _ _ _) as [[[|s ss] y] t1]; [destruct y; [destruct I|eapply IH; exact I]|].
    apply in_gapp in I as [I|I]; [|eapply IH; exact I]. cbn [g_items] in I. cbn [fst g_items] in G. destruct I as [<-|I].
    - split; [reflexivity|]. apply G. apply in_eq.
    - apply in_map_iff in I as [s' [<- I]]. split; [reflexivity|]. apply G. right. exact I.
  Qed.
  Lemma common_drop cx r : u_kind u = "major" -> cx_exc cx = group_exceptions es -> audit_common ord u (without x cx) r = audit_common ord u cx r.
  Proof.
    intros MJ E. unfold audit_common. destruct (nth_rule (u_common u) 0) as [r0|] eqn:E0; cbn [bind]; [|reflexivity].
    assert (CE : common_exceptions (without x cx) (path_of r0) = common_exceptions cx (path_of r0)).
    { unfold common_exceptions. change (cx_exc (without x cx)) with (cx_exc cx). rewrite (mapr_eq (fun e0 => forced_by_clbid (without x cx) (exc_clbid e0)) (fun e0 => forced_by_clbid cx (exc_clbid e0))); [reflexivity|].
      intros e0 I. apply forced_eq. rewrite E in I. unfold get_inserts_beneath in I. destruct (has_exception_beneath _ _); [|destruct I]. apply in_flat_map in I as [[q l] [G I]]. cbn [fst snd] in I. destruct (prefix_eqb _ q); [|destruct I].
      apply filter_In in I as [I K]. apply names_other; [|left; exact K]. destruct (groups_ok es) as (ND & A & B & P). eapply Permutation_in; [exact P|]. apply in_flat_map. exists (q, l). split; [exact G|exact I]. }
    rewrite CE. clear CE. destruct (common_exceptions cx (path_of r0)) as [forced|]; cbn [bind]; [|reflexivity].
    change (claimed_ctx ord (without x cx) r forced) with (claimed_ctx ord cx r forced).
    destruct (best_or_fail _ _ r0); cbn [bind]; [|reflexivity]. destruct (nth_rule (u_common u) 1) as [r1|]; cbn [bind]; [|reflexivity]. destruct (best_or_fail _ _ r1); cbn [bind]; [|reflexivity].
    unfold nth_rule. destruct (nth_error (u_common u) 2) as [r2|] eqn:E2; cbn [bind]; [|reflexivity].
    change (whole_ctx (without x cx)) with (without x (whole_ctx cx)). unfold best_or_fail. rewrite find_best_eq; [reflexivity|apply ctx_unnamed; exact E|apply (proj2 (proj2 ID) MJ); exact E2|apply DC; eapply nth_error_In; exact E2].
  Qed.
  Lemma audit_drop z : In z (g_items (area_solutions ord nord u st es)) ->
    area_audit ord u (lesser z) = let! (v, t) := area_audit ord u z in Ok (mkAres (v_area v) (without x (v_ctx v)) (v_result v), t).
  Proof.
    intro I. unfold area_solutions in I. destruct (solutions_from_fine _ _ _ _ I) as [E [K W]]. destruct z as [cx t s]. cbn [z_ctx z_sol] in *. unfold lesser, area_audit. cbn [z_ctx z_claims z_sol].
    rewrite (audit_eq ord x cx (ctx_unnamed cx E) s t K W). destruct (audit ord cx t s) as [[r t']|]; cbn [bind]; [|reflexivity]. destruct (String.eqb_spec (u_kind u) "major") as [MJ|_]; [|reflexivity].
    rewrite (common_drop cx r MJ E). destruct (audit_common ord u cx r); cbn [bind]; [|reflexivity]. destruct r; reflexivity.
  Qed.
End Areas.

(** ** C185 *)
(** the same is tried for the two students, and the results, claims and averages are the same *)
Definition same_outcome (ord : list course -> list course) (nord : list node -> list node) (u : study) (st st' : student) (es : list exc) : Prop :=
  let g := area_solutions ord nord u st es in
  let g' := area_solutions ord nord u st' es in
  g_exn g' = g_exn g /\
  Forall2 (fun z z' => z_sol z' = z_sol z /\ z_claims z' = z_claims z /\ same_audit (area_audit ord u z) (area_audit ord u z')) (g_items g) (g_items g').
Theorem idle_classes_change_nothing :
  forall ord nord u st es x, (forall l, Permutation (ord l) l) -> (forall l, Permutation (nord l) l) -> decided_area u ->
  u_kind u <> "degree" -> idle u x -> not_excepted x es -> same_outcome ord nord u st (without_class x st) es.
Proof.
  intros ord nord u st es x ORD NORD [DR DC] KD ID NE. unfold same_outcome. rewrite (area_solutions_drop ord nord u st es x ORD NORD DR ID NE). cbn [gmap g_exn g_items]. split; [reflexivity|].
  assert (AUD := audit_drop ord nord u st es x DR DC ID NE).
  assert (KIND : forall z v t, area_audit ord u z = Ok (v, t) -> v_area v = u).
  { intros z v t H. unfold area_audit in H. destruct (audit _ _ _ _) as [[r t']|]; cbn [bind] in H; [|discriminate H]. destruct (String.eqb (u_kind u) "major"); [|injection H as <- _; reflexivity].
    destruct (audit_common _ _ _ _); cbn [bind] in H; [|discriminate H]. destruct r; try discriminate H. injection H as <- _. reflexivity. }
  revert AUD. induction (g_items (area_solutions ord nord u st es)) as [|z l IH]; intro AUD; cbn [map]; constructor; [|apply IH; intros y I; apply AUD; right; exact I].
  split; [reflexivity|]. split; [reflexivity|]. rewrite (AUD z (in_eq _ _)). unfold same_audit. destruct (area_audit ord u z) as [[v t]|] eqn:A; cbn [bind]; [|reflexivity]. split; [reflexivity|]. split; [reflexivity|]. split; [|reflexivity].
  unfold area_gpa. cbn [v_area v_ctx v_result]. rewrite (KIND _ _ _ A). destruct (String.eqb_spec (u_kind u) "degree") as [E|E]; [destruct (KD E)|]. unfold area_gpa_claims. cbn [v_result]. reflexivity.
Qed.
Print Assumptions idle_classes_change_nothing.

(** For an area that is loaded from its specification the assertions are decided. *)
Corollary idle_classes_do_not_matter :
  forall c tm ord nord st es x all_emphases s u, (forall l, Permutation (ord l) l) -> (forall l, Permutation (nord l) l) ->
  load_area c tm st es all_emphases s = Ok u -> u_kind u <> "degree" -> idle u x -> not_excepted x es ->
  same_outcome ord nord u st (without_class x st) es.
Proof. intros c tm ord nord st es x all s u ORD NORD L. apply idle_classes_change_nothing; [exact ORD|exact NORD|]. eapply loaded_areas_are_decided. exact L. Qed.
Print Assumptions idle_classes_do_not_matter.

(** ** Samples *)
Definition unused : course := CommonProps.taken "3" "G" (dec_of_Z 30) GA GoGrade false.
Example unused_class_example :
  exists u, load_area sample_const [] both_taken [] false (both_area "concentration") = Ok u /\ load_area sample_const [] (without_class unused both_taken) [] false (both_area "concentration") = Ok u /\
  u_kind u <> "degree" /\ idle u unused /\ not_excepted unused [] /\ In unused (t_courses both_taken) /\ statuses (both_area "concentration") (without_class unused both_taken) [] = [Some (Done, [Done; Done])].
Proof.
  destruct (load_area sample_const [] both_taken [] false (both_area "concentration")) as [u|] eqn:L; [|vm_compute in L; discriminate L]. exists u. split; [reflexivity|]. split; [rewrite <- L; vm_compute; reflexivity|].
  vm_compute in L. injection L as <-. split; [discriminate|]. split; [|split; [intros e0 k f []|split; [right; right; left; reflexivity|vm_compute; reflexivity]]].
  split; [|split; [intros l []|intro E; discriminate E]]. intros y P. cbn [u_result] in P. inversion P as [|? ? ? ? ? I Q0| | |]; subst; [exact Logic.I|]. destruct I as [<-|[<-|[]]]; inversion Q0; subst; (split; [intro G; discriminate G|intros _; vm_compute; reflexivity]).
Qed.
(** The third of the common rules of a major counts it. *)
Definition unused_classes_never_matter : Prop :=
  forall ord nord u st es x, (forall l, Permutation (ord l) l) -> (forall l, Permutation (nord l) l) -> decided_area u -> u_kind u <> "degree" ->
  all_ignore x (u_result u) -> (forall l, In l (u_limit u) -> lm_match l x = Ok false) -> not_excepted x es -> same_outcome ord nord u st (without_class x st) es.
Lemma same_outcome_found u st st' es : same_outcome TreeSolProps.same_order (fun l => l) u st st' es -> found u st' es = found u st es.
Proof.
  intros [_ F]. unfold found. induction F as [|z z' l l' [_ [_ A]] F IH]; [reflexivity|]. cbn [map]. rewrite IH. f_equal. unfold same_audit in A.
  destruct (area_audit _ _ z) as [[v t]|], (area_audit _ _ z') as [[w t']|]; try (destruct A; fail); cbn [bind]; [|congruence]. destruct A as [_ [R _]]. unfold area_status. rewrite R. reflexivity.
Qed.
Theorem unused_classes_never_matter_refuted : ~ unused_classes_never_matter.
Proof.
  intro H. destruct (load_area sample_const [] both_taken [] false (both_area "major")) as [u|] eqn:L; [|vm_compute in L; discriminate L].
  assert (D := loaded_areas_are_decided _ _ _ _ _ _ _ L). vm_compute in L. injection L as <-.
  specialize (H TreeSolProps.same_order (fun l => l) _ both_taken [] unused (fun l => Permutation_refl l) (fun l => Permutation_refl l) D). refine (_ (same_outcome_found _ _ _ _ (H _ _ _ _))).
  - clear. intro E. vm_compute in E. discriminate E.
  - discriminate.
  - intros y P. cbn [u_result] in P. inversion P as [|? ? ? ? ? I Q0| | |]; subst; [exact Logic.I|]. destruct I as [<-|[<-|[]]]; inversion Q0; subst; (split; [intro G; discriminate G|intros _; vm_compute; reflexivity]).
  - intros l [].
  - intros e0 k f [].
Qed.
Print Assumptions unused_classes_never_matter_refuted.
