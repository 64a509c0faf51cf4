(** Whether the audit finds the way to pass a major. *)
From Coq Require Import List ZArith QArith Bool String Permutation Lia.
From Verif Require Import Transcript Prelude Dec Status Course Claims Exceptions Op Context CondExpr Paths Predicate Limit Apply Assertion Query CourseRule Tree Solve Driver Area.
From Verif Require Import ListFacts LimitSpec ClaimsSpec AssertionSpec PathsSpec QuerySpec CourseRuleSpec TreeSpec TreeSolSpec TreeAskSpec TreeAuditSpec SolveSpec PlanSpec AreaSpec.
From Verif Require Import TreeProofs TreeSolProofs SolveProofs SolveProps AreaProofs AreaProps PlanProofs PlanTop PlanProps TreeSolProps CourseRuleProps TreeStatusProps TreeAskProps RunSpec RunProps StudentLoad Run LimitProps PathsProofs CommonSpec CommonProofs CommonProps Loader AreaLoad.
Import ListNotations.
Local Open Scope list_scope.

(** children that are not looked at apart from the others: the top rule is waived, or has
    audit clauses, or each of its children competes with another *)
Definition unseparated (cx : ctx) (i : count_info) (items : list node) : Prop :=
  waived cx (n_path i) = true \/ n_audits i <> [] \/ forall c, ~ independent cx items c.
Lemma unseparated_solutions ord nord cx t k i items : (forall l, Permutation (nord l) l) -> siblings items -> unseparated cx i items ->
  g_exn (fst (top_count_solutions ord nord cx t i items)) = None ->
  fst (top_count_solutions ord nord cx t i items) = solutions ord cx (NCount k i items) /\ snd (top_count_solutions ord nord cx t i items) = t.
Proof.
  intros NO SB U N.
  destruct (waived cx (n_path i)) eqn:W.
  { destruct (proj1 top_solutions_otherwise ord nord cx t i items (or_introl W) (proj1 SB)) as [A B]. rewrite (A k). auto. }
  destruct (n_audits i) as [|a0 as0] eqn:NA.
  2:{ assert (NA' : n_audits i <> []) by (rewrite NA; discriminate). destruct (proj1 top_solutions_otherwise ord nord cx t i items (or_intror (or_introl NA')) (proj1 SB)) as [A B]. rewrite (A k). auto. }
  destruct U as [U|[U|U]]; [congruence|congruence|].
  destruct (filter (has_potential cx) items) as [|u0 us0] eqn:FU.
  { assert (X : forall c, ~ usable cx items c).
    { intros c [I P]. apply potential_iff in P. assert (J : In c (filter (has_potential cx) items)) by (apply filter_In; auto). rewrite FU in J. destruct J. }
    destruct (proj1 top_solutions_otherwise ord nord cx t i items (or_intror (or_intror X)) (proj1 SB)) as [A B]. rewrite (A k). auto. }
  destruct (potential_children cx (map (child_of ord cx) items)) as [pot|e] eqn:PC.
  2:{ exfalso. unfold top_count_solutions in N. rewrite W in N. change (map (fun c => (c, solutions ord cx c)) items) with (map (child_of ord cx) items) in N. rewrite PC in N. discriminate N. }
  assert (NE : filter (has_potential cx) items <> []) by (rewrite FU; discriminate).
  destruct (top_shape ord nord cx i items SB W NA NE t) as [[e E]|(ms & dis & non & solved & t' & M & CL & SI & T & E)]; rewrite E in *; cbn [fst snd] in *; [discriminate|].
  destruct (mapr_pairs _ _ _ M) as [MF MM].
  assert (PU : Permutation (map fst ms) (filter (has_potential cx) items)) by (rewrite MF; apply NO).
  assert (NDU : NoDup (map path_of (filter (has_potential cx) items))) by (apply NoDup_map_filter, SB).
  assert (NM : NoDup (map path_of (map fst ms))) by (eapply Permutation_NoDup; [|exact NDU]; apply Permutation_map; symmetry; exact PU).
  destruct (classify_ok cx ms dis non NM MM CL) as [D1 [D2 [D3 D4]]].
  assert (INU : forall c, In c (map fst ms) <-> usable cx items c).
  { intro c. unfold usable. rewrite <- potential_iff, <- filter_In. split; apply Permutation_in; [exact PU|symmetry; exact PU]. }
  assert (NA' : forall c, usable cx items c -> ~ alone cx (map fst ms) c).
  { intros c UC A. apply (U c). split; [exact UC|]. destruct A as [A|[K A]]; [left|right; split; auto]; intros d J; apply A, INU, J. }
  assert (DE : dis = []).
  { destruct dis as [|d dis]; [reflexivity|]. exfalso. destruct (proj1 (D1 d) (or_introl eq_refl)) as [I A]. apply INU in I. exact (NA' d I A). }
  subst dis. assert (nord [] = []) as NN by (apply Permutation_nil; symmetry; apply NO). rewrite NN in SI. cbn in SI. injection SI as <- <-.
  split; [|reflexivity]. rewrite solutions_count. unfold count_solutions. rewrite W.
  rewrite PC.
  destruct (potential_children_ok ord cx items pot (proj1 SB) PC) as [-> _].
  assert (CS : children_set items = items) by (apply dedup_by; apply SB). rewrite CS. rewrite sort_map. cbn [solved_results solved_rules flat_map].
  rewrite (filter_all (fun n => negb (in_nodes n [])) items) by reflexivity.
  rewrite (filter_all (fun c => in_nodes c non)); [reflexivity|].
  intros c I. apply in_nodes_iff. apply in_map. apply D2. assert (UC : usable cx items c) by (unfold usable; rewrite <- potential_iff, <- filter_In; exact I). split; [apply INU, UC|apply NA', UC].
Qed.

Lemma tally_snoc {A} (P : A -> Prop) l n x : tally P l n -> P x -> tally P (l ++ [x]) (S n).
Proof. intros T H. induction T as [|y l n Py T IH|y l n Py T IH]; cbn; [apply t_yes; [exact H|constructor]|apply t_yes; auto|apply t_no; auto]. Qed.
Lemma one_more_complete k i items x : n_overridden i = false -> complete (status_of (NCount k i items)) -> complete (status_of x) ->
  complete (status_of (NCount k (mkCount (n_path i) (n_overridden i) (n_count i + 1) (n_at_most i) (n_audits i)) (items ++ [x]))).
Proof.
  intros O C CX. set (i2 := mkCount _ _ _ _ _).
  assert (V := proj1 (count_status_exact k i items _ O) eq_refl).
  assert (X : enough (n_count i) (map status_of items) (map any_status (n_audits i)) /\ each_counted (map status_of items) (map any_status (n_audits i)) complete).
  { destruct C as [E|E]; rewrite E in V; cbn [verdict] in V.
    - destruct V as [V1 [V2 _]]. auto.
    - destruct V as [V1 [[V2 V3] _]]. split; [exact V1|]. split; [intros s I P; right; symmetry; auto|intros s I; right; symmetry; auto]. }
  destruct X as [[[F1 [F2 _]] [n [T LE]]] [EC1 EC2]].
  assert (W := proj1 (count_status_exact k i2 (items ++ [x]) _ O) eq_refl). rewrite map_app in W. cbn [map] in W. change (n_audits i2) with (n_audits i) in W.
  set (s := status_of (NCount k i2 (items ++ [x]))) in *. clearbody s.
  assert (IX : In (status_of x) (map status_of items ++ [status_of x])) by (apply in_or_app; right; left; reflexivity).
  assert (PX : passing (status_of x)) by (left; exact CX).
  assert (EV : forall y, In y (map status_of items ++ [status_of x]) -> passing y -> complete y).
  { intros y I P. apply in_app_or in I. destruct I as [I|[<-|[]]]; auto. }
  assert (NP : forall y, y = PendingCurrent \/ y = PendingRegistered -> ~ someone_is (map status_of items ++ [status_of x]) (map any_status (n_audits i)) y).
  { intros y Y S. assert (CY : complete y).
    { destruct S as [S|S]; [apply EV; [exact S|right; tauto]|apply EC2, S]. }
    destruct CY as [->| ->], Y as [Y|Y]; discriminate Y. }
  destruct s; cbn [verdict] in W.
  - exfalso. destruct W as [_ [_ U]]. destruct (U _ IX) as [E|E], CX as [D|D]; congruence.
  - destruct W.
  - exfalso. destruct W as [_ [[m [TM L]]|[y [I NPY]]]].
    + assert (m = S n) by (eapply tally_fun; [exact TM|apply tally_snoc; auto]). subst m. unfold i2 in L. cbn [n_count] in L. lia.
    + apply NPY. left. apply EC2, I.
  - exfalso. apply (NP PendingRegistered); [auto|apply W].
  - exfalso. apply (NP PendingCurrent); [auto|apply W].
  - left. reflexivity.
  - right. reflexivity.
  - exfalso. destruct W as [W|W]; [|exact (F2 W)]. apply in_app_or in W. destruct W as [W|[W|[]]]; [exact (F1 W)|]. destruct CX; congruence.
Qed.
(** the common block added to a complete result *)
Lemma major_completed ord u z r t' common k i items : u_kind u = "major"%string ->
  audit ord (z_ctx z) (z_claims z) (z_sol z) = Ok (r, t') -> r = NCount k i items -> n_overridden i = false -> complete (status_of r) ->
  audit_common ord u (z_ctx z) r = Ok common ->
  exists v, area_audit ord u z = Ok (v, t') /\ (complete (status_of common) -> complete (area_status v)).
Proof.
  intros M A -> O C AC. set (i2 := mkCount (n_path i) (n_overridden i) (n_count i + 1) (n_at_most i) (n_audits i)).
  exists (mkAres u (z_ctx z) (NCount k i2 (items ++ [common]))). split.
  - apply area_audit_exact. exists (NCount k i items). split; [exact A|]. split; [reflexivity|]. split; [reflexivity|]. right. split; [exact M|]. exists k, i, items, common. auto.
  - intro CC. unfold area_status. cbn [v_result node_waived overridden]. replace (n_overridden i2) with false by (symmetry; exact O).
    apply one_more_complete; auto.
Qed.

Lemma top_count_shape ord nord cx t i items s : In s (g_items (fst (top_count_solutions ord nord cx t i items))) -> exists out b, s = count_solution i out b.
Proof.
  intro I. unfold top_count_solutions in I. destruct (waived cx (n_path i)); [destruct I as [<-|[]]; eauto|]. destruct (potential_children _ _) as [pot|]; [|destruct I].
  destruct pot as [|p pot]; [apply count_run_shape in I; destruct I as [out ->]; eauto|]. destruct (n_audits i); [|apply count_run_shape in I; destruct I as [out ->]; eauto].
  destruct (bind _ _) as [[[non solved] t']|]; [|destruct I]. apply count_run_shape in I. destruct I as [out ->]. eauto.
Qed.
Lemma count_result ord cx t i items b r t' : audit ord cx t (count_solution i items b) = Ok (r, t') ->
  exists i' results, r = NCount KRes i' results /\ n_overridden i' = b.
Proof.
  unfold count_solution. cbn [audit n_overridden]. destruct b; intro H; [injection H as <- <-; eexists _, _; split; reflexivity|].
  destruct (audit_each _ _ _) as [[rs t1]|]; cbn [bind] in H; [|discriminate]. destruct (mapr _ _) as [as_|]; cbn [bind] in H; [|discriminate]. injection H as <- <-. eexists _, _. split; reflexivity.
Qed.
(** A result whose own part is complete and whose common block is complete, too, is complete. *)
Lemma major_complete ord u z r t' common i items b : u_kind u = "major"%string -> z_sol z = count_solution i items b ->
  audit ord (z_ctx z) (z_claims z) (z_sol z) = Ok (r, t') -> complete (status_of r) -> audit_common ord u (z_ctx z) r = Ok common -> complete (status_of common) ->
  exists v, area_audit ord u z = Ok (v, t') /\ complete (area_status v).
Proof.
  intros M ZS A C AC CC. assert (A' := A). rewrite ZS in A'. destruct (count_result _ _ _ _ _ _ _ _ A') as [i' [results [-> O]]]. destruct b.
  - eexists. split.
    + apply area_audit_exact. exists (NCount KRes i' results). split; [exact A|]. split; [|split; [|right; split; [exact M|]; exists KRes, i', results, common; split; [reflexivity|split; [exact AC|]]]].
      * instantiate (1 := mkAres u (z_ctx z) _). reflexivity.
      * reflexivity.
      * reflexivity.
    + unfold area_status. cbn [v_result node_waived overridden n_overridden]. rewrite O. right. reflexivity.
  - destruct (major_completed ord u z _ t' common KRes i' results M A eq_refl O C AC) as [v [AA V]]. exists v. auto.
Qed.

(** ** C170 *)

(** What a major asks for itself is found if it can be met (see [can_be_passed]): in one of the
    solutions it is complete, and if the common block is complete for the classes of this
    solution, so is the result. *)
Theorem own_requirements_of_a_major_are_found :
  forall ord nord u st es, (forall x, Permutation (nord x) x) -> set_order ord -> u_kind u = "major"%string ->
  can_be_passed ord u st es -> g_exn (area_solutions ord nord u st es) = None ->
  exists z r t', In z (g_items (area_solutions ord nord u st es)) /\ audit ord (z_ctx z) (z_claims z) (z_sol z) = Ok (r, t') /\ complete (status_of r) /\
    forall common, audit_common ord u (z_ctx z) r = Ok common -> complete (status_of common) ->
    exists v, area_audit ord u z = Ok (v, t') /\ complete (area_status v).
Proof.
  intros ord nord u st es NO SO M CP GE. destruct (own_requirements_found ord nord u st es NO SO CP GE) as [z [r [t' [I [A C]]]]].
  exists z, r, t'. split; [exact I|]. split; [exact A|]. split; [exact C|]. intros common AC CC.
  destruct (area_solution_origin _ _ _ _ _ _ I) as [lt [t0 [_ [_ [IS _]]]]]. destruct CP as [i [items [_ [UR _]]]]. rewrite UR in IS. cbn [top_solutions] in IS.
  destruct (top_count_shape _ _ _ _ _ _ _ IS) as [out [b ZS]]. eapply major_complete; eauto.
Qed.
Print Assumptions own_requirements_of_a_major_are_found.

(** some way to solve the top rule is complete, and its classes meet the common rules *)
Definition passable_major (ord : list course -> list course) (u : study) (st : student) (es : list exc) (i : count_info) (items : list node) (lt : list course) : Prop :=
  u_kind u = "major"%string /\ u_result u = NCount KRule i items /\ siblings items /\ (0 <= n_count i)%Z /\
  In lt (g_items (transcripts ord u st es)) /\
  let cx := limited_ctx u st es lt in
  exists s r t' common, In s (g_items (solutions ord cx (u_result u))) /\ audit ord cx [] s = Ok (r, t') /\ complete (status_of r) /\
    audit_common ord u cx r = Ok common /\ complete (status_of common).
(** If no child of the top rule is solved apart from the others, a way to pass is found. *)
Theorem majors_that_can_be_passed_are_found_partial :
  forall ord nord u st es i items lt, (forall x, Permutation (nord x) x) -> passable_major ord u st es i items lt ->
  unseparated (limited_ctx u st es lt) i items -> g_exn (area_solutions ord nord u st es) = None ->
  exists z v rest, In z (g_items (area_solutions ord nord u st es)) /\ area_audit ord u z = Ok (v, rest) /\ complete (area_status v).
Proof.
  intros ord nord u st es i items lt NO [M [UR [SI [C0 [IL [s [r [t' [common [IS [A [C [AC CC]]]]]]]]]]]]] US GE.
  destruct (area_solutions_exact ord nord u st es GE) as [_ FT].
  assert (SOME : forall lt' t, In lt' (g_items (transcripts ord u st es)) -> g_exn (fst (top_solutions ord nord (limited_ctx u st es lt') [] (u_result u))) = None ->
     g_items (fst (top_solutions ord nord (limited_ctx u st es lt') [] (u_result u))) <> [] \/ snd (top_solutions ord nord (limited_ctx u st es lt') t (u_result u)) = t).
  { intros lt' t _ N. left. rewrite UR in *. cbn [top_solutions] in *. eapply (top_count_some ord nord _ es); eauto. }
  destruct (transcripts_in ord nord u st es lt _ _ _ IL SOME FT eq_refl) as [ys [t0 [[G [MZ [CX X]]] IN]]]. clear SOME.
  rewrite UR in *. cbn [top_solutions] in *.
  destruct (unseparated_solutions ord nord _ [] KRule i items NO SI US G) as [EQ T]. rewrite <- EQ, <- MZ in IS.
  apply in_map_iff in IS. destruct IS as [z [<- Iz]]. rewrite Forall_forall in CX. assert (EC := CX z Iz).
  assert (ZC : z_claims z = []).
  { destruct ys as [|z0 ys]; [destruct Iz|]. destruct X as [X1 [X2 _]]. destruct Iz as [<-|Iz]; [rewrite X1; exact T|]. rewrite Forall_forall in X2. apply X2, Iz. }
  assert (ZI : In (z_sol z) (g_items (fst (top_count_solutions ord nord (limited_ctx u st es lt) [] i items)))) by (rewrite <- MZ; apply in_map; exact Iz).
  destruct (top_count_shape _ _ _ _ _ _ _ ZI) as [out [b ZS]]. rewrite <- EC in A, AC. rewrite <- ZC in A.
  destruct (major_complete ord u z r t' common i out b M ZS A C AC CC) as [v [AA V]]. exists z, v, t'. split; [apply IN, Iz|]. auto.
Qed.
Print Assumptions majors_that_can_be_passed_are_found_partial.

(** In general this does not hold. A child that has no class in common with the others is solved
    apart from them, and only the first of its complete solutions is kept: the common rules have
    no say in the choice. *)
Definition passable_majors_are_found : Prop :=
  forall ord nord u st es i items lt, (forall x, Permutation (nord x) x) -> set_order ord -> passable_major ord u st es i items lt ->
  g_exn (area_solutions ord nord u st es) = None ->
  exists z v rest, In z (g_items (area_solutions ord nord u st es)) /\ area_audit ord u z = Ok (v, rest) /\ complete (area_status v).
(** The common rules of a B.A. allow for one full class that is not graded. *)
Open Scope string_scope.
Definition ba_rules : list node := match prepare_common (sample_ctx []) sample_const [] (Some "B.A.") (Some "A") [] "1" with Ok l => l | Err _ => [] end.
Definition ba_taken : list course :=
  [taken "100" "A" full G_S GoSU false; taken "200" "B" full GA GoGrade false; taken "300" "C" full G_S GoSU false; taken "400" "D" (mkDec 6 0) GA GoGrade false; taken "500" "E" (mkDec 21 0) GA GoGrade false].
Definition ba_items : list node := [child "%x" (one_of ["A 1"; "B 1"]); child "%y" (named "C 1"); child "%z" (named "D 1")]%string.
Definition ba_major : study := mkStudy "X" "major" (Some "B.A."%string) (Some "A"%string) "1" [] (all_of ba_items) [] ba_rules.
Definition ba_major_statuses (u : study) : list (option status) := map (status_in u) (g_items (area_solutions same_order keep u (took ba_taken) [])).
Definition ba_plain_statuses : list (option (status * option status)) :=
  let cx := limited_ctx ba_major (took ba_taken) [] ba_taken in
  map (fun s => match audit same_order cx [] s with Ok (r, _) => Some (status_of r, match audit_common same_order ba_major cx r with Ok c => Some (status_of c) | Err _ => None end) | Err _ => None end)
    (g_items (solutions same_order cx (all_of ba_items))).
Example ba_rules_example : List.length ba_rules = 3%nat.
Proof. vm_compute. reflexivity. Qed.
Lemma ba_plain : ba_plain_statuses = [Some (Done, Some FailedInvariant); Some (Done, Some Done)].
Proof. vm_compute. reflexivity. Qed.
Lemma ba_found : ba_major_statuses ba_major = [Some FailedInvariant].
Proof. vm_compute. reflexivity. Qed.
Lemma passable_by_status u l k i items : u_kind u = "major" -> u_result u = NCount k i items -> k = KRule -> siblings items -> (0 <= n_count i)%Z ->
  In l (g_items (transcripts same_order u (took l) [])) ->
  existsb (fun s => match audit same_order (limited_ctx u (took l) [] l) [] s with
    | Ok (r, _) => status_eqb (status_of r) Done && match audit_common same_order u (limited_ctx u (took l) [] l) r with Ok c => status_eqb (status_of c) Done | Err _ => false end
    | Err _ => false end) (g_items (solutions same_order (limited_ctx u (took l) [] l) (u_result u))) = true ->
  passable_major same_order u (took l) [] i items l.
Proof.
  intros M UR -> SI C0 IL E. split; [exact M|]. split; [exact UR|]. split; [exact SI|]. split; [exact C0|]. split; [exact IL|].
  apply existsb_exists in E. destruct E as [s [Is E]].
  destruct (audit same_order (limited_ctx u (took l) [] l) [] s) as [[r t']|] eqn:A; [|discriminate]. apply andb_true_iff in E. destruct E as [E1 E2].
  destruct (audit_common _ _ _ r) as [c|] eqn:AC; [|discriminate]. exists s, r, t', c. split; [exact Is|]. split; [exact A|].
  split; [left; destruct (status_of r); (reflexivity || discriminate E1)|]. split; [exact AC|]. left; destruct (status_of c); (reflexivity || discriminate E2).
Qed.
Lemma ba_siblings : siblings ba_items.
Proof. split; [repeat constructor; cbn; intuition discriminate|repeat (apply Forall_cons || apply Forall_nil); right; intros t D; discriminate]. Qed.
Theorem passable_majors_are_found_refuted : ~ passable_majors_are_found.
Proof.
  intro H. destruct (H same_order keep ba_major (took ba_taken) [] (mkCount ["$"; ".count"] false 3 false []) ba_items ba_taken) as [z [v [rest [I [A C]]]]].
  - intro x. apply Permutation_refl.
  - intro x. apply Permutation_refl.
  - apply (passable_by_status _ _ KRule); [reflexivity|vm_compute; reflexivity|reflexivity|exact ba_siblings|cbn; lia|vm_compute; auto|vm_compute; reflexivity].
  - vm_compute. reflexivity.
  - assert (E := ba_found). unfold ba_major_statuses in E. apply (in_map (status_in ba_major)) in I. rewrite E in I. destruct I as [I|[]]. unfold status_in in I. rewrite A in I. injection I as I. rewrite <- I in C.
    destruct C as [C|C]; discriminate C.
Qed.
Print Assumptions passable_majors_are_found_refuted.

(** The same rules with children that compete: each has a class in common with another. *)
Definition tied_items : list node := [child "%x" (one_of ["A 1"; "B 1"]); child "%y" (one_of ["A 1"; "C 1"]); child "%z" (one_of ["C 1"; "D 1"])].
Definition tied_major : study := mkStudy "X" "major" (Some "B.A.") (Some "A") "1" [] (all_of tied_items) [] ba_rules.
Example tied_example :
  let i := mkCount ["$"; ".count"] false 3 false [] in
  passable_major same_order tied_major (took ba_taken) [] i tied_items ba_taken /\ unseparated (limited_ctx tied_major (took ba_taken) [] ba_taken) i tied_items /\
  g_exn (area_solutions same_order keep tied_major (took ba_taken) []) = None /\
  ba_major_statuses tied_major =
    [Some FailedInvariant; Some NeedsMoreItems; Some FailedInvariant; Some FailedInvariant; Some FailedInvariant; Some Done; Some NeedsMoreItems; Some Done].
Proof.
  split; [|split; [|split]].
  - apply (passable_by_status _ _ KRule); [reflexivity|vm_compute; reflexivity|reflexivity| |cbn; lia|vm_compute; auto|vm_compute; reflexivity].
    split; [repeat constructor; cbn; intuition discriminate|repeat (apply Forall_cons || apply Forall_nil); right; intros t D; discriminate].
  - right. right. intros c [[Ic _] H].
    assert (X : exists d, usable (limited_ctx tied_major (took ba_taken) [] ba_taken) tied_items d /\ d <> c /\ competes (limited_ctx tied_major (took ba_taken) [] ba_taken) c d).
    { assert (P : forall c d x, In d tied_items -> potential (limited_ctx tied_major (took ba_taken) [] ba_taken) d = Ok true -> path_of d <> path_of c -> always_disjoint c = false ->
        (match matches_of (limited_ctx tied_major (took ba_taken) [] ba_taken) c, matches_of (limited_ctx tied_major (took ba_taken) [] ba_taken) d with Ok a, Ok b => In (ICourse x) a /\ In (ICourse x) b | _, _ => False end) ->
        exists d, usable (limited_ctx tied_major (took ba_taken) [] ba_taken) tied_items d /\ d <> c /\ competes (limited_ctx tied_major (took ba_taken) [] ba_taken) c d).
      { clear. intros c d x I P N AD M. exists d. split; [split; auto|]. split; [congruence|]. destruct (matches_of _ c) as [a|] eqn:Ma; [|contradiction]. destruct (matches_of _ d) as [b|] eqn:Mb; [|contradiction].
        split; [exists a, b, (ICourse x); intuition|]. rewrite AD. intros [X _]. discriminate X. }
      destruct Ic as [<-|[<-|[<-|[]]]].
      - apply (P _ (child "%y" (one_of ["A 1"; "C 1"])) (taken "100" "A" full G_S GoSU false)); [right; left; reflexivity|vm_compute; reflexivity|discriminate|vm_compute; reflexivity|vm_compute; auto].
      - apply (P _ (child "%x" (one_of ["A 1"; "B 1"])) (taken "100" "A" full G_S GoSU false)); [left; reflexivity|vm_compute; reflexivity|discriminate|vm_compute; reflexivity|vm_compute; auto].
      - apply (P _ (child "%y" (one_of ["A 1"; "C 1"])) (taken "300" "C" full G_S GoSU false)); [right; left; reflexivity|vm_compute; reflexivity|discriminate|vm_compute; reflexivity|vm_compute; auto]. }
    destruct X as [d [U [N K]]]. destruct H as [H|[_ H]]; [exact (N (H d U))|exact (H d U N K)].
  - vm_compute. reflexivity.
  - vm_compute. reflexivity.
Qed.
(** A major whose own requirements can be met *)
Example own_example :
  let u := one_rule "major" clash (map need ["A 1"; "A 1"]) in
  can_be_passed same_order u (took three) [] /\ g_exn (area_solutions same_order keep u (took three) []) = None /\
  map (status_in u) (g_items (area_solutions same_order keep u (took three) [])) = [Some NeedsMoreItems; Some Done].
Proof. split; [exact clash_can_be_passed|]. split; vm_compute; reflexivity. Qed.
