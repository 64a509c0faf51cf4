(** C152, further: areas whose top rule is solved as a whole, whatever it asks for. *)
From Coq Require Import List ZArith QArith Bool String Permutation Lia.
From Verif Require Import Transcript Prelude Dec Status Course Claims Exceptions Op Context CondExpr Paths Predicate Limit Apply Assertion Query CourseRule Tree Solve Driver Area.
From Verif Require Import ListFacts LimitSpec ClaimsSpec AssertionSpec PathsSpec QuerySpec CourseRuleSpec TreeSpec TreeSolSpec TreeAskSpec TreeAuditSpec SolveSpec PlanSpec AreaSpec.
From Verif Require Import TreeProofs TreeSolProofs SolveProofs SolveProps AreaProofs AreaProps PlanProofs PlanTop PlanProps MajorProps TreeSolProps CourseRuleProps TreeStatusProps TreeAskProps RunSpec RunProps StudentSpec StudentLoad Run LimitProps PathsProofs.
Import ListNotations.
Local Open Scope list_scope.

(** no child of the top rule is solved apart from the rest *)
Inductive whole (cx : ctx) : node -> Prop :=
| wh_count k i items : siblings items -> (0 <= n_count i)%Z -> unseparated cx i items -> whole cx (NCount k i items)
| wh_other n : (forall k i items, n <> NCount k i items) -> (forall k i b f, n <> NCond k i b f) -> whole cx n.
Lemma whole_solutions ord nord cx t n : (forall x, Permutation (nord x) x) -> whole cx n -> g_exn (fst (top_solutions ord nord cx t n)) = None ->
  top_solutions ord nord cx t n = (solutions ord cx n, t).
Proof.
  intros NO W G. destruct W as [k i items SI C0 U|n N1 N2].
  - cbn [top_solutions] in *. destruct (unseparated_solutions ord nord cx t k i items NO SI U G) as [A B]. destruct (top_count_solutions ord nord cx t i items) as [g t']. cbn in *. congruence.
  - apply (proj1 (proj2 top_solutions_otherwise)); assumption.
Qed.
(** What such a rule can be met with is found at the top as below it. *)
Theorem what_can_be_met_is_found_at_a_whole_top :
  forall ord nord cx l n ks t, (forall x, Permutation (nord x) x) -> cx_exc cx = group_exceptions l -> listable ord cx l n -> orderly n ->
  whole cx n -> meets ord cx l n ks -> NoDup ks -> g_exn (fst (top_solutions ord nord cx t n)) = None ->
  snd (top_solutions ord nord cx t n) = t /\
  exists s, In s (g_items (fst (top_solutions ord nord cx t n))) /\
    forall t0, unclaimed t0 ks -> exists r t', audit ord cx t0 s = Ok (r, t') /\ complete (status_of r).
Proof.
  intros ord nord cx l n ks t NO EX LI OR W ME ND G. rewrite (whole_solutions ord nord cx t n NO W G). split; [reflexivity|].
  destruct (a_plan_is_a_solution ord cx l n ks EX LI OR ME ND) as [s [I A]]. exists s. split; [exact I|].
  intros t0 U. destruct (A t0 U) as [r [t' [AU [C _]]]]. eauto.
Qed.
Print Assumptions what_can_be_met_is_found_at_a_whole_top.

(** the top rule can be met with finished classes of some limited transcript *)
Definition passable_as_a_whole (ord : list course -> list course) (u : study) (st : student) (es : list exc) : Prop :=
  exists lt ks, In lt (g_items (transcripts ord u st es)) /\ orderly (u_result u) /\ NoDup ks /\
    (forall lt', In lt' (g_items (transcripts ord u st es)) -> whole (limited_ctx u st es lt') (u_result u)) /\
    let cx := limited_ctx u st es lt in listable ord cx es (u_result u) /\ meets ord cx es (u_result u) ks.
Lemma whole_found ord nord u st es : (forall x, Permutation (nord x) x) ->
  passable_as_a_whole ord u st es -> g_exn (area_solutions ord nord u st es) = None ->
  exists z r t', In z (g_items (area_solutions ord nord u st es)) /\ audit ord (z_ctx z) (z_claims z) (z_sol z) = Ok (r, t') /\ complete (status_of r).
Proof.
  intros NO [lt [ks [IL [OR [ND [W [LI ME]]]]]]] GE. destruct (area_solutions_exact ord nord u st es GE) as [_ FT].
  assert (SOME : forall lt' t, In lt' (g_items (transcripts ord u st es)) -> g_exn (fst (top_solutions ord nord (limited_ctx u st es lt') [] (u_result u))) = None ->
     g_items (fst (top_solutions ord nord (limited_ctx u st es lt') [] (u_result u))) <> [] \/ snd (top_solutions ord nord (limited_ctx u st es lt') t (u_result u)) = t).
  { intros lt' t I N. destruct (W lt' I) as [k i items SI C0 U|n N1 N2].
    - left. cbn [top_solutions] in *. eapply (top_count_some ord nord _ es); eauto.
    - right. rewrite (proj1 (proj2 top_solutions_otherwise) ord nord _ t n N1 N2). reflexivity. }
  destruct (transcripts_in ord nord u st es lt _ _ _ IL SOME FT eq_refl) as [ys [t' [[G [MZ [CX X]]] IN]]]. clear SOME.
  destruct (what_can_be_met_is_found_at_a_whole_top ord nord (limited_ctx u st es lt) es (u_result u) ks [] NO eq_refl LI OR (W lt IL) ME ND G) as [T [s [Is A]]].
  rewrite <- MZ in Is. apply in_map_iff in Is. destruct Is as [z [<- Iz]]. rewrite Forall_forall in CX. assert (EC := CX z Iz).
  assert (ZC : z_claims z = []).
  { destruct ys as [|z0 ys]; [destruct Iz|]. destruct X as [X1 [X2 _]]. destruct Iz as [<-|Iz]; [rewrite X1; exact T|]. rewrite Forall_forall in X2. apply X2, Iz. }
  destruct (A [] (fun k _ => eq_refl)) as [r [t1 [AU C]]]. exists z, r, t1. split; [apply IN, Iz|]. rewrite EC, ZC. auto.
Qed.
Theorem an_area_met_as_a_whole_has_a_solution :
  forall ord nord u st es, (forall x, Permutation (nord x) x) -> u_kind u <> "major"%string ->
  passable_as_a_whole ord u st es -> g_exn (area_solutions ord nord u st es) = None ->
  exists z v rest, In z (g_items (area_solutions ord nord u st es)) /\ area_audit ord u z = Ok (v, rest) /\ complete (area_status v).
Proof.
  intros ord nord u st es NO NM CP GE. destruct (whole_found ord nord u st es NO CP GE) as [z [r [t1 [IN [AU C]]]]].
  exists z, (mkAres u (z_ctx z) r), t1. split; [exact IN|]. split.
  - apply area_audit_exact. exists r. split; [exact AU|]. split; [reflexivity|]. split; [reflexivity|]. left. split; [exact NM|reflexivity].
  - unfold area_status. cbn [v_result]. destruct (node_waived r); [right; reflexivity|exact C].
Qed.
Print Assumptions an_area_met_as_a_whole_has_a_solution.
(** A run of any area one of whose solutions is complete ends with a complete result. *)
Theorem a_run_reports_a_complete_solution :
  forall tord ord nord sw args d xs s tr,
  (forall l, Permutation (tord l) l) ->
  ar_progress_every args <> 0%Z -> ar_audit_each args = 1%Z -> ar_stop_after args = None ->
  ar_print_all args = false -> ar_print_only args = [] -> ar_estimate_only args = false ->
  (forall es st k u, audits_area sw d xs s es st k u ->
     exists z v rest, In z (g_items (area_solutions ord nord u (sl_student st) es)) /\ area_audit ord u z = Ok (v, rest) /\ complete (area_status v)) ->
  run tord ord nord sw args d xs s = Ok (ShAudit tr) -> snd tr = None ->
  exists before v j n t, fst tr = (before ++ [ESay (MResult v j n t)])%list /\ complete (area_status v).
Proof.
  intros tord ord nord sw args d xs s tr PT PE AE SA PA PO EO H R N.
  destruct (the_last_result_is_the_best tord ord nord sw args d xs s tr PT PE AE SA PA PO EO R N) as [es [st [k [u [AA [before [said [E B]]]]]]]].
  destruct (H es st k u AA) as [z [v [rest [Iz [A C]]]]].
  destruct B as [[B _]|[z0 [v0 [rest0 [q [m [j [n [t [I0 [A0 [R0 [-> B]]]]]]]]]]]]]; [rewrite B in Iz; destruct Iz|].
  exists before, v0, j, n, t. split; [exact E|]. destruct B as [B|B]; [exact B|].
  destruct (B z Iz) as [v' [rest' [q' [m' [A' [_ [NC _]]]]]]]. rewrite A in A'. injection A' as <- <-. contradiction.
Qed.
Print Assumptions a_run_reports_a_complete_solution.
Theorem a_run_finds_what_can_be_met_as_a_whole :
  forall tord ord nord sw args d xs s tr,
  (forall l, Permutation (tord l) l) -> (forall x, Permutation (nord x) x) ->
  ar_progress_every args <> 0%Z -> ar_audit_each args = 1%Z -> ar_stop_after args = None ->
  ar_print_all args = false -> ar_print_only args = [] -> ar_estimate_only args = false ->
  (forall es st k u, audits_area sw d xs s es st k u ->
     u_kind u <> "major"%string /\ passable_as_a_whole ord u (sl_student st) es /\ g_exn (area_solutions ord nord u (sl_student st) es) = None) ->
  run tord ord nord sw args d xs s = Ok (ShAudit tr) -> snd tr = None ->
  exists before v j n t, fst tr = (before ++ [ESay (MResult v j n t)])%list /\ complete (area_status v).
Proof.
  intros tord ord nord sw args d xs s tr PT NO PE AE SA PA PO EO H R N.
  apply (a_run_reports_a_complete_solution tord ord nord sw args d xs s tr PT PE AE SA PA PO EO); [|exact R|exact N].
  intros es st k u AA. destruct (H es st k u AA) as [M [P G]]. apply an_area_met_as_a_whole_has_a_solution; assumption.
Qed.
Print Assumptions a_run_finds_what_can_be_met_as_a_whole.

(** ** Examples *)

(** one of: "a" (A 1 and B 1), "y" (A 1); A 1 and C 1 were taken. Both compete for A 1. *)
Definition either : count_info := mkCount ["$"; ".count"]%string false 1 false [].
Definition either_area : study := one_rule "concentration" (NCount KRule either [a_child; y_child]) [].
Definition either_ctx : ctx := limited_ctx either_area (took two_taken) [] two_taken.
Lemma either_A : meets same_order either_ctx [] (named "A 1") ["100"%string] /\ promising either_ctx [] (named "A 1").
Proof. exact (named_meets same_order either_ctx "A 1" (mk_simple "100" "A" "1") ltac:(left; reflexivity) eq_refl eq_refl eq_refl). Qed.
Lemma either_siblings : siblings [a_child; y_child].
Proof. split; [repeat constructor; cbn; intuition discriminate|repeat (apply Forall_cons || apply Forall_nil); right; intros t D; discriminate]. Qed.
Lemma either_whole : unseparated either_ctx either [a_child; y_child].
Proof.
  right. right. intros c [[Ic _] H].
  assert (X : exists d, usable either_ctx [a_child; y_child] d /\ d <> c /\ competes either_ctx c d).
  { assert (P : forall c d x, In d [a_child; y_child] -> potential either_ctx d = Ok true -> path_of d <> path_of c -> always_disjoint c = false ->
      (match matches_of either_ctx c, matches_of either_ctx d with Ok a, Ok b => In (ICourse x) a /\ In (ICourse x) b | _, _ => False end) ->
      exists d, usable either_ctx [a_child; y_child] d /\ d <> c /\ competes either_ctx c d).
    { clear. intros c d x I P N AD M. exists d. split; [split; auto|]. split; [congruence|]. destruct (matches_of _ c) as [a|] eqn:Ma; [|contradiction]. destruct (matches_of _ d) as [b|] eqn:Mb; [|contradiction].
      split; [exists a, b, (ICourse x); intuition|]. rewrite AD. intros [X _]. discriminate X. }
    destruct Ic as [<-|[<-|[]]].
    - apply (P _ y_child (mk_simple "100" "A" "1")); [right; left; reflexivity|vm_compute; reflexivity|discriminate|vm_compute; reflexivity|vm_compute; auto].
    - apply (P _ a_child (mk_simple "100" "A" "1")); [left; reflexivity|vm_compute; reflexivity|discriminate|vm_compute; reflexivity|vm_compute; auto]. }
  destruct X as [d [U [N K]]]. destruct H as [H|[_ H]]; [exact (N (H d U))|exact (H d U N K)].
Qed.
Example either_example :
  u_kind either_area <> "major"%string /\ passable_as_a_whole same_order either_area (took two_taken) [] /\
  g_exn (area_solutions same_order keep either_area (took two_taken) []) = None /\
  map (status_in either_area) (g_items (area_solutions same_order keep either_area (took two_taken) [])) = [Some NeedsMoreItems; Some Done; Some NeedsMoreItems].
Proof.
  split; [discriminate|]. split; [|split; vm_compute; reflexivity]. assert (A := either_A).
  exists two_taken, ["100"%string]. split; [vm_compute; auto|]. split; [|split; [repeat constructor; cbn; intuition discriminate|split; [|split]]].
  - split; [|split].
    + intros r P. cbn [u_result either_area one_rule] in P. unfold a_child, all_of, y_child, child, rules, named in P. destruct P as [[k P]|[k [i [k' P]]]]; parts; intro P'; destruct (P' eq_refl).
    + intros x P. apply (EstimateProps.all_parts_in (fun x => match kind_of x with KRule => true | _ => false end)) in P; [|vm_compute; reflexivity].
      destruct (kind_of x); [reflexivity|discriminate|discriminate].
    + intros k i items P. cbn [u_result either_area one_rule] in P. unfold a_child, all_of, y_child, child, rules, named in P. parts.
      all: split; [repeat constructor; cbn; intuition discriminate|repeat (apply Forall_cons || apply Forall_nil); right; intros t D; discriminate].
  - intros lt I. assert (E : g_items (transcripts same_order either_area (took two_taken) []) = [two_taken]) by (vm_compute; reflexivity).
    rewrite E in I. destruct I as [<-|[]]. apply wh_count; [exact either_siblings|discriminate|exact either_whole].
  - apply li_count; [apply no_waiver|cbn; lia|]. intros c J. right. destruct J as [<-|[<-|[]]]; (split; [vm_compute; reflexivity|]; split; [apply li_req|intro B; inversion B as [| |? ? ? ? B']; inversion B']).
    + apply li_count; [apply no_waiver|cbn; lia|]. intros c [<-|[<-|[]]]; [right|left; vm_compute; reflexivity].
      split; [vm_compute; reflexivity|]. split; [apply li_course; vm_compute; reflexivity|intro B; inversion B].
    + apply li_course; vm_compute; reflexivity.
  - change ["100"%string] with (flat_map used_by (filter (fun c => negb (String.eqb (List.last (path_of c) ""%string) "%a")) [a_child; y_child])).
    apply (me_count same_order either_ctx [] KRule either _ _ _ 2 1); [apply no_waiver|reflexivity| | | | | | |cbn; lia|lia].
    + intros c [<-|[<-|[]]] E; [discriminate E|]; (apply pr_req; [reflexivity|]); apply A.
    + intros c [<-|[<-|[]]] E; [discriminate E|]; (apply me_req; [apply no_waiver|reflexivity|]); apply A.
    + intros c [<-|[<-|[]]] E; [|discriminate E]. split; [discriminate|]. intro P. destruct P as [P|[P|P]]; [exact P|discriminate P|discriminate P].
    + apply t_yes; [apply pr_req; [reflexivity|]; eapply pr_count; [left; reflexivity|apply A]|]. apply t_yes; [apply pr_req; [reflexivity|apply A]|]. constructor.
    + left. cbn. lia.
    + apply t_no; [intros [P|P]; [discriminate P|destruct P; discriminate]|]. apply t_yes; [left; reflexivity|]. constructor.
Qed.
