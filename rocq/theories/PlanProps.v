(** Property theorems about what the search finds (C152, C153). *)
From Coq Require Import List ZArith QArith Bool String Lia Sorted Permutation.
From Verif Require Import Transcript Prelude Dec Status Course Claims Exceptions Op Context CondExpr Paths Predicate Limit Apply Assertion Query CourseRule Tree Solve Driver Area StudentLoad Run.
From Verif Require Import ListFacts LimitSpec LimitProps ClaimsSpec ClaimsProofs AssertionSpec PathsSpec PathsProofs PredicateProofs ExceptionsProofs EnumSpec QuerySpec CourseRuleSpec CourseRuleProps TreeSpec TreeProofs TreeStatusProps TreeSolSpec TreeSolProofs TreeSolProps TreeAskSpec TreeAskProps TreeAuditSpec TreeAuditProofs SolveSpec SolveProofs SolveProps AreaSpec AreaProps RunSpec RunProps StudentSpec StudentProps PlanSpec PlanProofs PlanTop.
Import ListNotations.
Local Open Scope list_scope.

(** ** C152 *)

(** A rule that can be met with finished classes is found to be met: when the search for its
    best solution ends, the result is complete. *)
Theorem what_can_be_met_is_found :
  forall ord cx l n ks t merge best t', cx_exc cx = group_exceptions l -> listable ord cx l n -> orderly n ->
  meets ord cx l n ks -> NoDup ks -> find_best_solution ord cx t n merge = Ok (best, t') ->
  exists r, best = Some r /\ complete (status_of r).
Proof.
  intros ord cx l n ks t merge best t' EX LI OR ME ND F.
  destruct (proj1 (find_best_exact ord cx t n merge best) (ex_intro _ t' F)) as [[r [own [last [-> S]]]]|[-> [-> E]]].
  - exists r. split; [reflexivity|]. eapply selected_complete; eauto.
  - destruct (plan_is_offered ord cx l EX n ks ME LI OR ND) as [s [I _]]. rewrite E in I. destruct I.
Qed.
Print Assumptions what_can_be_met_is_found.
(** The plan itself is among the solutions: wherever its classes are free, auditing it gives a
    complete result that uses them and records no other class. *)
Theorem a_plan_is_a_solution :
  forall ord cx l n ks, cx_exc cx = group_exceptions l -> listable ord cx l n -> orderly n -> meets ord cx l n ks -> NoDup ks ->
  exists s, In s (g_items (solutions ord cx n)) /\
    forall t, unclaimed t ks -> exists r t', audit ord cx t s = Ok (r, t') /\ complete (status_of r) /\
      (forall k, ~ In k ks -> dget t' k = dget t k) /\
      (forall k, In k ks -> exists cl, In cl (claims_of r) /\ c_clbid (cl_course cl) = k).
Proof. intros ord cx l n ks EX LI OR ME ND. exact (plan_is_offered ord cx l EX n ks ME LI OR ND). Qed.
Print Assumptions a_plan_is_a_solution.

(** At the top, children that compete with no other are solved on their own first. If all
    children are asked for, this loses nothing. *)
Theorem all_met_at_the_top :
  forall ord nord cx l i items, (forall x, Permutation (nord x) x) -> set_order ord -> cx_exc cx = group_exceptions l ->
  orderly (NCount KRule i items) -> fair cx l items -> all_met ord cx l i items ->
  let g := top_count_solutions ord nord cx [] i items in
  g_exn (fst g) = None ->
  exists s, In s (g_items (fst g)) /\
    forall t, t = [] \/ t = snd g -> exists r t', audit ord cx t s = Ok (r, t') /\ complete (status_of r).
Proof.
  intros ord nord cx l i items NO SO EX OR [UN [HON ID]] [W [NA [CNT [NE [a [ME ND]]]]]] g GE.
  assert (SI : siblings items) by (apply (proj2 (proj2 OR) KRule i); constructor).
  assert (WV : waived cx (n_path i) = false) by (apply (waived_no cx l _ EX); exact W).
  assert (NDP : NoDup items) by (apply (NoDup_map_inv path_of), SI).
  assert (AN := top_answers ord nord cx [] i items (proj1 SI) WV GE).
  assert (USE : forall c, In c items -> usable cx items c).
  { intros c I. split; [exact I|]. destruct (AN c I) as [b E]. rewrite E. f_equal. apply (potential_exact cx l c b EX (proj1 (orderly_item _ _ _ _ OR I)) E). apply ME, I. }
  assert (US : exists c, usable cx items c) by (destruct items as [|c0 rest]; [congruence|]; exists c0; apply USE; simpl; auto).
  destruct (top_solutions_claims ord nord cx [] i items NO SI WV NA US GE) as [cs [_ [_ [IND _]]]].
  set (apart := fun c => in_nodes c cs).
  assert (AP : forall c, In c items -> (apart c = true <-> independent cx items c)).
  { intros c I. rewrite <- IND. unfold apart, in_nodes. rewrite path_in_iff. split; [|apply in_map].
    intro J. apply in_map_iff in J. destruct J as [d [E J]]. replace c with d; [exact J|]. apply IND in J. eapply same_sibling; [apply SI|apply J|exact I|exact E]. }
  set (n := List.length (filter (fun c => negb (apart c)) items)).
  assert (LEN : (n <= List.length items)%nat) by apply filter_le.
  apply (top_plan_is_offered ord nord cx l i items NO SO EX OR ltac:(lia) W NA US UN HON ID apart (fun _ => true) a n (List.length items)).
  - exact AP.
  - intros c [I _]. apply ME, I.
  - intros c I _. split; [apply ME, I|]. eapply nodup_one; eauto.
  - intros c I _ _. split; apply ME, I.
  - intros c I _ H. discriminate.
  - apply nodup_flat. exact ND.
  - apply tally_filter. intros c I. rewrite negb_true_iff. split; [tauto|]. intro H. split; [apply ME, I|exact H].
  - cbn [andb]. fold n. unfold fits. destruct (Nat.eq_dec n (List.length items)) as [E|E]; [left|right]; rewrite CNT; lia.
  - rewrite <- (filter_all (fun _ => true) items) at 2 by auto. apply tally_filter. intros; tauto.
  - lia.
  - destruct items; [congruence|cbn; lia].
  - exact GE.
Qed.
Print Assumptions all_met_at_the_top.

(** ** the area *)
(** some limited transcript meets all that the area asks for *)
Definition can_be_passed (ord : list course -> list course) (u : study) (st : student) (es : list exc) : Prop :=
  exists i items lt, u_result u = NCount KRule i items /\ orderly (u_result u) /\ In lt (g_items (transcripts ord u st es)) /\
    let cx := limited_ctx u st es lt in fair cx es items /\ all_met ord cx es i items.
Lemma transcripts_in ord nord u st es lt lts zs b : In lt lts ->
  (forall lt' t, In lt' lts -> g_exn (fst (top_solutions ord nord (limited_ctx u st es lt') [] (u_result u))) = None ->
     g_items (fst (top_solutions ord nord (limited_ctx u st es lt') [] (u_result u))) <> [] \/ snd (top_solutions ord nord (limited_ctx u st es lt') t (u_result u)) = t) ->
  for_transcripts ord nord u st es b lts zs -> b = [] ->
  exists ys t', for_transcript ord nord u st es [] lt ys t' /\ incl ys zs.
Proof.
  intros I H F. induction F as [|t lt0 lts ys t' rest F1 F2 IH]; intros ->; [destruct I|].
  destruct I as [->|I]; [exists ys, t'; split; [exact F1|intros x J; apply in_or_app; auto]|].
  assert (E : t' = []).
  { destruct F1 as [G [M [_ X]]]. destruct ys as [|z ys]; [|apply X]. rewrite X. destruct (H lt0 [] (or_introl eq_refl) G) as [Y|Y]; [|exact Y]. cbn in M. congruence. }
  destruct (IH I (fun lt' t I' => H lt' t (or_intror I')) E) as [ys' [t'' [F3 IN]]]. exists ys', t''. split; [exact F3|]. intros x J. apply in_or_app. auto.
Qed.
(** If listing the solutions of an area raises nothing, what it asks for itself is complete in
    one of them. *)
Lemma own_requirements_found ord nord u st es : (forall x, Permutation (nord x) x) -> set_order ord ->
  can_be_passed ord u st es -> g_exn (area_solutions ord nord u st es) = None ->
  exists z r t', In z (g_items (area_solutions ord nord u st es)) /\ audit ord (z_ctx z) (z_claims z) (z_sol z) = Ok (r, t') /\ complete (status_of r).
Proof.
  intros NO SO [i [items [lt [UR [OR [IL [FA AM]]]]]]] GE. rewrite UR in OR.
  destruct (area_solutions_exact ord nord u st es GE) as [_ FT].
  assert (SI : siblings items) by (apply (proj2 (proj2 OR) KRule i); constructor).
  assert (C0 : (0 <= n_count i)%Z) by (destruct AM as [_ [_ [-> _]]]; lia).
  assert (SOME : forall lt' t, In lt' (g_items (transcripts ord u st es)) -> g_exn (fst (top_solutions ord nord (limited_ctx u st es lt') [] (u_result u))) = None ->
     g_items (fst (top_solutions ord nord (limited_ctx u st es lt') [] (u_result u))) <> [] \/ snd (top_solutions ord nord (limited_ctx u st es lt') t (u_result u)) = t).
  { intros lt' t _ N. left. rewrite UR in *. cbn [top_solutions] in *. eapply (top_count_some ord nord _ es); eauto. }
  destruct (transcripts_in ord nord u st es lt _ _ _ IL SOME FT eq_refl) as [ys [t' [[G [MZ [CX X]]] IN]]]. clear SOME.
  rewrite UR in *. cbn [top_solutions] in *.
  destruct (all_met_at_the_top ord nord (limited_ctx u st es lt) es i items NO SO eq_refl OR FA AM G) as [s [Is A]].
  rewrite <- MZ in Is. apply in_map_iff in Is. destruct Is as [z [<- Iz]]. rewrite Forall_forall in CX. assert (EC := CX z Iz).
  assert (ZC : z_claims z = [] \/ z_claims z = snd (top_count_solutions ord nord (limited_ctx u st es lt) [] i items)).
  { destruct ys as [|z0 ys]; [destruct Iz|]. destruct X as [X1 [X2 _]]. destruct Iz as [<-|Iz]; [right; exact X1|left]. rewrite Forall_forall in X2. apply X2, Iz. }
  destruct (A _ ZC) as [r [t1 [AU C]]]. rewrite <- EC in AU.
  exists z, r, t1. split; [apply IN, Iz|]. split; [exact AU|exact C].
Qed.
(** If listing the solutions of an area that is not a major raises nothing, one of them is
    complete. *)
Theorem an_area_that_can_be_passed_has_a_solution :
  forall ord nord u st es, (forall x, Permutation (nord x) x) -> set_order ord -> u_kind u <> "major"%string ->
  can_be_passed ord u st es -> g_exn (area_solutions ord nord u st es) = None ->
  exists z v rest, In z (g_items (area_solutions ord nord u st es)) /\ area_audit ord u z = Ok (v, rest) /\ complete (area_status v).
Proof.
  intros ord nord u st es NO SO NM CP GE. destruct (own_requirements_found ord nord u st es NO SO CP GE) as [z [r [t1 [IN [AU C]]]]].
  exists z, (mkAres u (z_ctx z) r), t1. split; [exact IN|]. split.
  - apply area_audit_exact. exists r. split; [exact AU|]. split; [reflexivity|]. split; [reflexivity|]. left. split; [exact NM|reflexivity].
  - unfold area_status. cbn [v_result]. destruct (node_waived r); [right; reflexivity|exact C].
Qed.
Print Assumptions an_area_that_can_be_passed_has_a_solution.
(** And the run ends by reporting a complete result. *)
Theorem a_run_finds_what_can_be_passed :
  forall tord ord nord sw args d xs s tr,
  (forall l, Permutation (tord l) l) -> (forall x, Permutation (nord x) x) -> set_order ord ->
  ar_progress_every args <> 0%Z -> ar_audit_each args = 1%Z -> ar_stop_after args = None ->
  ar_print_all args = false -> ar_print_only args = [] -> ar_estimate_only args = false ->
  (forall es st k u, audits_area sw d xs s es st k u ->
     u_kind u <> "major"%string /\ can_be_passed ord u (sl_student st) es /\ g_exn (area_solutions ord nord u (sl_student st) es) = None) ->
  run tord ord nord sw args d xs s = Ok (ShAudit tr) -> snd tr = None ->
  exists before v j n t, fst tr = (before ++ [ESay (MResult v j n t)])%list /\ complete (area_status v).
Proof.
  intros tord ord nord sw args d xs s tr PT NO SO PE AE SA PA PO EO H R N.
  destruct (the_last_result_is_the_best tord ord nord sw args d xs s tr PT PE AE SA PA PO EO R N) as [es [st [k [u [AA [before [said [E B]]]]]]]].
  destruct (H es st k u AA) as [NM [CP GE]]. destruct (an_area_that_can_be_passed_has_a_solution ord nord u _ es NO SO NM CP GE) as [z [v [rest [Iz [A C]]]]].
  destruct B as [[B _]|[z0 [v0 [rest0 [q [m [j [n [t [I0 [A0 [R0 [-> B]]]]]]]]]]]]]; [rewrite B in Iz; destruct Iz|].
  exists before, v0, j, n, t. split; [exact E|]. destruct B as [B|B]; [exact B|].
  destruct (B z Iz) as [v' [rest' [q' [m' [A' [_ [NC _]]]]]]]. rewrite A in A'. injection A' as <- <-. contradiction.
Qed.
Print Assumptions a_run_finds_what_can_be_passed.

(** In the sample area "x" may use A 1 or B 1, "y" needs A 1, and "z" needs C 1. With the three
    courses taken there is one way to meet all: "x" with B 1. *)
Lemma no_waiver p : ~ waived_at [] p.
Proof. intro W. apply W. intros x []. Qed.
Definition by_name (n : string) : crule := match named n with NCourse _ r => r | _ => leaf n false None end.
Lemma named_meets ord cx n c : In c (cx_transcript cx) -> c_identity c = n -> c_stolaf c = true -> c_in_progress c = false ->
  meets ord cx [] (named n) [c_clbid c] /\ promising cx [] (named n).
Proof.
  intros I E S P. change (named n) with (NCourse KRule (by_name n)). assert (F : finds cx (by_name n) c).
  { right. split; [left; reflexivity|]. split; [exact I|]. split; [auto|]. split; [intros y H; discriminate H|].
    split; [intros id H; injection H as <-; split; [exact E|]; split; [discriminate|split; [discriminate|discriminate]]|].
    split; [intros y H; discriminate H|]. split; [intros y H; discriminate H|discriminate]. }
  split.
  - apply (me_course ord cx [] KRule (by_name n) c); [reflexivity|apply no_waiver|exact F| |exact P].
    split; [intros []|]. split; [discriminate|intros y H; discriminate H].
  - apply pr_course. right. right. exists c. exact F.
Qed.
Definition clash_ctx : ctx := limited_ctx (one_rule "concentration" clash []) (took three) [] three.
Definition used_by (c : node) : list string :=
  match path_of c with
  | [_; _; p] => if String.eqb p "%x" then ["200"%string] else if String.eqb p "%y" then ["100"%string] else ["300"%string]
  | _ => []
  end.
Definition x_child : node := child "%x" (one_of ["A 1"%string; "B 1"%string]).
Definition y_child : node := child "%y" (named "A 1").
Definition z_child : node := child "%z" (named "C 1").
Ltac parts := repeat (match goal with
  | H : In _ (_ :: _) |- _ => destruct H as [<-|H]
  | H : In _ [] |- _ => destruct H
  | H : part_of (NCourse _ _) _ |- _ => inversion H; clear H; subst
  | H : part_of (NCount _ _ _) _ |- _ => inversion H; clear H; subst
  | H : part_of (NReq _ _ _) _ |- _ => inversion H; clear H; subst
  end).
Lemma clash_orderly : orderly clash.
Proof.
  change clash with (all_of [x_child; y_child; z_child]). split; [|split].
  - intros r H. unfold all_of, rules, x_child, y_child, z_child, child, one_of, rules, named in H. cbn [map] in H. destruct H as [[k P]|[k [i [k' P]]]]; parts; intro H; destruct (H eq_refl).
  - intros x P. apply (EstimateProps.all_parts_in (fun x => match kind_of x with KRule => true | _ => false end)) in P; [|vm_compute; reflexivity].
    destruct (kind_of x); [reflexivity|discriminate|discriminate].
  - intros k i items P. unfold all_of, rules, x_child, y_child, z_child, child, one_of, rules, named in P. cbn [map] in P. parts.
    all: split; [repeat constructor; cbn; intuition discriminate|repeat (apply Forall_cons || apply Forall_nil); right; intros t D; discriminate].
Qed.
Lemma clash_children c : In c [x_child; y_child; z_child] ->
  promising clash_ctx [] c /\ listable same_order clash_ctx [] c /\ meets same_order clash_ctx [] c (used_by c).
Proof.
  assert (A := named_meets same_order clash_ctx "A 1" (mk_simple "100" "A" "1") ltac:(left; reflexivity) eq_refl eq_refl eq_refl).
  assert (B := named_meets same_order clash_ctx "B 1" (mk_simple "200" "B" "1") ltac:(right; left; reflexivity) eq_refl eq_refl eq_refl).
  assert (C := named_meets same_order clash_ctx "C 1" (mk_simple "300" "C" "1") ltac:(right; right; left; reflexivity) eq_refl eq_refl eq_refl).
  intros [<-|[<-|[<-|[]]]].
  - split; [apply pr_req; [reflexivity|]; eapply pr_count; [left; reflexivity|apply A]|]. split.
    + apply li_req. apply li_count; [apply no_waiver|cbn; lia|]. intros c [<-|[<-|[]]]; right; (split; [vm_compute; reflexivity|]; split; [apply li_course; vm_compute; reflexivity|intro H; inversion H]).
    + apply me_req; [apply no_waiver|reflexivity|].
      change (used_by x_child) with (flat_map (fun _ : node => ["200"%string]) (filter (fun c => String.eqb (List.last (path_of c) ""%string) "*B 1") (map named ["A 1"%string; "B 1"%string]))).
      apply (me_count same_order clash_ctx [] KRule _ _ _ _ 2 1); [apply no_waiver|reflexivity| | | | | | | |lia].
      * intros c [<-|[<-|[]]] E; [apply A|apply B].
      * intros c [<-|[<-|[]]] E; [discriminate E|apply B].
      * intros c [<-|[<-|[]]] E; [|discriminate E]. split; [discriminate|]. intro H. destruct H as [H|[H|H]]; [exact H|discriminate H|discriminate H].
      * apply t_yes; [apply A|]. apply t_yes; [apply B|]. constructor.
      * left. cbn. lia.
      * apply t_no; [intros [H|H]; [discriminate H|destruct H; discriminate]|]. apply t_yes; [left; reflexivity|]. constructor.
      * cbn. lia.
  - split; [apply pr_req; [reflexivity|apply A]|]. split; [apply li_req, li_course; vm_compute; reflexivity|]. apply me_req; [apply no_waiver|reflexivity|]. apply A.
  - split; [apply pr_req; [reflexivity|apply C]|]. split; [apply li_req, li_course; vm_compute; reflexivity|]. apply me_req; [apply no_waiver|reflexivity|]. apply C.
Qed.
Lemma clash_fair : fair clash_ctx [] [x_child; y_child; z_child].
Proof.
  split; [|split].
  - intros c I. split.
    + intros x P. assert (K : match kind_of x with KRule => true | _ => false end = true).
      { destruct I as [<-|[<-|[<-|[]]]]; apply (EstimateProps.all_parts_in (fun x => match kind_of x with KRule => true | _ => false end) _ _ P); vm_compute; reflexivity. }
      split; [intro E; rewrite E in K; discriminate|]. intros k i r ->. destruct I as [<-|[<-|[<-|[]]]]; unfold x_child, y_child, z_child, child, one_of, rules, named in P; cbn [map] in P; parts.
    + split.
      * intros r H. destruct I as [<-|[<-|[<-|[]]]]; unfold x_child, y_child, z_child, child, one_of, rules, named in H; cbn [map] in H; destruct H as [[k P]|[k [i [k' P]]]]; parts; (split; [reflexivity|intros x ? ? []]).
      * intros k q P. destruct I as [<-|[<-|[<-|[]]]]; unfold x_child, y_child, z_child, child, one_of, rules, named in P; cbn [map] in P; parts.
  - intros c d [I _] _ _ D. destruct I as [<-|[<-|[<-|[]]]]; discriminate D.
  - intros c d cs ds x y Ic Id Mc Md Ix Iy E.
    assert (H : forall c cs x, In c [x_child; y_child; z_child] -> matches_of clash_ctx c = Ok cs -> In (ICourse x) cs -> In x three).
    { clear. intros c cs x I M J. destruct I as [<-|[<-|[<-|[]]]]; vm_compute in M; injection M as <-; repeat (destruct J as [J|J]; [injection J as <-; vm_compute; auto|]); destruct J. }
    assert (X := H _ _ _ Ic Mc Ix). assert (Y := H _ _ _ Id Md Iy). destruct X as [<-|[<-|[<-|[]]]], Y as [<-|[<-|[<-|[]]]]; try reflexivity; discriminate E.
Qed.
Example clash_can_be_passed : can_be_passed same_order (one_rule "concentration" clash []) (took three) [].
Proof.
  eexists _, [x_child; y_child; z_child], three. split; [reflexivity|]. split; [exact clash_orderly|]. split; [vm_compute; auto|].
  split; [exact clash_fair|]. split; [apply no_waiver|]. split; [reflexivity|]. split; [reflexivity|]. split; [discriminate|].
  exists used_by. split; [exact clash_children|]. cbn. repeat constructor; cbn; intuition discriminate.
Qed.
(** the area's solutions *)
Example clash_example :
  map (status_in (one_rule "concentration" clash [])) (g_items (area_solutions same_order keep (one_rule "concentration" clash []) (took three) [])) = [Some NeedsMoreItems; Some Done].
Proof. vm_compute. reflexivity. Qed.

(** ** Where it fails: "some of" at the top *)

(** At the top the number asked for is looked for among the children that compete with each
    other, although children that compete with none have been solved already. So a rule asking
    for some of its children may be met by an independent child and one competing child, and
    yet not be found to be met. *)
Definition found_at_the_top : Prop :=
  forall ord nord cx l i items ks, (forall x, Permutation (nord x) x) -> set_order ord -> cx_exc cx = group_exceptions l ->
  orderly (NCount KRule i items) -> fair cx l items -> listable ord cx l (NCount KRule i items) ->
  meets ord cx l (NCount KRule i items) ks -> NoDup ks ->
  g_exn (fst (top_count_solutions ord nord cx [] i items)) = None ->
  exists s r t', In s (g_items (fst (top_count_solutions ord nord cx [] i items))) /\ audit ord cx [] s = Ok (r, t') /\ complete (status_of r).
(** two of: "a" (A 1 and B 1), "y" (A 1), "z" (C 1); A 1 and C 1 were taken *)
Definition a_child : node := child "%a" (all_of [named "A 1"; named "B 1"]).
Definition two_taken : list course := [mk_simple "100" "A" "1"; mk_simple "300" "C" "1"].
Definition two_of : count_info := mkCount ["$"; ".count"]%string false 2 false [].
Definition two_ctx : ctx := c_ctx two_taken [].
Lemma two_children : let A := mk_simple "100" "A" "1" in let C := mk_simple "300" "C" "1" in
  (meets same_order two_ctx [] (named "A 1") ["100"%string] /\ promising two_ctx [] (named "A 1")) /\
  (meets same_order two_ctx [] (named "C 1") ["300"%string] /\ promising two_ctx [] (named "C 1")).
Proof.
  split; [exact (named_meets same_order two_ctx "A 1" (mk_simple "100" "A" "1") ltac:(left; reflexivity) eq_refl eq_refl eq_refl)|].
  exact (named_meets same_order two_ctx "C 1" (mk_simple "300" "C" "1") ltac:(right; left; reflexivity) eq_refl eq_refl eq_refl).
Qed.
Theorem found_at_the_top_refuted :
  ~ found_at_the_top /\
  map (status_in (one_rule "concentration" (NCount KRule two_of [a_child; y_child; z_child]) []))
      (g_items (area_solutions same_order keep (one_rule "concentration" (NCount KRule two_of [a_child; y_child; z_child]) []) (took two_taken) [])) = [Some NeedsMoreItems].
Proof.
  split; [|vm_compute; reflexivity]. intro H. destruct two_children as [A C].
  destruct (H same_order keep two_ctx [] two_of [a_child; y_child; z_child] ["100"%string; "300"%string]) as [s [r [t' [I [AU CO]]]]].
  - intro x. apply Permutation_refl.
  - intro x. apply Permutation_refl.
  - reflexivity.
  - split; [|split].
    + intros r P. unfold a_child, all_of, y_child, z_child, child, rules, named in P. destruct P as [[k P]|[k [i [k' P]]]]; parts; intro P'; destruct (P' eq_refl).
    + intros x P. apply (EstimateProps.all_parts_in (fun x => match kind_of x with KRule => true | _ => false end)) in P; [|vm_compute; reflexivity].
      destruct (kind_of x); [reflexivity|discriminate|discriminate].
    + intros k i items P. unfold a_child, all_of, y_child, z_child, child, rules, named in P. parts.
      all: split; [repeat constructor; cbn; intuition discriminate|repeat (apply Forall_cons || apply Forall_nil); right; intros t D; discriminate].
  - split; [|split].
    + intros c J. split.
      * intros x P. assert (K : match kind_of x with KRule => true | _ => false end = true).
        { destruct J as [<-|[<-|[<-|[]]]]; apply (EstimateProps.all_parts_in (fun x => match kind_of x with KRule => true | _ => false end) _ _ P); vm_compute; reflexivity. }
        split; [intro E; rewrite E in K; discriminate|]. intros k i r ->. destruct J as [<-|[<-|[<-|[]]]]; unfold a_child, all_of, y_child, z_child, child, rules, named in P; parts.
      * split.
        -- intros r P. destruct J as [<-|[<-|[<-|[]]]]; unfold a_child, all_of, y_child, z_child, child, rules, named in P; destruct P as [[k P]|[k [i [k' P]]]]; parts; (split; [reflexivity|intros x ? ? []]).
        -- intros k q P. destruct J as [<-|[<-|[<-|[]]]]; unfold a_child, all_of, y_child, z_child, child, rules, named in P; parts.
    + intros c d [J _] _ _ D. destruct J as [<-|[<-|[<-|[]]]]; discriminate D.
    + intros c d cs ds x y Ic Id Mc Md Ix Iy E.
      assert (HH : forall c cs x, In c [a_child; y_child; z_child] -> matches_of two_ctx c = Ok cs -> In (ICourse x) cs -> In x two_taken).
      { clear. intros c cs x I M J. destruct I as [<-|[<-|[<-|[]]]]; vm_compute in M; injection M as <-; repeat (destruct J as [J|J]; [injection J as <-; vm_compute; auto|]); destruct J. }
      assert (X := HH _ _ _ Ic Mc Ix). assert (Y := HH _ _ _ Id Md Iy). destruct X as [<-|[<-|[]]], Y as [<-|[<-|[]]]; try reflexivity; discriminate E.
  - apply li_count; [apply no_waiver|cbn; lia|]. intros c J. right. destruct J as [<-|[<-|[<-|[]]]]; (split; [vm_compute; reflexivity|]; split; [apply li_req|intro B; inversion B as [| |? ? ? ? B']; inversion B']).
    + apply li_count; [apply no_waiver|cbn; lia|]. intros c [<-|[<-|[]]]; [right|left; vm_compute; reflexivity].
      split; [vm_compute; reflexivity|]. split; [apply li_course; vm_compute; reflexivity|intro B; inversion B].
    + apply li_course; vm_compute; reflexivity.
    + apply li_course; vm_compute; reflexivity.
  - change ["100"%string; "300"%string] with (flat_map used_by (filter (fun c => negb (String.eqb (List.last (path_of c) ""%string) "%a")) [a_child; y_child; z_child])).
    apply (me_count same_order two_ctx [] KRule two_of _ _ _ 3 2); [apply no_waiver|reflexivity| | | | | | |cbn; lia|lia].
    + intros c [<-|[<-|[<-|[]]]] E; [discriminate E| |]; (apply pr_req; [reflexivity|]); [apply A|apply C].
    + intros c [<-|[<-|[<-|[]]]] E; [discriminate E| |]; (apply me_req; [apply no_waiver|reflexivity|]); [apply A|apply C].
    + intros c [<-|[<-|[<-|[]]]] E; [|discriminate E|discriminate E]. split; [discriminate|]. intro P. destruct P as [P|[P|P]]; [exact P|discriminate P|discriminate P].
    + apply t_yes; [apply pr_req; [reflexivity|]; eapply pr_count; [left; reflexivity|apply A]|]. apply t_yes; [apply pr_req; [reflexivity|apply A]|]. apply t_yes; [apply pr_req; [reflexivity|apply C]|]. constructor.
    + left. cbn. lia.
    + apply t_no; [intros [P|P]; [discriminate P|destruct P; discriminate]|]. apply t_yes; [left; reflexivity|]. apply t_yes; [left; reflexivity|]. constructor.
  - repeat constructor; cbn; intuition discriminate.
  - vm_compute. reflexivity.
  - assert (E : g_items (fst (top_count_solutions same_order keep two_ctx [] two_of [a_child; y_child; z_child])) = [s]).
    { destruct (g_items (fst (top_count_solutions same_order keep two_ctx [] two_of [a_child; y_child; z_child]))) as [|s1 [|s2 rest]] eqn:G; [destruct I| |exfalso; apply (f_equal (@List.length node)) in G; vm_compute in G; discriminate].
      destruct I as [->|[]]. reflexivity. }
    assert (X : option_map (fun s => match audit same_order two_ctx [] s with Ok (r, _) => inS (status_of r) WAIVED_AND_DONE | Err _ => false end) (hd_error (g_items (fst (top_count_solutions same_order keep two_ctx [] two_of [a_child; y_child; z_child])))) = Some false) by (vm_compute; reflexivity).
    rewrite E in X. cbn [hd_error option_map] in X. rewrite AU in X. rewrite (proj2 (complete_iff _) CO) in X. discriminate X.
Qed.
Print Assumptions found_at_the_top_refuted.

(** ** C153 *)

(** A candidate that passes with classes still under way is not preferred: among candidates that
    are not complete the one with the highest rank is taken. *)
Definition passing_candidates_are_preferred : Prop :=
  forall ord cx t n r t' s r1 t1, find_best_solution ord cx t n false = Ok (Some r, t') ->
  In s (g_items (solutions ord cx n)) -> audit ord cx [] s = Ok (r1, t1) -> passing (status_of r1) -> passing (status_of r).
(** one of: "b" (A 1, B 1, C 1 and D 1), "y" (A 1); A 1 is under way, B 1 and C 1 were taken *)
Definition b_child : node := child "%b" (all_of [named "A 1"; named "B 1"; named "C 1"; named "D 1"]).
Definition under_way_ctx : ctx := c_ctx [a_now; mk_simple "200" "B" "1"; mk_simple "300" "C" "1"] [].
Theorem passing_candidates_are_preferred_refuted :
  ~ passing_candidates_are_preferred /\
  (match find_best_solution same_order under_way_ctx [] (rules 1 false [b_child; y_child]) false with Ok (Some r, _) => Some (status_of r) | _ => None end,
   map (fun s => match audit same_order under_way_ctx [] s with Ok (r, _) => Some (status_of r, match rank_of r with Ok (q, _) => Some (Qred q) | Err _ => None end) | Err _ => None end)
       (g_items (solutions same_order under_way_ctx (rules 1 false [b_child; y_child])))) =
  (Some NeedsMoreItems, [Some (NeedsMoreItems, Some (11 # 4)); Some (PendingCurrent, Some (7 # 4)); Some (NeedsMoreItems, Some (11 # 4))]).
Proof.
  split; [|vm_compute; reflexivity]. intro H. set (n := rules 1 false [b_child; y_child]).
  assert (X : exists s r1 t1 r t', find_best_solution same_order under_way_ctx [] n false = Ok (Some r, t') /\ In s (g_items (solutions same_order under_way_ctx n)) /\
    audit same_order under_way_ctx [] s = Ok (r1, t1) /\ status_of r1 = PendingCurrent /\ status_of r = NeedsMoreItems).
  { eexists (nth 1 (g_items (solutions same_order under_way_ctx n)) n), _, _, _, _. split; [vm_compute; reflexivity|]. split; [apply nth_In; vm_compute; lia|].
    split; [vm_compute; reflexivity|]. split; vm_compute; reflexivity. }
  destruct X as [s [r1 [t1 [r [t' [F [I [A [S1 S2]]]]]]]]]. assert (P := H _ _ _ _ _ _ _ _ _ F I A). rewrite S1, S2 in P.
  destruct P as [[P|P]|[P|P]]; try discriminate P. right. left. reflexivity.
Qed.
Print Assumptions passing_candidates_are_preferred_refuted.
(** A candidate that is complete is: if there is one, the result is complete. *)
Theorem passing_candidates_are_preferred_partial :
  forall ord cx t n r t' merge s r1 t1, find_best_solution ord cx t n merge = Ok (Some r, t') ->
  In s (g_items (solutions ord cx n)) -> audit ord cx [] s = Ok (r1, t1) -> complete (status_of r1) -> complete (status_of r).
Proof.
  intros ord cx t n r t' merge s r1 t1 F I A C.
  destruct (proj1 (find_best_exact ord cx t n merge (Some r)) (ex_intro _ t' F)) as [[x [own [last [E S]]]]|[E _]]; [injection E as <-|discriminate].
  destruct S as [pre s0 post r q u E FU CA CO|pre s0 post r q u all z zr zq zt N E FU CA P1 P2 E2 CZ]; [exact CO|].
  rewrite Forall_forall in FU. destruct (FU s I) as [x [qx [tx [[A' _] NC]]]]. rewrite A in A'. injection A' as <- <-. contradiction.
Qed.
Print Assumptions passing_candidates_are_preferred_partial.
Example preferred_example :
  (match find_best_solution same_order (c_ctx three []) [] (rules 1 false [b_child; y_child]) false with Ok (Some r, _) => Some (status_of r) | _ => None end,
   map (fun s => match audit same_order (c_ctx three []) [] s with Ok (r, _) => Some (status_of r) | Err _ => None end)
       (g_items (solutions same_order (c_ctx three []) (rules 1 false [b_child; y_child])))) =
  (Some Done, [Some NeedsMoreItems; Some Done; Some NeedsMoreItems]).
Proof. vm_compute. reflexivity. Qed.

(** a run that meets the hypotheses of [a_run_finds_what_can_be_passed] *)
Definition one_course_spec : spec :=
  mkSpec (AreaLoad.mkAspec (Some "Sample") (Some "concentration") (Some "B.A.") (Some "140") [] (Some (LoaderProps.d_all [LoaderProps.d_course "CSCI 121"])) None None [] false)%string [] [].
Example run_hypotheses_example :
  let d := run_data [taken_in "7" "3.00" true 2019] in let sw := mkSwitches false false in
  (forall es st k u, audits_area sw d [] one_course_spec es st k u ->
     u_kind u <> "major"%string /\ can_be_passed (fun l => l) u (sl_student st) es /\ g_exn (area_solutions (fun l => l) (fun l => l) u (sl_student st) es) = None) /\
  summary (run (fun l => l) (fun l => l) (fun l => l) sw plain_args d [] one_course_spec) = Some ([None; None; Some (Done, 1, 1)], None)%Z.
Proof.
  cbv zeta. split; [|vm_compute; reflexivity].
  intros es st k u (_ & _ & HS & HK & HU). apply (runs_start_exactly (fun l => l)) in HS; [|intro l; apply Permutation_refl]. vm_compute in HS. injection HS as <- <-. apply constants_are_exact in HK. subst k. vm_compute in HU. injection HU as <-.
  split; [discriminate|]. split; [|vm_compute; reflexivity].
  match goal with |- can_be_passed _ ?u ?s _ => set (st := s); set (v := u) end.
  eexists _, _, (t_courses st). split; [reflexivity|]. split; [|split; [left; vm_compute; reflexivity|]].
  - split; [|split].
    + intros r P. unfold v in P. cbn [u_result] in P. destruct P as [[k P]|[k [i [k' P]]]]; parts; intro P'; destruct (P' eq_refl).
    + intros x P. unfold v in P. cbn [u_result] in P. parts; reflexivity.
    + intros k i items P. unfold v in P. cbn [u_result] in P. parts. split; [cbn [map]; constructor; [intros []|constructor]|repeat (apply Forall_cons || apply Forall_nil); first [left; exists 0%nat; vm_compute; reflexivity|right; intros t D; discriminate]].
  - cbn [u_result].
    set (cx := limited_ctx v st [] (t_courses st)). split.
    + split; [|split].
      * intros c [<-|[]]. split; [intros x P; parts; split; [discriminate|intros; discriminate]|]. split; [intros r P; destruct P as [[k P]|[k [i [k' P]]]]; parts; split; [reflexivity|intros x ? ? []]|].
        intros k q P. parts.
      * intros c d [[<-|[]] _] [[<-|[]] _] N. destruct (N eq_refl).
      * intros c d cs ds x y [<-|[]] [<-|[]] Mc Md Ix Iy _. rewrite Mc in Md. injection Md as <-. vm_compute in Mc. injection Mc as <-. destruct Ix as [Ix|[]], Iy as [Iy|[]]. congruence.
    + split; [apply no_waiver|]. split; [reflexivity|]. split; [reflexivity|]. split; [discriminate|]. exists (fun _ => ["7"%string]). split; [|repeat constructor; intros []].
      intros c [<-|[]].
      match goal with |- _ /\ _ /\ meets _ _ _ (NCourse _ ?r) _ => assert (F : exists c, c_clbid c = "7"%string /\ c_in_progress c = false /\ finds cx r c /\ acceptable r c) end.
      { eexists. split; [|split; [|split; [right; split; [left; reflexivity|]; split; [vm_compute; left; reflexivity|]|]]]; try reflexivity.
        - split; [intros; vm_compute; reflexivity|]. split; [intros y H; discriminate H|]. split; [intros id H; injection H as <-; split; [vm_compute; reflexivity|]; split; [discriminate|split; discriminate]|].
          split; [intros y H; discriminate H|]. split; [intros y H; discriminate H|discriminate].
        - split; [intros []|]. split; [discriminate|intros y H; discriminate H]. }
      destruct F as [c [E [P [F A]]]]. split; [apply pr_course; right; right; eauto|]. split; [apply li_course; vm_compute; reflexivity|].
      rewrite <- E. match goal with |- meets ?o ?cx ?l (NCourse ?k ?r) _ => exact (me_course o cx l k r c eq_refl (no_waiver _) F A P) end.
Qed.
