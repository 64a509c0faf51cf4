(** Proofs about which parts of a result are marked as waived. *)
From Coq Require Import List Bool Arith ZArith QArith String Lia Permutation.
From Verif Require Import Transcript Prelude Dec Status Course Claims Exceptions Op Context CondExpr Paths Predicate Limit Apply Assertion Query CourseRule Tree Solve Loader.
From Verif Require Import ListFacts LimitProps PathsSpec ClaimsSpec QuerySpec CourseRuleSpec TreeSpec TreeSolSpec TreeAuditSpec SolveSpec LoaderSpec WaiveSpec.
From Verif Require Import AssertionProofs PredicateProofs CourseRuleProofs TreeProofs TreeSolProofs TreeAuditProofs SolveProofs SolveSafe LoaderProofs LoaderTree EstimateLoad.
Import ListNotations.
Local Open Scope string_scope.
Local Open Scope list_scope.

Lemma waived_at_iff cx l p : cx_exc cx = group_exceptions l -> (waived cx p = true <-> waived_at l p).
Proof.
  intro EX. rewrite waived_iff. unfold waived. rewrite EX. destruct (get_waive _ p); split; intro H; congruence.
Qed.
Lemma mark_solved l (P : Prop) b p : P -> mark l P b p -> (b = true <-> waived_at l p).
Proof. intros H [A _]. exact (A H). Qed.
Lemma mark_intro (l : list exc) (P : Prop) b p : P -> (b = true <-> waived_at l p) -> mark l P b p.
Proof. intros H E. split; [intros _; exact E|intro N; contradiction]. Qed.
Lemma no_prof l x : (forall k i c, x <> NProf k i c) -> forall k i k' r, x = NProf k i (Some (k', r)) -> mark l (k' <> KRule) (r_overridden r) (r_path r).
Proof. intros H k i k' r E. exfalso. exact (H _ _ _ E). Qed.
Lemma marked_sol l x : kind_of x <> KRule -> (forall k i c, x <> NProf k i c) -> (overridden x = true <-> waived_at l (path_of x)) -> marked l x.
Proof. intros K N E. split; [apply mark_intro; auto|apply no_prof; exact N]. Qed.

Section Solutions.
  Variables (ord : list course -> list course) (cx : ctx) (l : list exc).
  Hypothesis EX : cx_exc cx = group_exceptions l.
  Lemma course_marked r s : r_auto_waived r = false -> In s (g_items (c_solutions cx r)) -> r_path s = r_path r /\ (r_overridden s = true <-> waived_at l (r_path r)).
  Proof.
    intros AW I. unfold c_solutions in I. rewrite AW in I. cbn [orb] in I. rewrite <- (waived_at_iff cx l _ EX). unfold waived. destruct (get_waive (cx_exc cx) (r_path r)).
    { destruct I as [<-|[]]. cbn. tauto. }
    assert (X : r_path s = r_path r /\ r_overridden s = false); [|destruct X as [-> ->]; split; [reflexivity|split; discriminate]].
    assert (J : In s (g_items (offered cx r)) \/ s = c_solution r None false false false).
    { unfold offered. destruct (gapp _ _) as [[|y ys] [e|]]; cbn [g_items] in *; auto. destruct I as [<-|[]]. auto. }
    clear I. destruct J as [J| ->]; [|split; reflexivity]. unfold offered, gapp in J.
    assert (K : In s (g_items (c_inserts cx r (get_inserts (cx_exc cx) (r_path r)))) \/
      In s (map (fun c => c_solution r (Some c) false false false) (filter (fun c => negb (c_skips r c)) (g_items (find_courses cx r))))).
    { destruct (g_exn (c_inserts _ _ _)); [auto|]. cbn [g_items] in J. rewrite in_app_iff in J. exact J. }
    destruct K as [K|K].
    - apply inserts_items in K. destruct K as [x [d [_ [_ [_ ->]]]]]. split; reflexivity.
    - apply in_map_iff in K. destruct K as [d [<- _]]. split; reflexivity.
  Qed.
  Lemma query_kept q s : In s (g_items (q_solutions ord cx q)) -> q_path s = q_path q /\ q_overridden s = q_overridden q.
  Proof.
    intro I. unfold q_solutions in I. destruct (q_overridden q) eqn:O; [destruct I as [<-|[]]; cbn; auto|]. destruct (q_filtered cx q) as [[[data ins] forced]|]; [|destruct I].
    destruct (q_source q); try (destruct I as [<-|[]]; cbn; auto). destruct (mapr as_course data); [|destruct I].
    assert (X : exists out, s = q_solution q (map ICourse out) ins forced); [|destruct X as [out ->]; cbn; auto].
    destruct (gflat _ _) as [[|y ys] [e|]]; cbn [gmap gret g_items] in I; [destruct I|destruct I as [<-|[]]; exists []; reflexivity| |]; apply in_map_iff in I; destruct I as [out [<- _]]; eauto.
  Qed.
  Lemma sub_marked n m : all_marked l n -> part_of n m -> all_marked l m.
  Proof. intros A P x Q. apply A. eapply part_trans; eauto. Qed.
  Lemma sub_auto n m : none_auto n -> part_of n m -> none_auto m.
  Proof. intros [A B] P. split; intros; [eapply A|eapply B]; eapply part_trans; eauto. Qed.
  Lemma pot_from items pot c : potential_children cx (map (child_of ord cx) items) = Ok pot -> In c pot -> exists c', In c' items /\ c = child_of ord cx c'.
  Proof.
    intros P I. unfold potential_children in P. destruct (filter_res _ _) as [fl|] eqn:FR; cbn [bind] in P; [|discriminate]. injection P as <-.
    apply filter_res_items in FR. destruct FR as [-> _]. apply dedup_incl in I. apply filter_In in I. destruct I as [I _].
    apply in_map_iff in I. destruct I as [c' [<- I]]. eauto.
  Qed.
  (** solutions of rules that are marked as far as rules are *)
  Lemma solutions_marked n : all_marked l n -> none_auto n -> forall s, In s (g_items (solutions ord cx n)) -> all_marked l s.
  Proof.
    induction n as [k r|k q|k i items IH|k i o IH|k i t f IHt IHf|k i c] using node_induction; intros A NA s I.
    - cbn [solutions gmap g_items] in I. apply in_map_iff in I. destruct I as [y [<- I]]. intros x P. inversion P; subst.
      destruct (course_marked r y (proj1 NA _ _ (pt_self _)) I) as [E W]. apply marked_sol; [discriminate|intros; discriminate|]. cbn. rewrite E. exact W.
    - cbn [solutions gmap g_items] in I. apply in_map_iff in I. destruct I as [y [<- I]]. intros x P. inversion P; subst.
      apply query_kept in I. destruct I as [E O]. apply marked_sol; [discriminate|intros; discriminate|]. cbn. rewrite E, O. exact (mark_solved _ _ _ _ (or_intror Logic.I) (proj1 (A _ (pt_self _)))).
    - rewrite solutions_count in I. unfold count_solutions in I. destruct (waived cx (n_path i)) eqn:W.
      + destruct I as [<-|[]]. intros x P. unfold count_solution in P. inversion P as [|k' i' it y z Iy Pz| | |]; subst; [|apply A; eapply pt_count; eauto].
        apply marked_sol; [discriminate|intros; discriminate|]. cbn. rewrite <- (waived_at_iff cx l _ EX), W. tauto.
      + destruct (potential_children cx _) as [pot|] eqn:PC; [|destruct I]. apply count_run_from in I. destruct I as [sel [sols [SI [SO ->]]]].
        intros x P. unfold built, count_solution in P. inversion P as [|k' i' it y z Iy Pz| | |]; subst.
        { apply marked_sol; [discriminate|intros; discriminate|]. cbn. rewrite <- (waived_at_iff cx l _ EX), W. tauto. }
        rewrite sort_in, !in_app_iff in Iy. destruct Iy as [Iy|[Iy|[]]].
        * destruct (solves_in _ _ _ SO Iy) as [c [Ic J]]. apply SI in Ic. rewrite sort_in in Ic. destruct (pot_from _ _ _ PC Ic) as [c' [Ic' ->]]. cbn [child_of snd] in J.
          assert (PP : part_of (NCount k i items) c') by (eapply pt_count; [exact Ic'|constructor]).
          exact (IH c' Ic' (sub_marked _ _ A PP) (sub_auto _ _ NA PP) y J x Pz).
        * unfold unselected in Iy. apply filter_In in Iy. destruct Iy as [Iy _]. unfold children_set in Iy. apply dedup_incl in Iy. apply A. eapply pt_count; eauto.
    - cbn [solutions] in I. destruct (waived cx (e_path i)) eqn:W.
      + destruct I as [<-|[]]. intros x P. unfold req_solution in P. inversion P; subst; [|apply A; apply pt_req; auto].
        apply marked_sol; [discriminate|intros; discriminate|]. cbn. rewrite <- (waived_at_iff cx l _ EX), W. tauto.
      + assert (HD : forall o', marked l (req_solution i o' false)).
        { intro o'. apply marked_sol; [discriminate|intros; discriminate|]. cbn. rewrite <- (waived_at_iff cx l _ EX), W. tauto. }
        destruct o as [z|]; [|destruct I as [<-|[]]; intros x P; inversion P; subst; apply HD].
        cbn [gmap g_items] in I. apply in_map_iff in I. destruct I as [y [<- J]]. intros x P. unfold req_solution in P. inversion P; subst; [apply HD|].
        assert (PP : part_of (NReq k i (Some z)) z) by (apply pt_req; constructor). eapply (IH z eq_refl (sub_marked _ _ A PP) (sub_auto _ _ NA PP)); eauto.
    - assert (HD : forall t' f', marked l (NCond KSol i t' f')).
      { intros t' f'. apply marked_sol; [discriminate|intros; discriminate|]. exact (mark_solved _ _ _ _ (or_intror Logic.I) (proj1 (A _ (pt_self _)))). }
      cbn [solutions] in I. destruct (e_result (d_cond i)) as [[|]|]; [|destruct f as [z|]; [|destruct I]|destruct I].
      + cbn [gmap g_items] in I. apply in_map_iff in I. destruct I as [y [<- J]]. intros x P. inversion P; subst; [apply HD| |apply A; apply pt_false; auto].
        assert (PP : part_of (NCond k i t f) t) by (apply pt_true; constructor). eapply (IHt (sub_marked _ _ A PP) (sub_auto _ _ NA PP)); eauto.
      + cbn [gmap g_items] in I. apply in_map_iff in I. destruct I as [y [<- J]]. intros x P. inversion P; subst; [apply HD|apply A; apply pt_true; auto|].
        assert (PP : part_of (NCond k i t (Some z)) z) by (apply pt_false; constructor). eapply (IHf z eq_refl (sub_marked _ _ A PP) (sub_auto _ _ NA PP)); eauto.
    - cbn [solutions] in I. unfold prof_solutions in I.
      assert (HD : forall c' b, (b = true <-> waived_at l (f_path i)) -> (forall k' r, c' = Some (k', r) -> mark l (k' <> KRule) (r_overridden r) (r_path r)) -> all_marked l (prof_solution i c' b)).
      { intros c' b H M x P. inversion P; subst. split; [apply mark_intro; [left; discriminate|exact H]|]. intros k' i' k2 r2 E. injection E as _ _ ->. exact (M _ _ eq_refl). }
      destruct (A _ (pt_self _)) as [_ AM]. destruct (waived cx (f_path i)) eqn:W; assert (WW := waived_at_iff cx l (f_path i) EX); rewrite W in WW.
      + destruct I as [<-|[]]. apply HD; [exact WW|]. intros k' r ->. exact (AM _ _ _ _ eq_refl).
      + destruct c as [[k' r]|]; [|destruct I as [<-|[]]; apply HD; [exact WW|intros; discriminate]].
        destruct (gnext _) as [s'|] eqn:G; [|destruct I]. destruct I as [<-|[]]. apply gnext_in in G. apply HD; [exact WW|]. intros k2 r2 E. injection E as <- <-.
        destruct (course_marked r s' (proj2 NA _ _ _ _ (pt_self _)) G) as [E W']. apply mark_intro; [discriminate|]. rewrite E. exact W'.
  Qed.
  (** auditing keeps the marks; only solutions are audited *)
  Lemma audit_marked n r : audited cx n r -> kind_of n <> KRule -> all_marked l n -> all_marked l r.
  Proof.
    revert r. induction n as [k r0|k q|k i items IH|k i o IH|k i t f IHt IHf|k i c] using node_induction; intros r AU K A; assert (M := A _ (pt_self _)); destruct M as [MH MP];
      assert (MS := mark_solved _ _ _ _ (or_introl K) MH); cbn [kind_of overridden path_of] in *; inversion AU; subst; intros w P.
    - inversion P; subst. apply marked_sol; [discriminate|intros; discriminate|]. cbn. match goal with H1 : r_path _ = r_path _, H2 : r_overridden _ = r_overridden _ |- _ => rewrite H1, H2 end. exact MS.
    - inversion P; subst. apply marked_sol; [discriminate|intros; discriminate|]. cbn. match goal with H1 : q_path _ = q_path _, H2 : q_overridden _ = q_overridden _ |- _ => rewrite H1, H2 end. exact MS.
    - inversion P as [|? ? ? y ? Iy Py| | |]; subst; [|apply A; eapply pt_count; eauto]. apply marked_sol; [discriminate|intros; discriminate|]. exact MS.
    - inversion P as [|? ? ? y ? Iy Py| | |]; subst.
      + apply marked_sol; [discriminate|intros; discriminate|]. cbn. match goal with H : n_overridden i = false |- _ => rewrite H in MS end. exact MS.
      + match goal with F : Forall2 _ items _ |- _ => destruct (F2_in_r _ _ _ _ F Iy) as [c [Ic [[KS AC]|[KS ->]]]] end.
        * assert (PP : part_of (NCount k i items) c) by (eapply pt_count; [exact Ic|constructor]). eapply (IH c Ic y AC); [rewrite KS; discriminate|exact (sub_marked _ _ A PP)|exact Py].
        * apply A. eapply pt_count; eauto.
    - inversion P; subst; [|apply A; apply pt_req; auto]. apply marked_sol; [discriminate|intros; discriminate|]. exact MS.
    - inversion P; subst; [apply marked_sol; [discriminate|intros; discriminate|]; exact MS|].
      match goal with KS : kind_of ?z = KSol, AC : audited cx ?z ?y |- _ =>
        assert (PP : part_of (NReq k i (Some z)) z) by (apply pt_req; constructor); eapply (IH z eq_refl y AC); [rewrite KS; discriminate|exact (sub_marked _ _ A PP)|assumption] end.
    - inversion P; subst; [apply marked_sol; [discriminate|intros; discriminate|]; exact MS| |apply A; apply pt_false; auto].
      match goal with KS : kind_of ?z = KSol, AC : audited cx ?z ?y |- _ =>
        assert (PP : part_of (NCond k i z f) z) by (apply pt_true; constructor); eapply (IHt y AC); [rewrite KS; discriminate|exact (sub_marked _ _ A PP)|assumption] end.
    - inversion P; subst; [apply marked_sol; [discriminate|intros; discriminate|]; exact MS|apply A; apply pt_true; auto|].
      match goal with KS : kind_of ?z = KSol, AC : audited cx ?z ?y |- _ =>
        assert (PP : part_of (NCond k i t (Some z)) z) by (apply pt_false; constructor); eapply (IHf z eq_refl y AC); [rewrite KS; discriminate|exact (sub_marked _ _ A PP)|assumption] end.
    - inversion P; subst; [apply marked_sol; [discriminate|intros; discriminate|]; exact MS|apply A; apply pt_true; auto|apply A; apply pt_false; auto].
    - inversion P; subst. split; [apply mark_intro; [left; discriminate|]|].
      + cbn. match goal with H : f_overridden i = true |- _ => rewrite H in MS end. exact MS.
      + intros k' i' k2 r2 E. injection E as _ _ ->. exact (MP _ _ _ _ eq_refl).
    - inversion P; subst. split; [apply mark_intro; [left; discriminate|]|].
      + cbn. match goal with H : f_overridden i = false |- _ => rewrite H in MS end. exact MS.
      + intros k' i' k2 r2 E. injection E as _ _ <- <-. assert (MC := MP _ _ _ _ eq_refl). apply mark_intro; [discriminate|]. assert (NR : KSol <> KRule) by discriminate. assert (MC' := mark_solved _ _ _ _ NR MC). match goal with H1 : r_overridden _ = r_overridden r0, H2 : r_path _ = r_path r0 |- _ => rewrite H1, H2 end. exact MC'.
    - inversion P; subst. split; [apply mark_intro; [left; discriminate|]|].
      + cbn. match goal with H : f_overridden i = false |- _ => rewrite H in MS end. exact MS.
      + intros k' i' k2 r2 E. injection E as _ _ ->. exact (MP _ _ _ _ eq_refl).
  Qed.
End Solutions.

(** ** the rule at the top *)
Lemma in_add x n l : In x (add_node n l) -> x = n \/ In x l.
Proof. unfold add_node. destruct (in_nodes n l); [auto|]. rewrite in_app_iff. cbn. intuition. Qed.
Lemma pairs_in {A} (l : list A) a b : In (a, b) (pairs l) -> In a l /\ In b l.
Proof.
  induction l as [|x l IH]; [intros []|]. cbn [pairs]. rewrite in_app_iff. intros [H|H].
  - apply in_map_iff in H. destruct H as [y [E H]]. injection E as -> ->. cbn. auto.
  - apply IH in H. cbn. tauto.
Qed.
Lemma compared_in ps : forall acc c, In c (fst (fold_left compare_pair ps acc)) -> In c (fst acc) \/ exists a b, In (a, b) ps /\ (c = fst a \/ c = fst b).
Proof.
  induction ps as [|[[a am] [b bm]] ps IH]; intros [dis non] c I; cbn [fold_left] in I; [auto|]. apply IH in I. destruct I as [I|(a' & b' & J & E)].
  - unfold compare_pair in I. assert (X : In c dis \/ c = a \/ c = b).
    { destruct (_ && _)%bool; cbn [fst] in I; [|destruct (negb _); cbn [fst] in I]; auto; apply in_add in I; destruct I as [->|I]; auto; apply in_add in I; destruct I as [->|I]; auto. }
    destruct X as [X|X]; [left; exact X|]. right. exists (a, am), (b, bm). split; [left; reflexivity|exact X].
  - right. exists a', b'. split; [right; exact J|exact E].
Qed.
Lemma classify_in ms c : In c (fst (classify ms)) -> In c (map fst ms).
Proof.
  assert (X : In c (fst (fold_left compare_pair (pairs ms) ([], filter never_disjoint (map fst ms)))) -> In c (map fst ms)).
  { intro I. apply compared_in in I. destruct I as [[]|(a & b & J & [->| ->])]; apply pairs_in in J; apply in_map, J. }
  unfold classify. destruct ms as [|[n m] [|y r]]; cbv zeta; [|cbn; auto|]; (destruct (fold_left _ _ _) as [dis non]; cbn [fst] in *; rewrite filter_In; intros [I _]; apply X, I).
Qed.
Lemma best_marked ord cx l n r t z : set_order ord -> cx_exc cx = group_exceptions l -> all_marked l n -> none_auto n -> selected ord cx (solutions ord cx n) r t z -> all_marked l r.
Proof.
  intros SO EX A NA SE. apply selected_in in SE. destruct SE as (s & q & IS & CA & _). eapply (audit_marked cx l s); [eapply audit_audited; [exact SO|exact CA]| |eapply solutions_marked; eauto].
  rewrite (proj2 (solutions_keep _ _ _ _ IS)). discriminate.
Qed.
Lemma top_marked ord nord cx l n : set_order ord -> (forall x, Permutation (nord x) x) -> cx_exc cx = group_exceptions l -> all_marked l n -> none_auto n ->
  forall t s, In s (g_items (fst (top_solutions ord nord cx t n))) -> all_marked l s.
Proof.
  intros SO NO EX. induction n as [k r|k q|k i items IH|k i o IH|k i b f IHt IHf|k i c] using node_induction; intros A NA t s I.
  1, 2, 4, 6: cbn [top_solutions fst] in I; eapply solutions_marked; eauto.
  - cbn [top_solutions] in I. assert (HD : forall items' b, b = waived cx (n_path i) -> marked l (count_solution i items' b)).
    { intros items' b ->. apply marked_sol; [discriminate|intros; discriminate|]. cbn. apply waived_at_iff. exact EX. }
    unfold top_count_solutions in I. destruct (waived cx (n_path i)) eqn:W.
    { destruct I as [<-|[]]. intros x P. unfold count_solution in P. inversion P as [|k' i' it y z Iy Pz| | |]; subst; [apply HD; reflexivity|apply A; eapply pt_count; eauto]. }
    assert (RUN : forall len kids results other, (forall c, In c kids -> exists c', In c' items /\ c = child_of ord cx c') -> (forall c, In c other -> In c items) -> (forall r, In r results -> all_marked l r) ->
      In s (g_items (count_run i len kids results other)) -> all_marked l s).
    { intros len kids results other HK HO HR IR. apply count_run_from in IR. destruct IR as [sel [sols [SI [SV ->]]]].
      intros x P. unfold built, count_solution in P. inversion P as [|k' i' it y z Iy Pz| | |]; subst; [apply HD; reflexivity|].
      rewrite sort_in, !in_app_iff in Iy. destruct Iy as [Iy|[Iy|Iy]].
      - destruct (solves_in _ _ _ SV Iy) as [c [Ic J]]. apply SI in Ic. destruct (HK _ Ic) as [c' [Ic' ->]]. cbn [child_of snd] in J.
        assert (PP : part_of (NCount k i items) c') by (eapply pt_count; [exact Ic'|constructor]).
        exact (solutions_marked ord cx l EX c' (sub_marked _ _ _ A PP) (sub_auto _ _ NA PP) y J x Pz).
      - unfold unselected in Iy. apply filter_In in Iy. destruct Iy as [Iy _]. apply A. eapply pt_count; [apply HO; exact Iy|exact Pz].
      - exact (HR y Iy x Pz). }
    assert (CS : forall c, In c (children_set items) -> In c items) by (intros c; unfold children_set; apply dedup_incl).
    destruct (potential_children cx _) as [pot|] eqn:PC; [|destruct I].
    assert (HP : forall c, In c pot -> exists c', In c' items /\ c = child_of ord cx c') by (intros c; apply (pot_from ord cx items pot c PC)).
    assert (PLAIN : In s (g_items (count_run i (Z.of_nat (List.length items)) (sort_by_path child_path pot) [] (children_set items))) -> all_marked l s).
    { apply RUN; [intros c J; rewrite sort_in in J; auto|exact CS|intros r []]. }
    destruct pot as [|p0 pot']; [exact (PLAIN I)|]. destruct (n_audits i); [|exact (PLAIN I)]. clear PLAIN.
    destruct (mapr _ _) as [ms|] eqn:MS; cbn [bind] in I; [|destruct I]. destruct (classify ms) as [dis non] eqn:CL.
    destruct (solve_independent _ _ _ _) as [[solved t']|] eqn:SI; cbn [bind] in I; [|destruct I]. cbn [fst] in I.
    assert (DI : forall c, In c dis -> In c items).
    { intros c Ic. assert (F := classify_in ms c). rewrite CL in F. cbn [fst] in F. specialize (F Ic). apply in_map_iff in F. destruct F as [[c' m] [<- F]]. apply mapr_ok in MS.
      destruct (F2_in_r _ _ _ _ MS F) as [c0 [I0 E0]]. destruct (matches_of cx c0); cbn [bind] in E0; [|discriminate]. injection E0 as <- _.
      apply (Permutation_in _ (NO _)) in I0. apply in_map_iff in I0. destruct I0 as [[c1 g1] [<- I1]]. destruct (HP _ I1) as [c2 [I2 E2]]. unfold child_of in E2. injection E2 as -> _. exact I2. }
    revert I. apply RUN.
    + intros c J. rewrite sort_in in J. apply filter_In in J. apply HP, J.
    + intros c J. apply filter_In in J. apply CS, J.
    + intros r J. rewrite sort_in in J. destruct (solve_independent_ok _ _ _ _ _ _ SI) as [_ F]. destruct (F2_in_r _ _ _ _ F J) as [c [Ic [ta [z SE]]]].
      apply (Permutation_in _ (NO _)) in Ic. assert (PP : part_of (NCount k i items) c) by (eapply pt_count; [apply DI; exact Ic|constructor]).
      exact (best_marked ord cx l c r ta z SO EX (sub_marked _ _ _ A PP) (sub_auto _ _ NA PP) SE).
  - assert (HD : forall t' f', marked l (NCond KSol i t' f')).
    { intros t' f'. apply marked_sol; [discriminate|intros; discriminate|]. exact (mark_solved _ _ _ _ (or_intror Logic.I) (proj1 (A _ (pt_self _)))). }
    cbn [top_solutions] in I. destruct (e_result (d_cond i)) as [[|]|]; [|destruct f as [z|]; [|destruct I]|destruct I].
    + destruct (top_solutions ord nord cx t b) as [g t1] eqn:T. cbn [fst gmap g_items] in I. apply in_map_iff in I. destruct I as [y [<- J]]. intros x P. inversion P; subst; [apply HD| |apply A; apply pt_false; auto].
      assert (PP : part_of (NCond k i b f) b) by (apply pt_true; constructor). eapply (IHt (sub_marked _ _ _ A PP) (sub_auto _ _ NA PP) t y); [rewrite T; exact J|assumption].
    + destruct (top_solutions ord nord cx t z) as [g t1] eqn:T. cbn [fst gmap g_items] in I. apply in_map_iff in I. destruct I as [y [<- J]]. intros x P. inversion P; subst; [apply HD|apply A; apply pt_true; auto|].
      assert (PP : part_of (NCond k i b (Some z)) z) by (apply pt_false; constructor). eapply (IHf z eq_refl (sub_marked _ _ _ A PP) (sub_auto _ _ NA PP) t y); [rewrite T; exact J|assumption].
Qed.

(** where the children of a solution of the count at the top come from *)
Lemma top_children ord nord cx k i items : (forall x, Permutation (nord x) x) -> waived cx (n_path i) = false ->
  forall t s, In s (g_items (fst (top_solutions ord nord cx t (NCount k i items)))) ->
  exists out, s = count_solution i out false /\
    forall y, In y out -> exists c, In c items /\ (In y (g_items (solutions ord cx c)) \/ y = c \/ exists own last, selected ord cx (solutions ord cx c) y own last).
Proof.
  intros NO W t s I. cbn [top_solutions] in I. unfold top_count_solutions in I. rewrite W in I.
  assert (RUN : forall len kids results other, (forall c, In c kids -> exists c', In c' items /\ c = child_of ord cx c') -> (forall c, In c other -> In c items) ->
    (forall r, In r results -> exists c, In c items /\ exists own last, selected ord cx (solutions ord cx c) r own last) ->
    In s (g_items (count_run i len kids results other)) -> exists out, s = count_solution i out false /\
    forall y, In y out -> exists c, In c items /\ (In y (g_items (solutions ord cx c)) \/ y = c \/ exists own last, selected ord cx (solutions ord cx c) y own last)).
  { intros len kids results other HK HO HR IR. apply count_run_from in IR. destruct IR as [sel [sols [SI [SV ->]]]]. unfold built. eexists. split; [reflexivity|].
    intros y Iy. rewrite sort_in, !in_app_iff in Iy. destruct Iy as [Iy|[Iy|Iy]].
    - destruct (solves_in _ _ _ SV Iy) as [c [Ic J]]. apply SI in Ic. destruct (HK _ Ic) as [c' [Ic' ->]]. exists c'. split; [exact Ic'|left; exact J].
    - unfold unselected in Iy. apply filter_In in Iy. exists y. split; [apply HO, Iy|auto].
    - destruct (HR y Iy) as (c & Ic & J). exists c. auto. }
  assert (CS : forall c, In c (children_set items) -> In c items) by (intros c; unfold children_set; apply dedup_incl).
  destruct (potential_children cx _) as [pot|] eqn:PC; [|destruct I].
  assert (HP : forall c, In c pot -> exists c', In c' items /\ c = child_of ord cx c') by (intros c; apply (pot_from ord cx items pot c PC)).
  assert (PLAIN := fun H => RUN (Z.of_nat (List.length items)) (sort_by_path child_path pot) [] (children_set items) (fun c J => HP c (proj1 (sort_in _ _ _) J)) CS (fun r (F : In r []) => False_ind _ F) H).
  destruct pot as [|p0 pot']; [exact (PLAIN I)|]. destruct (n_audits i); [|exact (PLAIN I)]. clear PLAIN.
  destruct (mapr _ _) as [ms|] eqn:MS; cbn [bind] in I; [|destruct I]. destruct (classify ms) as [dis non] eqn:CL.
  destruct (solve_independent _ _ _ _) as [[solved t']|] eqn:SI; cbn [bind] in I; [|destruct I]. cbn [fst] in I.
  revert I. apply RUN.
  - intros c J. rewrite sort_in in J. apply filter_In in J. apply HP, J.
  - intros c J. apply filter_In in J. apply CS, J.
  - intros r J. rewrite sort_in in J. destruct (solve_independent_ok _ _ _ _ _ _ SI) as [_ F]. destruct (F2_in_r _ _ _ _ F J) as [c [Ic [ta [z SE]]]].
    exists c. split; [|eauto]. apply (Permutation_in _ (NO _)) in Ic. assert (X := classify_in ms c). rewrite CL in X. cbn [fst] in X. specialize (X Ic). apply in_map_iff in X. destruct X as [[c' m] [<- X]]. apply mapr_ok in MS.
    destruct (F2_in_r _ _ _ _ MS X) as [c0 [I0 E0]]. destruct (matches_of cx c0); cbn [bind] in E0; [|discriminate]. injection E0 as <- _.
    apply (Permutation_in _ (NO _)) in I0. apply in_map_iff in I0. destruct I0 as [[c1 g1] [<- I1]]. destruct (HP _ I1) as [c2 [I2 E2]]. unfold child_of in E2. injection E2 as -> _. exact I2.
Qed.

(** ** loaded trees *)
Section Loaded.
  Variables (cx : ctx) (c : constants) (tm : list (string * list template)).
  Definition early (x : node) : Prop := match x with NQuery _ q => q_overridden q = waived cx (q_path q) | NCond _ i _ _ => d_overridden i = waived cx (d_path i) | _ => True end.
  Definition all_early (n : node) : Prop := forall x, part_of n x -> early x.
  Lemma leaf_early n : early n -> match n with NCount _ _ _ | NReq _ _ (Some _) | NCond _ _ _ _ => False | _ => True end -> all_early n.
  Proof. intros F L x H. apply part_inv in H as [->|H]; [exact F|]. destruct n as [| | |? ? [|]| |]; contradiction. Qed.
  Lemma early_all :
    (forall ems sc d p o, written cx c tm ems sc d p o -> forall n, o = Some n -> all_early n) /\
    (forall sc d p o, written_opt cx c tm sc d p o -> forall n, o = Some n -> all_early n) /\
    (forall ems sc p i es ns, kids cx c tm ems sc p i es ns -> forall n, In n ns -> all_early n) /\
    (forall ems sc e p o, written_entry cx c tm ems sc e p o -> forall n, o = Some n -> all_early n) /\
    (forall b name p n, written_body cx c tm b name p n -> all_early n).
  Proof.
    apply written_induction.
    - intros ems sc d p name Sh n [=<-]. apply leaf_early; exact I.
    - intros ems sc d p name r x Sh L n [=<-]. apply leaf_early; exact I.
    - intros ems sc d p r x Sh L n [=<-]. apply leaf_early; exact I.
    - intros ems sc d p r x Sh L n [=<-]. apply leaf_early; [|exact I]; exact (query_marked _ _ _ _ _ L).
    - intros ems sc d p x cond t nt nf Sh BD L T WT IT WF IF wv o O H n [=<-]. intros y Y.
      apply part_inv in Y as [->|[Y|(z & -> & Y)]]; [|now apply (IT nt eq_refl)|now apply (IF z eq_refl)]. cbn [early d_overridden d_path]. unfold waived. unfold wv in O.
      destruct (get_waive (cx_exc cx) (p ++ [".cond"])) as [w|]; [apply O; eauto|]. destruct o; [|reflexivity]. destruct (proj1 O eq_refl) as [w E]. discriminate.
    - intros. discriminate.
    - intros ems sc d p k l es ins audits nodes z Sh L X IN entries K IK AU AK BD Z0 HI n [=<-]. intros y Y.
      apply part_inv in Y as [->|(x & X' & Y)]; [exact I|now apply (IK x X')].
    - intros ems sc d p name b n Sh W IW n' [=<-]. exact IW.
    - intros ems sc d p name b n Sh S W IW n' [=<-]. exact IW.
    - intros. discriminate.
    - intros sc d p o W IW n E. now apply IW.
    - intros ems sc p i n [].
    - intros ems sc p i e es n ns W IW K IK x [<-|Ix]; [now apply IW|now apply IK].
    - intros ems sc p i e es ns W IW K IK x Ix. now apply IK.
    - intros ems sc d p o W IW n E. now apply IW.
    - intros ems sc r p x L n [=<-]. apply leaf_early; exact I.
    - intros ems sc s k b p n S W IW n' [=<-]. exact IW.
    - intros b name p d n BD RS NB W IW U. intros y Y. apply part_inv in Y as [->|Y]; [exact I|now apply (IW n eq_refl)].
    - intros b name p BD RS AU NB. apply leaf_early; exact I.
  Qed.
  Lemma fresh_marked l n : cx_exc cx = group_exceptions l -> (forall x, part_of n x -> fresh_part x) -> all_early n -> all_marked l n /\ none_auto n.
  Proof.
    intros EX F E. split; [|split].
    - intros x P. destruct (F x P) as [K FX]. assert (EY := E x P). split.
      + destruct x; cbn [kind_of overridden path_of marked_early] in *; subst; try (split; [intros [N|[]]; congruence|intros _; apply FX]); rewrite EY;
          (split; [intros _; apply waived_at_iff; exact EX|intro N; exfalso; apply N; right; exact I]).
      + intros k i k' r ->. destruct FX as [_ [_ FX]]. destruct (FX k' r eq_refl) as [-> [O _]]. split; [congruence|intros _; exact O].
    - intros k r P. destruct (F _ P) as [_ FX]. apply FX.
    - intros k i k' r P. destruct (F _ P) as [_ [_ [_ FX]]]. destruct (FX k' r eq_refl) as [_ G]. apply G.
  Qed.
End Loaded.
