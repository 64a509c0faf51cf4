(** Every course that auditing a solution may claim is among the matches of the rule. *)
From Coq Require Import List ZArith QArith Bool String Lia Sorted Permutation.
From Verif Require Import Prelude Dec Status Course Claims Exceptions Op Context CondExpr Paths Predicate Limit Apply Assertion Query CourseRule Tree Solve.
From Verif Require Import ListFacts LimitSpec LimitProps ClaimsSpec ClaimsProofs PathsSpec PathsProofs ExceptionsProofs AssertionSpec AssertionProofs PredicateProofs QuerySpec QueryProofs QueryProps CourseRuleSpec CourseRuleProofs TreeSpec TreeProofs TreeSolSpec TreeSolProofs TreeAskProps TreeAuditSpec TreeAuditProofs SolveSpec SolveProofs.
Import ListNotations.
Local Open Scope list_scope.

Lemma gnext_in {A} (g : gen A) x : gnext g = Ok x -> In x (g_items g).
Proof. unfold gnext. destruct g as [[|y l] e]; cbn; [destruct e; discriminate|]. intros [= ->]. auto. Qed.
Lemma course_asked cx l r s h a ms : cx_exc cx = group_exceptions l -> plain_course cx l r -> In s (g_items (c_solutions cx r)) -> course_asks s h -> In a h ->
  c_matches cx r = Ok ms -> In (at_course a) ms.
Proof.
  intros EX [FC IN] I CA Ia M. destruct CA as [O|N|U|c O E]; try (destruct Ia; fail). destruct Ia as [<-|[]]. cbn [at_course].
  unfold c_matches in M. rewrite FC in M. destruct (gall (find_courses cx r)) as [found|] eqn:G; cbn [bind] in M; [|discriminate]. injection M as <-.
  assert (GF : g_items (find_courses cx r) = found) by (unfold gall in G; destruct (g_exn (find_courses cx r)); [discriminate|congruence]).
  unfold c_solutions in I. destruct (_ || _)%bool.
  { destruct I as [<-|[]]. discriminate. }
  assert (J : In s (g_items (offered cx r)) \/ s = c_solution r None false false false).
  { unfold offered. destruct (gapp _ _) as [[|y ys] [e|]]; cbn [g_items] in *; auto. destruct I as [<-|[]]. auto. }
  clear I. destruct J as [J| ->]; [|discriminate]. unfold offered, gapp in J. rewrite EX in J.
  assert (K : In s (g_items (c_inserts cx r (get_inserts (group_exceptions l) (r_path r)))) \/
    In s (map (fun c => c_solution r (Some c) false false false) (filter (fun c => negb (c_skips r c)) (g_items (find_courses cx r))))).
  { destruct (g_exn (c_inserts _ _ _)); [auto|]. cbn [g_items] in J. rewrite in_app_iff in J. exact J. }
  clear J. apply in_or_app. destruct K as [K|K].
  - left. apply inserts_items in K. destruct K as [x [d [Ix [F [NX ->]]]]]. cbn in E. injection E as ->.
    assert (Ix' := Ix). apply inserts_at in Ix'. destruct Ix' as [Il [P [k [f A]]]]. destruct (IN x k f Il P A) as [d FD].
    assert (EK : exc_clbid x = k) by (unfold exc_clbid; rewrite A; reflexivity). rewrite EK in F. unfold forced_by_clbid in F. rewrite FD in F. injection F as ->.
    unfold c_insert_matches. rewrite EX. apply in_flat_map. exists x. split; auto. rewrite EK, FD.
    assert (CK : c_clbid c = k) by (apply find_some in FD; apply String.eqb_eq; tauto).
    destruct (excludes r k) eqn:X; [exfalso; apply NX; rewrite CK; apply excludes_iff; exact X|]. simpl. auto.
  - right. apply in_map_iff in K. destruct K as [d [<- Id]]. cbn in E. injection E as ->. apply filter_In in Id. destruct Id as [Id S]. rewrite GF in Id.
    apply filter_In. split; auto. unfold c_skips in S. rewrite !negb_orb in S. rewrite !andb_true_iff in S. apply S.
Qed.
Lemma query_asked ord cx l q s h a ms : set_order ord -> cx_exc cx = group_exceptions l -> plain_query q -> In s (g_items (q_solutions ord cx q)) -> query_asks cx s h -> In a h ->
  q_matches cx q = Ok ms -> In (ICourse (at_course a)) ms.
Proof.
  intros SO EX [CO RE] I QA Ia M. unfold q_matches in M. destruct (q_filtered cx q) as [[[data ins] forced]|] eqn:F; cbn [bind fst] in M; [|discriminate]. injection M as <-.
  assert (OV : q_overridden q = false \/ s = q_solution q [] [] []).
  { unfold q_solutions in I. destruct (q_overridden q); auto. destruct I as [<-|[]]. auto. }
  destruct (q_source q) eqn:QS.
  - destruct OV as [O| ->].
    + destruct (query_outputs_are_candidates ord cx l q s SO CO EX QS O I) as [out [[OU _] C]]. destruct (filtered_spec _ _ _ _ _ _ EX QS F) as [cs [-> [CC _]]].
      assert (IA : In (at_course a) out).
      { destruct QA as [W|cs' _ _ _ E|cs' _ _ _ _ E|cs' _ E _ _|]; try (destruct Ia; fail).
        - rewrite OU in E. apply in_map_iff in Ia. destruct Ia as [c [<- Ic]]. cbn. assert (X : In (ICourse c) (map ICourse out)) by (rewrite E; apply in_map; auto). apply in_map_iff in X. destruct X as [d [X Y]]. congruence.
        - rewrite OU in E. apply in_map_iff in Ia. destruct Ia as [c [<- Ic]]. cbn. assert (X : In (ICourse c) (map ICourse out)) by (rewrite E; apply in_map; auto). apply in_map_iff in X. destruct X as [d [X Y]]. congruence.
        - apply q_solutions_source in I. congruence. }
      apply in_map. apply CC, C, IA.
    + exfalso. destruct QA as [W|cs' _ _ _ E|cs' _ _ _ _ E|cs' _ E _ _|]; cbn in *; try (destruct cs'; try discriminate); try (destruct Ia; fail). congruence.
  - exfalso. assert (S := q_solutions_source _ _ _ _ I). assert (R : q_record s = false).
    { rewrite <- (RE eq_refl). unfold q_solutions in I. rewrite F, QS in I. destruct (q_overridden q); destruct I as [<-|[]]; reflexivity. }
    destruct QA as [W|cs' _ E|cs' _ E|cs' _ E Z|]; try (destruct Ia; fail); congruence.
  - exfalso. assert (S := q_solutions_source _ _ _ _ I). destruct QA as [W|cs' _ E|cs' _ E|cs' _ E Z|]; try (destruct Ia; fail); congruence.
  - exfalso. assert (S := q_solutions_source _ _ _ _ I). destruct QA as [W|cs' _ E|cs' _ E|cs' _ E Z|]; try (destruct Ia; fail); congruence.
  - exfalso. assert (S := q_solutions_source _ _ _ _ I). destruct QA as [W|cs' _ E|cs' _ E|cs' _ E Z|]; try (destruct Ia; fail); congruence.
Qed.
Lemma rule_asks cx n h : kind_of n = KRule -> forall a, In a h -> (kind_of n = KSol /\ asks cx n h) \/ (kind_of n <> KSol /\ h = []) -> False.
Proof. intros K a I [[E _]|[_ ->]]; [congruence|destruct I]. Qed.
Lemma mapr_concat_in {A B} (f : A -> res (list B)) l ls : mapr f l = Ok ls -> forall a xs y, In a l -> f a = Ok xs -> In y xs -> In y (List.concat ls).
Proof.
  intros M a xs y I F J. apply mapr_ok in M. destruct (F2_in_l _ _ _ _ M I) as [zs [Iz E]]. rewrite F in E. injection E as <-. apply in_concat. eauto.
Qed.
Section Asked.
  Context (ord : list course -> list course) (cx : ctx) (l : list exc).
  Hypothesis SO : set_order ord.
  Hypothesis EX : cx_exc cx = group_exceptions l.
  Lemma asked_matches n : rule_tree n -> plain_rule cx l n -> forall s h a ms, In s (g_items (solutions ord cx n)) -> asks cx s h -> In a h ->
    matches_of cx n = Ok ms -> In (ICourse (at_course a)) ms.
  Proof.
    induction n as [k r|k q|k i items IH|k i o IH|k i t f IHt IHf|k i c] using node_induction; intros RT [PC PQ] s h a ms I A Ia M.
    - cbn [solutions gmap g_items] in I. apply in_map_iff in I. destruct I as [y [<- I]]. inversion A; subst. cbn [matches_of] in M. unfold course_matches in M.
      destruct (c_matches cx r) as [cs|] eqn:E; cbn [bind] in M; [|discriminate]. injection M as <-. apply in_map. eapply course_asked; eauto. apply PC. left. exists k. constructor.
    - cbn [solutions gmap g_items] in I. apply in_map_iff in I. destruct I as [y [<- I]]. inversion A; subst. eapply query_asked; eauto. eapply PQ. constructor.
    - assert (RC : forall x, In x items -> kind_of x = KRule) by (intros x J; apply RT; eapply pt_count; [exact J|constructor]).
      cbn [matches_of] in M. destruct (mapr _ items) as [ls|] eqn:E; cbn [bind] in M; [|discriminate]. injection M as <-.
      assert (SUB : forall c y, In c items -> In y (g_items (solutions ord cx c)) -> forall h' a', asks cx y h' -> In a' h' -> In (ICourse (at_course a')) (List.concat ls)).
      { intros c y Ic Iy h' a' A' Ia'. destruct (mapr_each _ _ _ E c Ic) as [ms' E'].
        eapply mapr_concat_in; [exact E|exact Ic|exact E'|]. eapply (IH c Ic); eauto.
        - intros x P. apply RT. eapply pt_count; eauto.
        - split; [intros r [[k' P]|[k' [i' [k'' P]]]]; apply PC; [left|right]; repeat eexists; eapply pt_count; eauto|]. intros k' q P. eapply PQ. eapply pt_count; eauto. }
      rewrite solutions_count in I. unfold count_solutions in I. destruct (waived cx (n_path i)).
      { destruct I as [<-|[]]. unfold count_solution in A. inversion A as [| | |? ? ? hs O F| | | | | | | |]; subst; [destruct Ia|]. discriminate. }
      destruct (potential_children cx _) as [pot|] eqn:P; [|destruct I]. apply count_run_from in I. destruct I as [sel [sols [SI [SV ->]]]].
      unfold built, count_solution in A. inversion A as [| | |? ? ? hs O F| | | | | | | |]; subst; [destruct Ia|].
      apply in_concat in Ia. destruct Ia as [h' [Ih Ia]]. destruct (F2_in_r _ _ _ _ F Ih) as [y [Iy HY]].
      rewrite sort_in, !in_app_iff in Iy. destruct Iy as [Iy|[Iy|[]]].
      + destruct (solves_in _ _ _ SV Iy) as [c [Ic J]]. apply SI in Ic. rewrite sort_in in Ic.
        assert (IC : exists c', In c' items /\ c = child_of ord cx c').
        { unfold potential_children in P. destruct (filter_res _ _) as [fl|] eqn:FR; cbn [bind] in P; [|discriminate]. injection P as <-.
          apply filter_res_items in FR. destruct FR as [-> _]. apply dedup_incl in Ic. apply filter_In in Ic. destruct Ic as [Ic _].
          apply in_map_iff in Ic. destruct Ic as [c' [<- Ic]]. eauto. }
        destruct IC as [c' [Ic' ->]]. cbn [child_of snd] in J. destruct HY as [[_ HY]|[_ ->]]; [|destruct Ia]. eapply SUB; eauto.
      + exfalso. unfold unselected in Iy. apply filter_In in Iy. destruct Iy as [Iy _]. unfold children_set in Iy. apply dedup_incl in Iy.
        eapply rule_asks; [|exact Ia|exact HY]. auto.
    - cbn [solutions] in I. destruct (waived cx (e_path i)).
      { destruct I as [<-|[]]. unfold req_solution in A. inversion A; subst; try (destruct Ia; fail); discriminate. }
      destruct o as [z|]; [|destruct I as [<-|[]]; inversion A; subst; destruct Ia].
      cbn [gmap g_items] in I. apply in_map_iff in I. destruct I as [y [<- J]]. unfold req_solution in A. cbn [matches_of] in M.
      inversion A; subst; try (destruct Ia; fail). eapply (IH z eq_refl); eauto.
      + intros x P. apply RT. apply pt_req. exact P.
      + split; [intros r [[k' P]|[k' [i' [k'' P]]]]; apply PC; [left|right]; repeat eexists; apply pt_req; eauto|]. intros k' q P. eapply PQ. apply pt_req; eauto.
    - cbn [solutions matches_of] in *. destruct (e_result (d_cond i)) as [[|]|] eqn:ER; [|destruct f as [z|]; [|destruct I]|destruct I]; cbn [gmap g_items] in I; apply in_map_iff in I; destruct I as [y [<- J]].
      + inversion A as [| | | | | | | |? ? ? ? x ? IF KS AX|? ? ? ? NS| |]; subst; [|destruct Ia].
        assert (x = y) by (inversion IF; [reflexivity|congruence]). subst x. eapply IHt; eauto.
        * intros x P. apply RT. apply pt_true. exact P.
        * split; [intros r [[k' P]|[k' [i' [k'' P]]]]; apply PC; [left|right]; repeat eexists; apply pt_true; eauto|]. intros k' q P. eapply PQ. apply pt_true; eauto.
      + inversion A as [| | | | | | | |? ? ? ? x ? IF KS AX|? ? ? ? NS| |]; subst; [|destruct Ia].
        assert (x = y) by (inversion IF; congruence). subst x. eapply (IHf z eq_refl); eauto.
        * intros x P. apply RT. apply pt_false. exact P.
        * split; [intros r [[k' P]|[k' [i' [k'' P]]]]; apply PC; [left|right]; repeat eexists; apply pt_false; eauto|]. intros k' q P. eapply PQ. apply pt_false; eauto.
    - cbn [solutions matches_of] in *. unfold prof_solutions in I. destruct (waived cx (f_path i)).
      { destruct I as [<-|[]]. unfold prof_solution in A. inversion A; subst; [discriminate|destruct Ia]. }
      destruct c as [[k' r]|]; [|destruct I as [<-|[]]; inversion A; subst; destruct Ia].
      destruct (gnext _) as [s'|] eqn:G; [|destruct I]. destruct I as [<-|[]]. unfold prof_solution in A. apply gnext_in in G.
      inversion A; subst; [|destruct Ia]. unfold course_matches in M. destruct (c_matches cx r) as [cs|] eqn:E; cbn [bind] in M; [|discriminate]. injection M as <-.
      apply in_map. eapply course_asked; eauto. apply PC. right. exists k, i, k'. constructor.
  Qed.
End Asked.
Lemma claims_asked ord cx l n s r t t' cl ms : set_order ord -> cx_exc cx = group_exceptions l -> rule_tree n -> unaudited n -> plain_rule cx l n ->
  In s (g_items (solutions ord cx n)) -> audit ord cx t s = Ok (r, t') -> In cl (claims_of r) -> matches_of cx n = Ok ms -> In (ICourse (cl_course cl)) ms.
Proof.
  intros SO EX RT U PL I A IC M.
  destruct (audit_history ord cx s t r t' (solutions_unaudited ord cx n s U I) A) as [h [outs [AS [R [S _]]]]].
  assert (IO : In cl outs) by (apply (subseq_in _ _ _ S), filter_In in IC; apply IC).
  apply In_nth_error in IO. destruct IO as [m E].
  assert (L : (m < List.length h)%nat) by (rewrite <- (run_lengths _ _ _ _ _ R); apply nth_error_Some; congruence).
  apply nth_error_Some in L. destruct (nth_error h m) as [a|] eqn:EA; [|congruence].
  destruct (run_names _ _ _ _ _ _ _ _ R EA E) as [-> _].
  eapply asked_matches; eauto. eapply nth_error_In; eauto.
Qed.
