(** Every claim in the result of an area comes from a leaf of its rules. *)
From Coq Require Import List ZArith QArith Bool String Lia Sorted Permutation.
From Verif Require Import Prelude Dec Status Course Claims Exceptions Op Context CondExpr Paths Predicate Limit Apply Assertion Query CourseRule Tree Solve Transcript Driver Area.
From Verif Require Import ListFacts LimitSpec LimitProps ClaimsSpec ClaimsProofs PathsSpec PathsProofs ExceptionsProofs AssertionSpec AssertionProofs PredicateProofs QuerySpec QueryProofs QueryProps CourseRuleSpec CourseRuleProofs TreeSpec TreeProofs TreeSolSpec TreeSolProofs TreeAskProps TreeAuditSpec TreeAuditProofs SolveSpec SolveProofs SolveSafe SolveProps AreaSpec AreaProofs AreaProps ExactProps AreaOnceSpec AreaOnceProofs.
Import ListNotations.
Local Open Scope list_scope.

Section From.
  Context (ord : list course -> list course) (nord : list node -> list node) (cx : ctx).
  Hypothesis NO : forall l, Permutation (nord l) l.
  (** a leaf of [n] asks for [a] in one of its solutions *)
  Definition leaf_from (n : node) (a : attempt) : Prop :=
    exists x, part_of n x /\
      ((exists k r s h, x = NCourse k r /\ In s (g_items (c_solutions cx r)) /\ course_asks s h /\ In a h) \/
       (exists k i k' r s h, x = NProf k i (Some (k', r)) /\ In s (g_items (c_solutions cx r)) /\ course_asks s h /\ In a h) \/
       (exists k q s h, x = NQuery k q /\ In s (g_items (q_solutions ord cx q)) /\ query_asks cx s h /\ In a h)).
  Definition claim_from (n : node) (cl : claim) : Prop := exists a, leaf_from n a /\ cl_course cl = at_course a /\ cl_by cl = at_path a.
  Lemma claim_up n m cl : (forall x, part_of m x -> part_of n x) -> claim_from m cl -> claim_from n cl.
  Proof. intros S (a & (x & P & L) & C & B). exists a. split; [exists x; auto|auto]. Qed.
  Lemma claim_whole n s t r t' cl : rule_tree n -> unaudited n -> In s (g_items (solutions ord cx n)) -> audit ord cx t s = Ok (r, t') -> In cl (claims_of r) -> claim_from n cl.
  Proof.
    intros RT U I A J. destruct (claim_asked ord cx s t r t' cl (solutions_unaudited ord cx n s U I) A J) as (h & a & AS & Ia & C & B & _).
    destruct (asked_leaf ord cx n RT s h a I AS Ia) as (x & P & L & _). exists a. split; [exists x; auto|auto].
  Qed.
  (** the children at the top have different paths *)
  Definition top_siblings (n : node) : Prop := forall k i items, heads n (NCount k i items) -> siblings items /\ (0 <= n_count i)%Z.
  Lemma claim_top n : rule_tree n -> unaudited n -> top_siblings n ->
    forall s t r t' cl, g_exn (fst (top_solutions ord nord cx [] n)) = None -> In s (g_items (fst (top_solutions ord nord cx [] n))) -> audit ord cx t s = Ok (r, t') ->
    In cl (claims_of r) -> claim_from n cl.
  Proof.
    induction n as [kd x|kd q|kd i items IH|kd i o IH|kd i bt f IHt IHf|kd i c] using node_induction; intros RT U TT s t r t' cl G I A J.
    1, 2, 4, 6: cbn [top_solutions fst] in I; eapply claim_whole; eauto.
    - destruct (TT kd i items (hd_self _)) as [SB C0]. cbn [top_solutions] in G, I.
      assert (WHOLE : waived cx (n_path i) = true \/ n_audits i <> [] \/ (forall c, ~ usable cx items c) -> claim_from (NCount kd i items) cl).
      { intro H. destruct (proj1 top_solutions_otherwise ord nord cx [] i items H (proj1 SB)) as [E _]. rewrite <- (E kd) in I. eapply claim_whole; eauto. }
      destruct (waived cx (n_path i)) eqn:W; [auto|]. destruct (n_audits i) eqn:NA; [|apply WHOLE; right; left; discriminate].
      destruct (filter (has_potential cx) items) as [|u0 us] eqn:US.
      { apply WHOLE. right. right. intros c [Ic P]. apply potential_iff in P. assert (K : In c (filter (has_potential cx) items)) by (apply filter_In; auto). rewrite US in K. destruct K. }
      assert (NE : filter (has_potential cx) items <> []) by (rewrite US; discriminate). clear WHOLE US u0 us.
      destruct (top_count_ok ord nord cx i items NO SB C0 W NA NE [] s G) as [TC _]. apply TC in I. clear TC.
      destruct I as (chosen & out & m & l & _ & CH & _ & _ & ST & PE & _ & ->).
      cbn [audit n_overridden n_audits] in A. destruct (audit_each (audit ord cx) t out) as [[rs t1]|] eqn:AE; cbn [bind] in A; [|discriminate].
      rewrite NA in A. cbn [mapr bind] in A. injection A as <- <-. cbn [claims_of] in J. apply in_flat_map in J. destruct J as (y & Iy & J).
      assert (SUBP : forall c, In c items -> forall x, part_of c x -> part_of (NCount kd i items) x) by (intros c Ic x P; eapply pt_count; eauto).
      assert (EACH : exists x t2 t3, In x out /\ (if match kind_of x with KSol => true | _ => false end then audit ord cx t2 x = Ok (y, t3) else y = x)).
      { clear - AE Iy. revert t rs t1 AE Iy. induction out as [|x out IHo]; intros t rs t1 AE Iy; cbn [audit_each] in AE; [injection AE as <- <-; destruct Iy|].
        match type of AE with bind ?z _ = _ => destruct z as [[y0 t2]|] eqn:A end; cbn [bind] in AE; [|discriminate].
        destruct (audit_each (audit ord cx) t2 out) as [[ys t3]|] eqn:B; cbn [bind] in AE; [|discriminate]. injection AE as <- <-. destruct Iy as [<-|Iy].
        - exists x, t, t2. split; [left; reflexivity|]. destruct (kind_of x); try (injection A as <- _; reflexivity). exact A.
        - destruct (IHo _ _ _ B Iy) as (x' & a & b & X & Y). exists x', a, b. split; [right; exact X|exact Y]. }
      destruct EACH as (x & t2 & t3 & Ix & AX). apply (Permutation_in _ (Permutation_sym PE)) in Ix. destruct (F2_in_r _ _ _ _ ST Ix) as (c & Ic & SX).
      assert (RTc : rule_tree c) by (eapply rule_tree_sub; [apply SUBP; exact Ic|exact RT]). assert (Uc : unaudited c) by (eapply fresh_sub; [apply SUBP; exact Ic|exact U]).
      apply (claim_up _ c); [apply SUBP; exact Ic|]. destruct SX as [[_ (ta & z & SE)]|[[_ [_ IS]]|[_ [_ ->]]]].
      + apply selected_in in SE. destruct SE as (s' & q & IS & CA & _). assert (K := audit_kind _ _ _ _ _ _ CA). rewrite K in AX. subst y. eapply claim_whole; eauto.
      + destruct (solutions_keep _ _ _ _ IS) as [_ K]. rewrite K in AX. eapply claim_whole; eauto.
      + rewrite (RTc c (pt_self c)) in AX. subst y. rewrite (unaudited_claims c Uc) in J. destruct J.
    - destruct (e_result (d_cond i)) as [[|]|] eqn:ER.
      + apply (proj1 (proj2 (proj2 top_solutions_otherwise)) ord nord cx [] kd i bt f ER) in I. destruct I as [x [I ->]].
        assert (G' : g_exn (fst (top_solutions ord nord cx [] bt)) = None).
        { cbn [top_solutions] in G. rewrite ER in G. destruct (top_solutions ord nord cx [] bt) as [g tt]. cbn in *. exact G. }
        cbn [audit] in A. rewrite ER in A. rewrite (top_kind _ _ _ _ _ _ I) in A.
        destruct (audit ord cx t x) as [[y t1]|] eqn:AX; cbn [bind] in A; [|discriminate]. injection A as <- <-. cbn [claims_of] in J. rewrite ER in J.
        assert (SUBP : forall y, part_of bt y -> part_of (NCond kd i bt f) y) by (intros z P; apply pt_true; exact P).
        apply (claim_up _ bt _ SUBP). eapply IHt; eauto.
        * eapply rule_tree_sub; [exact SUBP|exact RT].
        * eapply fresh_sub; [exact SUBP|exact U].
        * intros kd' i' items' H. apply (TT kd'). eapply hd_branch; [apply if_true; exact ER|exact H].
      + destruct f as [f|]; [|cbn [top_solutions] in I; rewrite ER in I; destruct I].
        apply (proj2 (proj2 (proj2 top_solutions_otherwise)) ord nord cx [] kd i bt f ER) in I. destruct I as [x [I ->]].
        assert (G' : g_exn (fst (top_solutions ord nord cx [] f)) = None).
        { cbn [top_solutions] in G. rewrite ER in G. destruct (top_solutions ord nord cx [] f) as [g tt]. cbn in *. exact G. }
        cbn [audit] in A. rewrite ER in A. rewrite (top_kind _ _ _ _ _ _ I) in A.
        destruct (audit ord cx t x) as [[y t1]|] eqn:AX; cbn [bind] in A; [|discriminate]. injection A as <- <-. cbn [claims_of] in J. rewrite ER in J.
        assert (SUBP : forall y, part_of f y -> part_of (NCond kd i bt (Some f)) y) by (intros z P; apply pt_false; exact P).
        apply (claim_up _ f _ SUBP). eapply (IHf f eq_refl); eauto.
        * eapply rule_tree_sub; [exact SUBP|exact RT].
        * eapply fresh_sub; [exact SUBP|exact U].
        * intros kd' i' items' H. apply (TT kd'). eapply hd_branch; [eapply if_false; [exact ER|reflexivity]|exact H].
      + cbn [top_solutions] in I. rewrite ER in I. destruct I.
  Qed.
End From.

(** a course rule and a query do not claim what they exclude *)
Lemma course_not_excluded cx r s c : In s (g_items (c_solutions cx r)) -> r_matched s = Some c -> ~ In (c_clbid c) (r_excluded r).
Proof.
  intros I M. unfold c_solutions in I. destruct (_ || _)%bool; [destruct I as [<-|[]]; discriminate M|].
  assert (J : In s (g_items (offered cx r)) \/ s = c_solution r None false false false).
  { unfold offered. destruct (gapp _ _) as [[|y ys] [e|]]; cbn [g_items] in *; auto. destruct I as [<-|[]]. auto. }
  destruct J as [J| ->]; [|discriminate M]. unfold offered, gapp in J.
  assert (K : In s (g_items (c_inserts cx r (get_inserts (cx_exc cx) (r_path r)))) \/
    In s (map (fun c => c_solution r (Some c) false false false) (filter (fun c => negb (c_skips r c)) (g_items (find_courses cx r))))).
  { destruct (g_exn (c_inserts _ _ _)); [auto|]. cbn [g_items] in J. rewrite in_app_iff in J. exact J. }
  destruct K as [K|K].
  - apply inserts_items in K. destruct K as (x & d & _ & _ & N & ->). cbn in M. injection M as ->. exact N.
  - apply in_map_iff in K. destruct K as (d & <- & K). cbn in M. injection M as ->. apply filter_In in K. destruct K as [_ K]. unfold c_skips in K. rewrite !negb_orb, !andb_true_iff in K.
    destruct K as [[K _] _]. apply negb_true_iff in K. apply excludes_no. exact K.
Qed.
Lemma leaf_not_excluded ord cx l n a : set_order ord -> keyed cx -> cx_exc cx = group_exceptions l ->
  (forall k q, part_of n (NQuery k q) -> coherent (q_limit q)) -> leaf_from ord cx n a ->
  (exists k r, part_of n (NCourse k r) /\ r_path r = at_path a /\ ~ In (c_clbid (at_course a)) (r_excluded r)) \/
  (exists k i k' r, part_of n (NProf k i (Some (k', r))) /\ r_path r = at_path a) \/
  (exists k q, part_of n (NQuery k q) /\ q_path q = at_path a /\ (q_source q = QClaimed \/ ~ In (c_clbid (at_course a)) (q_excluded q))).
Proof.
  intros SO KE EX CO (x & P & [(k & r & s & h & -> & I & CA & J)|[(k & i & k' & r & s & h & -> & I & CA & J)|(k & q & s & h & -> & I & QA & J)]]).
  - left. exists k, r. split; [exact P|]. destruct (course_from cx l r s h a EX I CA J) as (PA & _). split; [auto|]. destruct CA as [| | |c O M]; try (destruct J; fail). destruct J as [<-|[]]. cbn. eapply course_not_excluded; eauto.
  - right. left. exists k, i, k', r. split; [exact P|]. destruct (course_from cx l r s h a EX I CA J) as (PA & _). auto.
  - right. right. exists k, q. split; [exact P|]. destruct (query_from ord cx l q s h a SO EX (CO k q P) I QA J) as (PA & _). split; [auto|].
    assert (SRC := q_solutions_source _ _ _ _ I). destruct (q_source q) eqn:QS; [|left; reflexivity|exfalso|exfalso|exfalso].
    + right. assert (OV : q_overridden q = false \/ s = q_solution q [] [] []) by (unfold q_solutions in I; destruct (q_overridden q); [destruct I as [<-|[]]; auto|auto]).
      destruct QA as [W|cs O QQ AT E|cs O QQ AT RE E|cs O QQ RE KN|]; try (destruct J; fail); [| |congruence];
        (destruct OV as [OQ| ->]; [|cbn in E; destruct cs; [destruct J|discriminate]]); apply in_map_iff in J; destruct J as (c & <- & J); cbn [at_course shared_at];
        eapply (excluded_courses_are_not_offered ord cx l q s cs); eauto.
    + destruct QA as [W|cs O QQ AT E|cs O QQ AT RE E|cs O QQ RE KN|]; try (destruct J; fail); congruence.
    + destruct QA as [W|cs O QQ AT E|cs O QQ AT RE E|cs O QQ RE KN|]; try (destruct J; fail); congruence.
    + destruct QA as [W|cs O QQ AT E|cs O QQ AT RE E|cs O QQ RE KN|]; try (destruct J; fail); congruence.
Qed.
