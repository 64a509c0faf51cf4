(** Property theorems about choosing the best solution and solving independent children on
    their own (C06, C07, C38, C83, C84, C85). *)
From Coq Require Import List ZArith QArith Bool String Lia Sorted Permutation.
From Verif Require Import Prelude Dec Status Course Claims Exceptions Op Context CondExpr Paths Predicate Limit Apply Assertion Query CourseRule Tree Solve.
From Verif Require Import ListFacts LimitSpec LimitProps ClaimsSpec ClaimsProofs PathsSpec PathsProofs ExceptionsProofs AssertionSpec AssertionProofs PredicateProofs QuerySpec QueryProofs QueryProps CourseRuleSpec CourseRuleProofs CourseRuleProps TreeSpec TreeProofs TreeStatusProps TreeSolSpec TreeSolProofs TreeSolProps TreeAuditSpec TreeAuditProofs TreeAuditProps SolveSpec SolveProofs SolveSafe.
Import ListNotations.
Local Open Scope string_scope.
Local Open Scope list_scope.

(** ** Sample courses and contexts *)
Definition under_way (this future : bool) (c : course) : course :=
  {| c_clbid := c_clbid c; c_attributes := []; c_credits := c_credits c; c_crsid := c_crsid c;
     c_course_type := CtSemester; c_gereqs := []; c_gpa_points := c_gpa_points c;
     c_grade_code := c_grade_code c; c_grade_option := c_grade_option c; c_grade_points := c_grade_points c;
     c_institution := "STOLAF"; c_in_gpa := true; c_in_progress := true;
     c_ip_this_term := this; c_ip_in_future := future; c_incomplete := false;
     c_repeat := false; c_stolaf := true; c_lab := false; c_covid := false;
     c_level := 100; c_name := c_name c; c_number := c_number c; c_schedid := None; c_section := None; c_sub_type := StNormal;
     c_subject := c_subject c; c_su_grade := None; c_term := "1"; c_transcript_code := TcEmpty;
     c_year := 2000; c_yearterm := "20001"; c_identity := c_identity c; c_chbi := None |}.
Definition a_now : course := under_way true false (mk_simple "100" "A" "1").
Definition b_later : course := under_way false true (mk_simple "200" "B" "1").
Definition plain_ctx (cs : list course) : ctx := mkCtx cs [] [] [] [] (group_exceptions []) [] [] [] no_proficiencies.
Definition best_claims (cs : list course) (t : claims) (n : node) (merge : bool) : option (option (list (string * path)) * list string) :=
  match find_best_solution same_order (plain_ctx cs) t n merge with
  | Ok (Some r, t') => Some (Some (who r), map fst t')
  | Ok (None, t') => Some (None, map fst t')
  | Err _ => None
  end.
Definition one_of (names : list string) : node := rules 1 true (map named names).

(** ** C06 *)

(** The best result of a rule, exactly: the first complete candidate, otherwise the first of
    the largest rank; none only if there is no candidate. Each candidate is audited on an
    empty table. *)
Theorem find_best_exact :
  forall ord cx t n merge best,
  (exists t', find_best_solution ord cx t n merge = Ok (best, t')) <->
  (exists r own last, best = Some r /\ selected ord cx (solutions ord cx n) r own last) \/
  (best = None /\ merge = false /\ solutions ord cx n = Gen [] None).
Proof.
  intros ord cx t n merge best. unfold find_best_solution. fold (run_of ord cx (solutions ord cx n)). split.
  - intros [t' H]. destruct (run_cases ord cx (solutions ord cx n)) as [[r [own [z S]]]|[[e S]|[E N]]].
    + rewrite (selected_run _ _ _ _ _ _ S) in H. cbn [bind] in H. left. exists r, own, z. split; auto. destruct merge; congruence.
    + rewrite (raised_run _ _ _ _ S) in H. discriminate.
    + rewrite (empty_run _ _ _ E N) in H. cbn [bind] in H. right. destruct merge; [discriminate|]. split; [congruence|]. split; auto. destruct (solutions ord cx n). cbn in *. congruence.
  - intros [[r [own [z [-> S]]]]|[-> [-> E]]].
    + rewrite (selected_run _ _ _ _ _ _ S). cbn [bind]. destruct merge; eauto.
    + rewrite (empty_run ord cx (solutions ord cx n)) by (rewrite E; reflexivity). cbn. eauto.
Qed.
Print Assumptions find_best_exact.
(** An exception comes from a candidate looked at, or from listing the candidates; merging
    with no candidate at all raises UnboundLocalError. *)
Theorem find_best_raises :
  forall ord cx t n merge e, find_best_solution ord cx t n merge = Err e <->
  raised ord cx (solutions ord cx n) e \/ (merge = true /\ solutions ord cx n = Gen [] None /\ e = UnboundErr).
Proof.
  intros ord cx t n merge e. unfold find_best_solution. fold (run_of ord cx (solutions ord cx n)). split.
  - intro H. destruct (run_cases ord cx (solutions ord cx n)) as [[r [own [z S]]]|[[e' S]|[E N]]].
    + rewrite (selected_run _ _ _ _ _ _ S) in H. cbn [bind] in H. destruct merge; discriminate.
    + rewrite (raised_run _ _ _ _ S) in H. cbn [bind] in H. left. congruence.
    + rewrite (empty_run _ _ _ E N) in H. cbn [bind] in H. destruct merge; [|discriminate]. right. split; auto. split; [destruct (solutions ord cx n); cbn in *; congruence|congruence].
  - intros [S|[-> [E ->]]].
    + rewrite (raised_run _ _ _ _ S). reflexivity.
    + rewrite (empty_run ord cx (solutions ord cx n)) by (rewrite E; reflexivity). reflexivity.
Qed.
Print Assumptions find_best_raises.
(** What is selected is unique. *)
Theorem selection_is_unique :
  forall ord cx g r own z r' own' z', selected ord cx g r own z -> selected ord cx g r' own' z' -> r = r' /\ z = z'.
Proof. exact selected_fun. Qed.
Print Assumptions selection_is_unique.
(** the claims of the caller: untouched without merging, otherwise overlaid with those of the
    candidate looked at last *)
Theorem find_best_claims :
  forall ord cx t n merge r t', find_best_solution ord cx t n merge = Ok (Some r, t') ->
  (merge = false -> t' = t) /\
  (merge = true -> exists own last, selected ord cx (solutions ord cx n) r own last /\ overlays t last t').
Proof.
  intros ord cx t n merge r t' H. split; intros ->.
  - unfold find_best_solution in H. destruct (best_loop _ _ _ _ _ _) as [[b z]|]; cbn [bind] in H; [congruence|discriminate].
  - apply find_best_merge in H. destruct H as [r' [own [z [E [S ->]]]]]. injection E as <-. exists own, z. split; auto.
    destruct (selected_table _ _ _ _ _ _ S) as [s [r' [q [A _]]]]. intro k. apply merged_recorded. eapply audit_sound; eauto.
Qed.
Print Assumptions find_best_claims.
Example best_example :
  best_claims [mk_simple "100" "A" "1"; mk_simple "200" "B" "1"] [] (one_of ["A 1"; "B 1"]) false = Some (Some [("100", ["$"; ".count"; "*A 1"])], []) /\
  best_claims [a_now; mk_simple "200" "B" "1"] [] (one_of ["A 1"; "B 1"]) false = Some (Some [("200", ["$"; ".count"; "*B 1"])], []) /\
  best_claims [a_now; b_later] [] (one_of ["A 1"; "B 1"]) false = Some (Some [("100", ["$"; ".count"; "*A 1"])], []) /\
  best_claims [] [] (when (Some false) (named "A 1") None) false = Some (None, []) /\
  best_claims [] [] (when (Some false) (named "A 1") None) true = None.
Proof. vm_compute. auto. Qed.

(** ** C07 *)

(** The claims merged into the table of the caller are those the selected result made. *)
Definition merged_claims_are_those_of_best : Prop :=
  forall ord cx t n r t', find_best_solution ord cx t n true = Ok (Some r, t') ->
  forall cl, In cl (claims_of r) -> In cl (recorded t' (c_clbid (cl_course cl))).
(** They are those of the last candidate: with course A under way and B registered for later,
    A is selected and B is merged. *)
Theorem merged_claims_are_those_of_best_refuted : ~ merged_claims_are_those_of_best.
Proof.
  intro H. specialize (H same_order (plain_ctx [a_now; b_later]) [] (one_of ["A 1"; "B 1"])).
  assert (X : exists r t' cl, find_best_solution same_order (plain_ctx [a_now; b_later]) [] (one_of ["A 1"; "B 1"]) true = Ok (Some r, t') /\ In cl (claims_of r) /\ c_clbid (cl_course cl) = "100" /\ recorded t' "100" = []).
  { vm_compute. eexists. eexists. eexists. split; [reflexivity|]. split; [left; reflexivity|]. split; reflexivity. }
  destruct X as [r [t' [cl [E [I [K R]]]]]]. specialize (H r t' E cl I). rewrite K, R in H. destruct H.
Qed.
Print Assumptions merged_claims_are_those_of_best_refuted.
(** It holds when the result is complete, which is when the search stops at it; or when
    there is only one candidate. *)
Theorem merged_claims_are_those_of_best_partial :
  forall ord cx t n r t', find_best_solution ord cx t n true = Ok (Some r, t') ->
  complete (status_of r) \/ (exists s, g_items (solutions ord cx n) = [s]) ->
  exists s own, In s (g_items (solutions ord cx n)) /\ audit ord cx [] s = Ok (r, own) /\ overlays t own t'.
Proof.
  intros ord cx t n r t' H C. apply find_best_merge in H. destruct H as [r' [own [z [E [S ->]]]]]. injection E as <-.
  assert (X : exists s q, In s (g_items (solutions ord cx n)) /\ candidate ord cx s r q z).
  { destruct S as [pre s post r q t0 E F CA K|pre s post r q t0 all z zr zq zt N E F CA L1 L2 EZ CZ].
    - exists s, q. split; auto. rewrite E. apply in_or_app. simpl. auto.
    - assert (I : In s (g_items (solutions ord cx n))) by (rewrite E; apply in_or_app; simpl; auto). destruct C as [C|[s0 E0]].
      + exfalso. rewrite Forall_forall in F. destruct (F s I) as [r1 [q1 [t1 [C1 NC]]]]. destruct (candidate_fun _ _ _ _ _ _ _ _ _ CA C1) as [-> _]. contradiction.
      + exists s, q. split; auto. rewrite E0 in *. assert (s = s0) by (destruct I as [<-|[]]; auto). subst s0.
        assert (z = s) by (destruct all as [|? [|]]; cbn in EZ; congruence). subst z. destruct (candidate_fun _ _ _ _ _ _ _ _ _ CA CZ) as [-> [-> ->]]. exact CZ. }
  destruct X as [s [q [I [A _]]]]. exists s, z. split; auto. split; auto. intro k. apply merged_recorded. eapply audit_sound; eauto.
Qed.
Print Assumptions merged_claims_are_those_of_best_partial.
Example merged_example :
  best_claims [mk_simple "100" "A" "1"; mk_simple "200" "B" "1"] [("300", [])] (one_of ["A 1"; "B 1"]) true = Some (Some [("100", ["$"; ".count"; "*A 1"])], ["300"; "100"]).
Proof. vm_compute. auto. Qed.

(** ** C38 *)

(** Of the children that match anything, each is classified once; a child may be solved on
    its own exactly when it competes with no other one and is not declared never disjoint, or
    is the only one. *)
Theorem classification_exact :
  forall cx items ms dis non, NoDup (map path_of items) -> Permutation (map fst ms) items ->
  (forall n m, In (n, m) ms -> matches_of cx n = Ok m) -> classify ms = (dis, non) ->
  NoDup (map path_of dis) /\ NoDup (map path_of non) /\
  forall c, In c items ->
    ((In c dis <-> items = [c] \/ (never_disjoint c = false /\ forall d, In d items -> d <> c -> ~ competes cx c d)) /\
     (In c non <-> ~ In c dis)).
Proof.
  intros cx items ms dis non ND P M CL.
  assert (NM : NoDup (map path_of (map fst ms))) by (eapply Permutation_NoDup; [|exact ND]; apply Permutation_map; symmetry; exact P).
  destruct (classify_ok cx ms dis non NM M CL) as [D1 [D2 [D3 D4]]]. split; auto. split; auto. intros c I.
  assert (IP : forall x, In x (map fst ms) <-> In x items) by (intro x; split; apply Permutation_in; [exact P|symmetry; exact P]).
  assert (AL : alone cx (map fst ms) c <-> items = [c] \/ (never_disjoint c = false /\ forall d, In d items -> d <> c -> ~ competes cx c d)).
  { unfold alone. split; (intros [H|[K H]]; [left|right; split; auto]).
    - assert (N : NoDup items) by (eapply NoDup_map_inv; exact ND). destruct items as [|x [|y items]]; [destruct I|destruct I as [->|[]]; auto|].
      exfalso. assert (x = c) by (apply H, IP; simpl; auto). assert (y = c) by (apply H, IP; simpl; auto). subst. inversion N as [|? ? Z _]; subst. apply Z. simpl. auto.
    - intros d J. apply H, IP, J.
    - intros d J. apply IP in J. rewrite H in J. destruct J as [<-|[]]; auto.
    - intros d J. apply H, IP, J. }
  split; [rewrite D1, <- AL, IP; tauto|]. rewrite D2, D1, IP. tauto.
Qed.
Print Assumptions classification_exact.
(** a query of all the courses, made to count the claimed ones, and a rule shared freely *)
Definition child (p : string) (n : node) : node := NReq KRule (mkReq ["$"; ".count"; p] false p false false true None) (Some n).
Definition classified (cx : ctx) (items : list node) : res (list path * list path) :=
  let! ms := mapr (fun n => let! m := matches_of cx n in Ok (n, m)) items in
  Ok (map path_of (fst (classify ms)), map path_of (snd (classify ms))).
Example classification_example :
  let cx := plain_ctx [mk_simple "100" "A" "1"; mk_simple "200" "B" "1"] in
  classified cx [child "%x" (named "A 1"); child "%y" (named "B 1"); child "%z" (rules 1 false [named "A 1"; named "C 1"])] =
    Ok ([["$"; ".count"; "%y"]], [["$"; ".count"; "%x"]; ["$"; ".count"; "%z"]]) /\
  classified cx [child "%x" (named "A 1")] = Ok ([["$"; ".count"; "%x"]], []).
Proof. vm_compute. auto. Qed.

(** ** C83: solutions at the top *)

(** Listing the solutions of the top requirement: its independent children are replaced by
    their best results, the others are combined as anywhere else; in whatever order sets are
    visited. *)
Theorem top_solutions_exact :
  forall ord nord cx t i items s, (forall l, Permutation (nord l) l) -> siblings items -> (0 <= n_count i)%Z ->
  waived cx (n_path i) = false -> n_audits i = [] -> (exists c, usable cx items c) ->
  g_exn (fst (top_count_solutions ord nord cx t i items)) = None ->
  (In s (g_items (fst (top_count_solutions ord nord cx t i items))) <-> top_choice ord cx i items s) /\
  g_items (fst (top_count_solutions ord nord cx t i items)) <> [].
Proof.
  intros ord nord cx t i items s NO SB C0 W NA [c U] N. apply top_count_ok; auto.
  intro E. destruct U as [I P]. apply potential_iff in P. assert (J : In c (filter (has_potential cx) items)) by (apply filter_In; auto). rewrite E in J. destruct J.
Qed.
Print Assumptions top_solutions_exact.
(** and the table is overlaid with the last table of each independent child *)
Theorem top_solutions_claims :
  forall ord nord cx t i items, (forall l, Permutation (nord l) l) -> siblings items ->
  waived cx (n_path i) = false -> n_audits i = [] -> (exists c, usable cx items c) ->
  g_exn (fst (top_count_solutions ord nord cx t i items)) = None ->
  exists cs zs, NoDup cs /\ (forall c, In c cs <-> independent cx items c) /\
    Forall2 (fun c z => exists r own, selected ord cx (solutions ord cx c) r own z) cs zs /\
    overlaid t zs (snd (top_count_solutions ord nord cx t i items)).
Proof.
  intros ord nord cx t i items NO SB W NA [c0 U0] N.
  assert (NE : filter (has_potential cx) items <> []).
  { intro E. destruct U0 as [I P]. apply potential_iff in P. assert (J : In c0 (filter (has_potential cx) items)) by (apply filter_In; auto). rewrite E in J. destruct J. }
  destruct (top_shape ord nord cx i items SB W NA NE t) as [[e E]|(ms & dis & non & solved & t' & M & CL & SI & T & E)]; rewrite E in *; cbn [fst snd] in *; [discriminate|].
  destruct (mapr_pairs _ _ _ M) as [MF MM].
  assert (PU : Permutation (map fst ms) (filter (has_potential cx) items)) by (rewrite MF; apply NO).
  assert (NDU : NoDup (map path_of (filter (has_potential cx) items))) by (apply NoDup_map_filter, SB).
  assert (NM : NoDup (map path_of (map fst ms))) by (eapply Permutation_NoDup; [|exact NDU]; apply Permutation_map; symmetry; exact PU).
  destruct (classify_ok cx ms dis non NM MM CL) as [D1 [D2 [D3 D4]]].
  assert (INU : forall c, In c (map fst ms) <-> usable cx items c).
  { intro c. unfold usable. rewrite <- potential_iff, <- filter_In. split; apply Permutation_in; [exact PU|symmetry; exact PU]. }
  assert (Z : forall l t0 solved0 t1, solve_independent ord cx t0 l = Ok (solved0, t1) ->
    exists zs, Forall2 (fun c z => exists r own, selected ord cx (solutions ord cx c) r own z) l zs /\ overlaid t0 zs t1).
  { clear. induction l as [|c l IH]; intros t0 solved0 t1 H; cbn [solve_independent] in H; [injection H as <- <-; exists []; split; constructor|].
    destruct (find_best_solution ord cx t0 c true) as [[o tm]|] eqn:F; cbn [bind] in H; [|discriminate].
    destruct (solve_independent ord cx tm l) as [[rs t2]|] eqn:E; cbn [bind] in H; [|discriminate]. injection H as <- <-.
    destruct (find_best_merge _ _ _ _ _ _ F) as [r [own [z [-> [S ->]]]]]. destruct (IH _ _ _ E) as [zs [F2 O]]. exists (z :: zs). split; [constructor; eauto|].
    eapply ov_cons; [|exact O]. destruct (selected_table _ _ _ _ _ _ S) as [s [r' [q [A _]]]]. intro k. apply merged_recorded. eapply audit_sound; eauto. }
  destruct (Z _ _ _ _ SI) as [zs [F2 O]]. exists (nord dis), zs. split; [|split; [|split; auto]].
  - eapply NoDup_map_inv with (f := path_of). eapply Permutation_NoDup; [|exact D3]. apply Permutation_map. symmetry. apply NO.
  - intro c. assert (X : In c (nord dis) <-> In c dis) by (split; apply Permutation_in; [|symmetry]; apply NO). rewrite X, D1, INU.
    unfold independent, alone. split; (intros [V [A|[K A]]]; split; auto; [left|right; split; auto]); intros d J; apply A, INU, J.
Qed.
Print Assumptions top_solutions_claims.
(** Everywhere else the solutions are the ordinary ones and the table is left alone. *)
Theorem top_solutions_otherwise :
  (forall ord nord cx t i items, waived cx (n_path i) = true \/ n_audits i <> [] \/ (forall c, ~ usable cx items c) ->
     NoDup (map path_of items) ->
     (forall k, solutions ord cx (NCount k i items) = fst (top_count_solutions ord nord cx t i items)) /\
     snd (top_count_solutions ord nord cx t i items) = t) /\
  (forall ord nord cx t n, (forall k i items, n <> NCount k i items) -> (forall k i b f, n <> NCond k i b f) ->
     top_solutions ord nord cx t n = (solutions ord cx n, t)) /\
  (forall ord nord cx t k i b f, e_result (d_cond i) = Some true -> forall s,
     (In s (g_items (fst (top_solutions ord nord cx t (NCond k i b f)))) <->
      exists x, In x (g_items (fst (top_solutions ord nord cx t b))) /\ s = NCond KSol i x f) /\
     snd (top_solutions ord nord cx t (NCond k i b f)) = snd (top_solutions ord nord cx t b)) /\
  (forall ord nord cx t k i b f, e_result (d_cond i) = Some false -> forall s,
     (In s (g_items (fst (top_solutions ord nord cx t (NCond k i b (Some f))))) <->
      exists x, In x (g_items (fst (top_solutions ord nord cx t f))) /\ s = NCond KSol i b (Some x)) /\
     snd (top_solutions ord nord cx t (NCond k i b (Some f))) = snd (top_solutions ord nord cx t f)).
Proof.
  split; [|split; [|split]].
  - intros ord nord cx t i items H ND. unfold top_count_solutions. setoid_rewrite solutions_count. unfold count_solutions.
    change (map (fun c => (c, solutions ord cx c)) items) with (map (child_of ord cx) items). destruct (waived cx (n_path i)); [auto|]. destruct H as [H|H]; [discriminate|].
    destruct (potential_children cx (map (child_of ord cx) items)) as [pot|] eqn:PC; [|auto].
    destruct pot as [|p pot]; [auto|]. destruct (n_audits i) eqn:NA; [|auto]. exfalso. destruct H as [H|H]; [congruence|].
    destruct (potential_children_ok ord cx items _ ND PC) as [E _]. destruct (filter (has_potential cx) items) as [|c fs] eqn:F; [discriminate|].
    assert (J : In c (filter (has_potential cx) items)) by (rewrite F; simpl; auto). apply filter_In in J. destruct J as [J K]. apply potential_iff in K. apply (H c). split; auto.
  - intros ord nord cx t n H1 H2. destruct n; try reflexivity; exfalso; [eapply H1|eapply H2]; reflexivity.
  - intros ord nord cx t k i b f E s. cbn [top_solutions]. rewrite E. destruct (top_solutions ord nord cx t b) as [g t']. cbn [fst snd gmap g_items]. split; auto.
    rewrite in_map_iff. split; intros [x [A B]]; exists x; auto.
  - intros ord nord cx t k i b f E s. cbn [top_solutions]. rewrite E. destruct (top_solutions ord nord cx t f) as [g t']. cbn [fst snd gmap g_items]. split; auto.
    rewrite in_map_iff. split; intros [x [A B]]; exists x; auto.
Qed.
Print Assumptions top_solutions_otherwise.
Definition keep (l : list node) : list node := l.
Fixpoint picked (n : node) : list (path * option string) :=
  match n with
  | NCourse KRes r => [(r_path r, match r_claim r with Some cl => Some (c_clbid (cl_course cl)) | None => None end)]
  | NCourse _ r => [(r_path r, match r_matched r with Some c => Some (c_clbid c) | None => None end)]
  | NReq _ _ (Some x) => picked x
  | NCount _ _ items => flat_map picked items
  | _ => []
  end.
Example top_example :
  let cx := plain_ctx [mk_simple "100" "A" "1"; mk_simple "200" "B" "1"; mk_simple "300" "C" "1"] in
  let x := rules 2 true [named "A 1"; child "%y" (named "B 1"); child "%z" (named "B 1")] in
  match top_solutions same_order keep cx [] x with
  | (g, t) => map picked (g_items g) =
      [[(["$"; ".count"; "*B 1"], Some "200"); (["$"; ".count"; "*B 1"], Some "200"); (["$"; ".count"; "*A 1"], Some "100")]] /\
      g_exn g = None /\ map fst t = ["100"]
  end.
Proof. vm_compute. auto. Qed.

(** ** C84: solving apart is safe *)

(** Auditing a solution claims only courses among the matches of its rule, whatever has been
    claimed before. *)
Theorem claims_are_among_the_matches :
  forall ord cx l n s r t t' ms, set_order ord -> cx_exc cx = group_exceptions l -> rule_tree n -> unaudited n -> plain_rule cx l n ->
  In s (g_items (solutions ord cx n)) -> audit ord cx t s = Ok (r, t') -> matches_of cx n = Ok ms ->
  forall cl, In cl (claims_of r) -> In (ICourse (cl_course cl)) ms.
Proof. intros. eapply claims_asked; eauto. Qed.
Print Assumptions claims_are_among_the_matches.
(** So a child solved on its own shares no claimed course with a sibling, however that one is
    solved. *)
Theorem solved_apart_share_no_course :
  forall ord cx l items c d sc sd rc rd t1 t1' t2 t2',
  set_order ord -> cx_exc cx = group_exceptions l ->
  (forall x, x = c \/ x = d -> rule_tree x /\ unaudited x /\ plain_rule cx l x /\ exists ms, matches_of cx x = Ok ms) ->
  independent cx items c -> usable cx items d -> c <> d -> ~ (always_disjoint c = true /\ always_disjoint d = true) ->
  In sc (g_items (solutions ord cx c)) -> In sd (g_items (solutions ord cx d)) ->
  audit ord cx t1 sc = Ok (rc, t1') -> audit ord cx t2 sd = Ok (rd, t2') ->
  forall a b, In a (claims_of rc) -> In b (claims_of rd) -> cl_course a <> cl_course b.
Proof.
  intros ord cx l items c d sc sd rc rd t1 t1' t2 t2' SO EX PL [UC IND] UD NE NAD Ic Id Ac Ad a b Ia Ib E.
  destruct (PL c (or_introl eq_refl)) as [RTc [Uc [PLc [mc Mc]]]], (PL d (or_intror eq_refl)) as [RTd [Ud [PLd [md Md]]]].
  assert (X := claims_asked _ _ _ _ _ _ _ _ _ _ SO EX RTc Uc PLc Ic Ac Ia Mc). assert (Y := claims_asked _ _ _ _ _ _ _ _ _ _ SO EX RTd Ud PLd Id Ad Ib Md).
  destruct IND as [IND|[_ IND]]; [apply NE; symmetry; apply IND; exact UD|].
  apply (IND d UD (fun H => NE (eq_sym H))). split; [|exact NAD]. exists mc, md, (ICourse (cl_course a)). rewrite E in *. auto.
Qed.
Print Assumptions solved_apart_share_no_course.
(** The hypothesis [plain_rule] is needed: a from_claimed course rule, which shares its course,
    claims it without listing it among its matches. *)
Definition from_claimed (p : string) (n : string) : node := NCourse KRule
  (mkCrule ["$"; ".count"; p; ("*" ++ n)%string] false (Some n) None None None None None None None None None None None
     true true false false false false [] None None).
Example apart_example :
  let cx := plain_ctx [mk_simple "100" "A" "1"; mk_simple "200" "B" "1"] in
  matches_of cx (child "%x" (from_claimed "%x" "A 1")) = Ok [] /\
  best_claims (cx_transcript cx) [] (child "%x" (from_claimed "%x" "A 1")) false = Some (Some [("100", ["$"; ".count"; "%x"; "*A 1"])], []) /\
  matches_of cx (child "%y" (named "B 1")) = Ok [ICourse (mk_simple "200" "B" "1")] /\
  best_claims (cx_transcript cx) [] (child "%y" (named "B 1")) false = Some (Some [("200", ["$"; ".count"; "*B 1"])], []).
Proof. vm_compute. auto. Qed.
Example apart_hypotheses :
  let cx := plain_ctx [mk_simple "100" "A" "1"; mk_simple "200" "B" "1"] in
  let c := child "%x" (named "A 1") in let d := child "%y" (named "B 1") in
  (forall x, x = c \/ x = d -> rule_tree x /\ unaudited x /\ plain_rule cx [] x /\ exists ms, matches_of cx x = Ok ms) /\
  independent cx [c; d] c /\ usable cx [c; d] d.
Proof.
  cbv zeta. set (cx := plain_ctx _). set (c := child "%x" _). set (d := child "%y" _).
  assert (G : forall p n ms, matches_of cx (child p (named n)) = Ok ms -> rule_tree (child p (named n)) /\ unaudited (child p (named n)) /\ plain_rule cx [] (child p (named n)) /\ exists ms, matches_of cx (child p (named n)) = Ok ms).
  { intros p n ms M. split; [|split; [|split]]; eauto.
    - intros x P. inversion P as [| |? ? ? ? Q| |]; subst; [reflexivity|]. inversion Q; subst. reflexivity.
    - intros x P. inversion P as [| |? ? ? ? Q| |]; subst; [split; [discriminate|intros; discriminate]|]. inversion Q; subst. split; [discriminate|intros; discriminate].
    - split.
      + intros r [[k P]|[k [i [k' P]]]]; inversion P as [| |? ? ? ? Q| |]; subst; inversion Q; subst. split; [reflexivity|]. intros ? ? ? [].
      + intros k q P. inversion P as [| |? ? ? ? Q| |]; subst. inversion Q. }
  split; [|split].
  - intros x [->| ->]; eapply G; vm_compute; reflexivity.
  - split; [split; [simpl; auto|vm_compute; reflexivity]|]. right. split; [reflexivity|].
    intros x [[<-|[<-|[]]] _] N; [congruence|]. intros [[am [bm [y [A [B [I J]]]]]] _]. vm_compute in A, B. injection A as <-. injection B as <-.
    destruct I as [<-|[]]. destruct J as [J|[]]. discriminate.
  - split; [simpl; auto|vm_compute; reflexivity].
Qed.

(** ** C85: queries over the claimed courses *)

(** A query over the claimed courses is not solved on its own, before the rest has claimed
    anything. *)
Definition claimed_queries_see_the_rest : Prop :=
  forall cx items c d q, usable cx items c -> usable cx items d -> c <> d ->
  part_of c (NQuery KRule q) -> q_source q = QClaimed -> ~ independent cx items c.
Definition claimed_query : query :=
  mkQuery ["$"; ".count"; "%x"; ".count"; "[0]"; ".query"] false QClaimed DtCourse
    [APlain (mkAs ["$"; ".count"; "%x"; ".count"; "[0]"; ".query"; ".assertions"; "[0]"] Empty DtCourse None KCourses OGte (mkDec 1 0) None [] false None None false true false None None None None)]
    [] None true false false false [] [] [] [] [] [].
(** Only requirements pass the mark on: below a count the query is solved on its own and never
    finds a course. Directly below the requirement it would have found one. *)
Theorem claimed_queries_see_the_rest_refuted :
  ~ claimed_queries_see_the_rest /\
  (let cx := plain_ctx [mk_simple "100" "A" "1"] in
   let best n := match top_solutions same_order keep cx [] (rules 2 false [named "A 1"; child "%x" n]) with
                 | (Gen (s :: _) _, t) => match audit same_order cx t s with Ok (r, _) => Some (status_of r) | Err _ => None end
                 | _ => None
                 end in
   best (NQuery KRule claimed_query) = Some Done /\
   best (rules 1 false [NQuery KRule claimed_query]) = Some NeedsMoreItems).
Proof.
  split; [|vm_compute; auto]. intro H.
  set (cx := plain_ctx [mk_simple "100" "A" "1"]). set (c := child "%x" (rules 1 false [NQuery KRule claimed_query])). set (d := named "A 1").
  assert (MC : matches_of cx c = Ok []) by reflexivity.
  assert (UC : usable cx [c; d] c) by (split; [simpl; auto|vm_compute; reflexivity]). assert (UD : usable cx [c; d] d) by (split; [simpl; auto|vm_compute; reflexivity]).
  apply (H cx [c; d] c d claimed_query UC UD); [discriminate| |reflexivity|].
  - apply pt_req. eapply pt_count; [left; reflexivity|constructor].
  - split; [exact UC|]. right. split; [reflexivity|]. intros x _ _ [[am [bm [y [A [B [I J]]]]]] _]. rewrite MC in A. injection A as <-. destruct I.
Qed.
Print Assumptions claimed_queries_see_the_rest_refuted.
(** the query is the child itself or the result of nested requirements *)
Inductive right_below : node -> query -> Prop :=
| rb_query q : right_below (NQuery KRule q) q
| rb_req k i x q : right_below x q -> right_below (NReq k i (Some x)) q.
Theorem claimed_queries_see_the_rest_partial :
  forall cx items c d q, usable cx items d -> c <> d -> right_below c q -> q_source q = QClaimed -> ~ independent cx items c.
Proof.
  intros cx items c d q UD NE R QC [UC [A|[N _]]]; [apply NE; symmetry; apply A; exact UD|].
  assert (X : never_disjoint c = true); [|congruence]. clear - R QC.
  induction R as [q|k i x q R IH]; cbn [never_disjoint]; [unfold q_never_disjoint; rewrite QC; reflexivity|]. destruct (e_disjoint i) as [[|]|]; auto.
Qed.
Print Assumptions claimed_queries_see_the_rest_partial.
Example right_below_example : right_below (child "%x" (NQuery KRule claimed_query)) claimed_query /\ q_source claimed_query = QClaimed.
Proof. split; [constructor; constructor|reflexivity]. Qed.
