(** Audits of students with the same classes, who differ in other records that are not looked
    at (C187). *)
From Coq Require Import List ZArith QArith Bool String Lia Permutation.
From Verif Require Import Transcript Prelude Dec Status Course Claims Exceptions Op Context CondExpr Paths Predicate Limit Apply Assertion Query CourseRule EnumSpec LazyRun Tree Solve Driver Area.
From Verif Require Import ListFacts ExceptionsProofs LimitProofs TreeSpec TreeSolSpec FrameSpec FrameProofs OtherSpec.
Import ListNotations.
Local Open Scope list_scope.

(** ** What solutions are made of *)
Definition quoted (n : node) : Prop := match n with NProf _ _ _ => True | _ => False end.
Definition quotes (n s : node) : Prop := forall y, live s y -> quoted y -> exists x, part_of n x /\ quoted x.
Lemma quotes_self n : quotes n n.
Proof. intros y L I. exists y. split; [apply live_part, L|exact I]. Qed.
Lemma quotes_part n x s : part_of n x -> quotes x s -> quotes n s.
Proof.
  intros P W y L I. destruct (W y L I) as [z [Z J]]. exists z. split; [|exact J]. clear - P Z.
  induction P; [exact Z|eapply pt_count; eauto|apply pt_req; auto|apply pt_true; auto|apply pt_false; auto].
Qed.

Lemma quotes_count n i items its results : In n [NCount KRule i items; NCount KSol i items; NCount KRes i items] ->
  (forall c, In c its -> In (fst c) items /\ forall s, In s (g_items (snd c)) -> quotes (fst c) s) -> (forall r, In r results -> kind_of r = KRes) ->
  forall others z, (forall x, In x others -> In x items) -> made_of i its results others z -> quotes n z.
Proof.
  intros N C R others z O [l [-> L]] y V I.
  assert (SELF : exists k, n = NCount k i items) by (destruct N as [<-|[<-|[<-|[]]]]; eauto). destruct SELF as [k ->]. clear N.
  inversion V; subst; [exists (NCount k i items); split; [apply pt_self|exact I]|].
  match goal with J : In ?x l, W : live ?x y |- _ => destruct (L x J) as [K|[K|[c [K M]]]] end.
  - exists y. split; [|exact I]. eapply pt_count; [apply O; eassumption|apply live_part; assumption].
  - exfalso. apply R in K. match goal with W : live ?x y, E : kind_of ?x = KRes |- _ => inversion W; subst; cbn in E; congruence end.
  - destruct (C c K) as [J' W]. assert (Q0 := quotes_part (NCount k i items) (fst c) x (pt_count k i items _ _ J' (pt_self _)) (W x M)). apply (Q0 y); assumption.
Qed.
Lemma solutions_quotes ord cx n : forall s, In s (g_items (solutions ord cx n)) -> quotes n s.
Proof.
  induction n as [k r|k q|k i items IH|k i o IH|k i t f IHt IHf|k i c] using node_induction; intros s I; cbn [solutions] in I.
  - apply in_gmap in I as [r' [_ ->]]. intros y L J. inversion L; subst. destruct J.
  - apply in_gmap in I as [q' [_ ->]]. intros y L J. inversion L; subst. destruct J.
  - unfold count_solutions in I. destruct (waived cx (n_path i)).
    + destruct I as [<-|[]]. intros y L J. inversion L; subst; [exists (NCount k i items); split; [apply pt_self|exact J]|]. exists y. split; [eapply pt_count; [eassumption|apply live_part; assumption]|exact J].
    + destruct (potential_children _ _) as [pot|] eqn:P; [|destruct I]. apply run_of in I.
      eapply quotes_count; [|  | |  |exact I].
      * destruct k; simpl; auto.
      * intros c C. unfold sort_by_path in C. rewrite in_isort in C. destruct (pot_items cx (solutions ord cx) items pot c P C) as [A1 A2]. split; [exact A1|]. rewrite A2. apply IH. exact A1.
      * intros r [].
      * intros x X. unfold children_set in X. apply dedup_incl in X. exact X.
  - destruct (waived cx (e_path i)).
    + destruct I as [<-|[]]. intros y L J. inversion L; subst; [destruct J|]. exists y. split; [apply pt_req, live_part; assumption|exact J].
    + destruct o as [x|]; [|destruct I as [<-|[]]; intros y L J; inversion L; subst; destruct J].
      apply in_gmap in I as [s' [I ->]]. intros y L J. inversion L; subst; [destruct J|]. refine (quotes_part _ x s' _ (IH x eq_refl s' I) y _ J); [apply pt_req, pt_self|assumption].
  - destruct (e_result (d_cond i)) as [[|]|]; [| |destruct I].
    + apply in_gmap in I as [s' [I ->]]. intros y L J. inversion L; subst; [destruct J| |].
      * refine (quotes_part _ t s' _ (IHt s' I) y _ J); [apply pt_true, pt_self|assumption].
      * exists y. split; [apply pt_false, live_part; assumption|exact J].
    + destruct f as [x|]; [|destruct I]. apply in_gmap in I as [s' [I ->]]. intros y L J. inversion L; subst; [destruct J| |].
      * exists y. split; [apply pt_true, live_part; assumption|exact J].
      * refine (quotes_part _ x s' _ (IHf x eq_refl s' I) y _ J); [apply pt_false, pt_self|assumption].
  - intros y L J. exists (NProf k i c). split; [apply pt_self|exact Logic.I].
Qed.


(** ** With other records *)
Definition with_records (st : student) (cx : ctx) : ctx :=
  mkCtx (cx_transcript cx) (cx_excluded cx) (cx_failed cx) (cx_forced cx) (cx_multi cx) (cx_exc cx) (t_areas st) (t_perf st) (t_slips st) (t_prof st).
Definition has_records (st : student) (cx : ctx) : Prop := cx_areas cx = t_areas st /\ cx_perf cx = t_perf st /\ cx_att cx = t_slips st /\ cx_prof cx = t_prof st.
Section Other.
  Variables (ord : list course -> list course) (nord : list node -> list node) (st st' : student) (cx : ctx).
  Hypothesis HR : has_records st cx.
  Let cy := with_records st' cx.
  Lemma forced_eq k : forced_by_clbid cy k = forced_by_clbid cx k.
  Proof. reflexivity. Qed.
  Lemma insert_items_eq es : forall data ins, insert_items cy es data ins = insert_items cx es data ins.
  Proof. induction es as [|e es IH]; intros data ins; [reflexivity|]. cbn [insert_items]. change (find_by_clbid cy) with (find_by_clbid cx). rewrite forced_eq. destruct (forced_by_clbid _ _); cbn [bind]; [|reflexivity]. destruct (exc_forced e); [apply IH|]. destruct (find_by_clbid _ _); apply IH. Qed.
  Lemma block_items_eq es : forall data, block_items cy es data = block_items cx es data.
  Proof. induction es as [|e es IH]; intros data; [reflexivity|]. cbn [block_items]. rewrite forced_eq. destruct (forced_by_clbid _ _); cbn [bind]; [|reflexivity]. apply IH. Qed.
  Lemma audit_assertion_eq data a : audit_assertion cy data a = audit_assertion cx data a.
  Proof.
    unfold audit_assertion. change (cx_exc cy) with (cx_exc cx). destruct (as_overridden a); [reflexivity|].
    destruct (match as_where a with Some w => _ | None => _ end); cbn [bind]; [|reflexivity]. rewrite insert_items_eq. destruct (insert_items _ _ _ _); cbn [bind]; [|reflexivity]. rewrite block_items_eq. reflexivity.
  Qed.
  Lemma audit_any_eq data a : decided_assertion a -> audit_any cy data a = audit_any cx data a.
  Proof.
    intro D. destruct a as [y|p c t e0|p c t]; cbn [audit_any].
    - rewrite audit_assertion_eq. reflexivity.
    - assert (E : forall k, evaluate k c = Ok c) by (intro k; cbn [decided_assertion] in D; destruct c as [? [|]|? [|]|? [|]|? ? [|]]; try reflexivity; destruct D; reflexivity).
      rewrite !E. cbn [bind]. destruct (e_result c) as [[|]|]; [|destruct e0 as [f0|]|reflexivity]; rewrite ?audit_assertion_eq; reflexivity.
    - destruct (mapr as_course data); cbn [bind]; [|reflexivity]. destruct (eval_dyn _ _); cbn [bind]; [|reflexivity]. destruct (d_result _) as [[|]|]; try reflexivity.
      rewrite audit_assertion_eq. reflexivity.
  Qed.

  (** *** Queries *)
  Lemma q_insert_eq q es : forall data ins forced, q_insert cy q es data ins forced = q_insert cx q es data ins forced.
  Proof.
    induction es as [|e es IH]; intros data ins forced; [reflexivity|]. cbn [q_insert]. change (find_by_clbid cy) with (find_by_clbid cx). rewrite forced_eq. destruct (instr _ _); [apply IH|]. destruct (exc_forced e); [destruct (forced_by_clbid _ _); cbn [bind]; [apply IH|reflexivity]|apply IH].
  Qed.
  Lemma q_data_eq k q : looks_alike st st' (NQuery k q) -> q_data cy q = q_data cx q.
  Proof. destruct HR as [H1 [H2 [H3 H4]]]. unfold looks_alike, q_data. destruct (q_source q); intro H; try reflexivity; cbn [cy with_records cx_areas cx_perf cx_att]; congruence. Qed.
  Lemma q_filtered_eq k q : looks_alike st st' (NQuery k q) -> q_filtered cy q = q_filtered cx q.
  Proof.
    intro H. unfold q_filtered. change (cx_exc cy) with (cx_exc cx). rewrite (q_data_eq k q H).
    match goal with |- bind ?m _ = _ => destruct m end; cbn [bind]; [|reflexivity]. destruct (q_source q); try reflexivity; apply q_insert_eq.
  Qed.
  Lemma q_solutions_eq k q : looks_alike st st' (NQuery k q) -> q_solutions ord cy q = q_solutions ord cx q.
  Proof. intro H. unfold q_solutions. rewrite (q_filtered_eq k q H). reflexivity. Qed.
  Lemma q_potential_eq k q : looks_alike st st' (NQuery k q) -> q_potential cy q = q_potential cx q.
  Proof. intro H. unfold q_potential. change (cx_exc cy) with (cx_exc cx). rewrite (q_data_eq k q H). reflexivity. Qed.
  Lemma q_audit_eq t q : (forall a, In a (q_asserts q) -> decided_assertion a) -> q_audit cy t q = q_audit cx t q.
  Proof.
    intros H. unfold q_audit. destruct (q_overridden q); [reflexivity|]. change (cx_multi cy) with (cx_multi cx).
    change (collect_claimed cy t q) with (collect_claimed cx t q).
    destruct (q_source q);
    (match goal with |- bind ?m _ = bind ?m _ => destruct m as [[[[items ok] bad] t']|]; cbn [bind]; [|reflexivity] end;
     rewrite (mapr_eq (audit_any cy items) (audit_any cx items)) by (intros; apply audit_any_eq, H; assumption); reflexivity).
  Qed.

  (** *** Course rules *)
  Lemma c_inserts_eq r es : c_inserts cy r es = c_inserts cx r es.
  Proof. induction es as [|e es IH]; [reflexivity|]. cbn [c_inserts]. rewrite forced_eq, IH. reflexivity. Qed.
  Lemma c_solutions_eq r : c_solutions cy r = c_solutions cx r.
  Proof. unfold c_solutions. change (cx_exc cy) with (cx_exc cx). rewrite c_inserts_eq. reflexivity. Qed.
  Lemma c_potential_eq r : c_potential cy r = c_potential cx r.
  Proof. reflexivity. Qed.
  Lemma c_matches_eq r : c_matches cy r = c_matches cx r.
  Proof. reflexivity. Qed.

  (** *** Trees *)
  Lemma cov_part n y : part_of n y -> all_look_alike st st' n -> all_look_alike st st' y.
  Proof.
    intros P C z Z. apply C. clear - P Z.
    induction P; [exact Z|eapply pt_count; eauto|apply pt_req; auto|apply pt_true; auto|apply pt_false; auto].
  Qed.
  Lemma cov_own n : all_look_alike st st' n -> looks_alike st st' n.
  Proof. intro C. apply C, pt_self. Qed.
  Lemma waived_eq p : waived cy p = waived cx p.
  Proof. reflexivity. Qed.
  Lemma potential_eq n : all_look_alike st st' n -> potential cy n = potential cx n.
  Proof.
    induction n as [k r|k q|k i items IH|k i o IH|k i t f IHt IHf|k i c] using node_induction; intro C; cbn [potential].
    - apply c_potential_eq.
    - apply (q_potential_eq k). apply (cov_own _ C).
    - change (cx_exc cy) with (cx_exc cx). rewrite (any_eq (potential cy) (potential cx)); [reflexivity|].
      intros y I. apply IH; [exact I|]. eapply cov_part; [eapply pt_count; [exact I|apply pt_self]|exact C].
    - change (cx_exc cy) with (cx_exc cx). destruct o as [y|]; [|reflexivity]. rewrite (IH y eq_refl); [reflexivity|]. eapply cov_part; [apply pt_req, pt_self|exact C].
    - destruct (e_result (d_cond i)) as [[|]|]; [|destruct f as [y|]; [|reflexivity]|reflexivity].
      + apply IHt. eapply cov_part; [apply pt_true, pt_self|exact C].
      + apply (IHf y eq_refl). eapply cov_part; [apply pt_false, pt_self|exact C].
    - reflexivity.
  Qed.
  Lemma matches_eq n : all_look_alike st st' n -> matches_of cy n = matches_of cx n.
  Proof.
    induction n as [k r|k q|k i items IH|k i o IH|k i t f IHt IHf|k i c] using node_induction; intro C; cbn [matches_of].
    - unfold course_matches. rewrite c_matches_eq. reflexivity.
    - unfold q_matches. rewrite (q_filtered_eq k) by apply (cov_own _ C). reflexivity.
    - rewrite (mapr_eq (matches_of cy) (matches_of cx)); [reflexivity|].
      intros y I. apply IH; [exact I|]. eapply cov_part; [eapply pt_count; [exact I|apply pt_self]|exact C].
    - destruct o as [y|]; [|reflexivity]. apply (IH y eq_refl). eapply cov_part; [apply pt_req, pt_self|exact C].
    - destruct (e_result (d_cond i)) as [[|]|]; [|destruct f as [y|]; [|reflexivity]|reflexivity].
      + apply IHt. eapply cov_part; [apply pt_true, pt_self|exact C].
      + apply (IHf y eq_refl). eapply cov_part; [apply pt_false, pt_self|exact C].
    - destruct c as [[k' r]|]; [|reflexivity]. unfold course_matches. rewrite c_matches_eq. reflexivity.
  Qed.
  Lemma potential_children_eq cs : (forall c, In c cs -> all_look_alike st st' (fst c)) -> potential_children cy cs = potential_children cx cs.
  Proof.
    intro H. unfold potential_children. rewrite (filter_res_eq (fun c => potential cy (fst c)) (fun c => potential cx (fst c))); [reflexivity|].
    intros c I. apply potential_eq, H, I.
  Qed.
  Lemma solutions_eq n : all_look_alike st st' n -> solutions ord cy n = solutions ord cx n.
  Proof.
    induction n as [k r|k q|k i items IH|k i o IH|k i t f IHt IHf|k i c] using node_induction; intro C; cbn [solutions].
    - rewrite c_solutions_eq. reflexivity.
    - rewrite (q_solutions_eq k) by apply (cov_own _ C). reflexivity.
    - assert (CI : forall y, In y items -> all_look_alike st st' y) by (intros y I; eapply cov_part; [eapply pt_count; [exact I|apply pt_self]|exact C]).
      rewrite (map_ext_in _ (fun c => (c, solutions ord cx c)) items) by (intros y I; rewrite (IH y I (CI y I)); reflexivity).
      unfold count_solutions. rewrite waived_eq. rewrite potential_children_eq; [reflexivity|].
      intros c I. apply in_map_iff in I as [y [<- I]]. apply CI, I.
    - rewrite waived_eq. destruct o as [y|]; [|reflexivity]. rewrite (IH y eq_refl); [reflexivity|]. eapply cov_part; [apply pt_req, pt_self|exact C].
    - destruct (e_result (d_cond i)) as [[|]|]; [|destruct f as [y|]; [|reflexivity]|reflexivity].
      + rewrite IHt; [reflexivity|]. eapply cov_part; [apply pt_true, pt_self|exact C].
      + rewrite (IHf y eq_refl); [reflexivity|]. eapply cov_part; [apply pt_false, pt_self|exact C].
    - unfold prof_solutions. rewrite waived_eq. destruct c as [[k' r]|]; [|reflexivity]. rewrite c_solutions_eq. reflexivity.
  Qed.

  (** *** Audits *)
  Definition livable (n : node) : Prop := (forall y a, live n y -> In a (own_assertions y) -> decided_assertion a) /\ forall y, live n y -> quoted y -> t_prof st' = t_prof st.
  Lemma livable_part n z : (forall y, live z y -> live n y) -> livable n -> livable z.
  Proof. intros S0 [A B]. split; [intros y a V; apply A, S0, V|intros y V; apply B, S0, V]. Qed.
  Lemma livable_of n s : decided n -> all_look_alike st st' n -> within n s -> quotes n s -> livable s.
  Proof.
    intros D C W S0. split.
    - intros y a V I. destruct (W y a V I) as [z [Z J]]. exact (D z a Z J).
    - intros y V J. destruct (S0 y V J) as [z [Z K]]. specialize (C z Z). destruct z; try (destruct K; fail). exact C.
  Qed.
  Lemma audit_eq n : forall t, kind_of n = KSol -> livable n -> audit ord cy t n = audit ord cx t n.
  Proof.
    induction n as [k r|k q|k i items IH|k i o IH|k i b f IHt IHf|k i c] using node_induction; intros t K L; cbn [kind_of] in K; subst k; cbn [audit].
    - reflexivity.
    - rewrite q_audit_eq; [reflexivity|]. intros a I. apply (proj1 L _ a (lv_self (NQuery KSol q) eq_refl)). exact I.
    - destruct (n_overridden i); [reflexivity|]. rewrite (audit_each_eq (audit ord cy) (audit ord cx)).
      + destruct (audit_each _ _ _) as [[results t']|]; cbn [bind]; [|reflexivity].
        rewrite (mapr_eq (audit_any cy (flat_map (matched_items ord) results)) (audit_any cx (flat_map (matched_items ord) results))); [reflexivity|].
        intros a I. apply audit_any_eq. apply (proj1 L _ a (lv_self (NCount KSol i items) eq_refl)). exact I.
      + intros y t0 I KX. apply IH; [exact I|exact KX|]. eapply livable_part; [|exact L]. intros z V. eapply lv_count; eauto.
    - destruct (e_overridden i); [reflexivity|]. destruct o as [y|]; [|reflexivity]. destruct (kind_of y) eqn:KX; try reflexivity.
      rewrite (IH y eq_refl); [reflexivity|exact KX|]. eapply livable_part; [|exact L]. intros z V. apply lv_req, V.
    - destruct (e_result (d_cond i)) as [[|]|]; [|destruct f as [y|]; [|reflexivity]|reflexivity].
      + destruct (kind_of b) eqn:KX; try reflexivity. rewrite IHt; [reflexivity|reflexivity|]. eapply livable_part; [|exact L]. intros z V. apply lv_true, V.
      + destruct (kind_of y) eqn:KX; try reflexivity. rewrite (IHf y eq_refl); [reflexivity|exact KX|]. eapply livable_part; [|exact L]. intros z V. apply lv_false, V.
    - assert (E : cx_prof cy = cx_prof cx) by (rewrite (proj2 (proj2 (proj2 HR))); exact (proj2 L _ (lv_self (NProf KSol i c) eq_refl) Logic.I)). rewrite E. reflexivity.
  Qed.

  (** *** The search *)
  Lemma best_loop_eq e0 l : (forall s, In s l -> kind_of s = KSol /\ livable s) -> forall best inner, best_loop ord cy best inner l e0 = best_loop ord cx best inner l e0.
  Proof.
    induction l as [|s l IH]; intros H best inner; [reflexivity|]. cbn [best_loop]. destruct (H s (in_eq _ _)) as [K L]. rewrite (audit_eq s [] K L).
    destruct (audit ord cx [] s) as [[r t]|]; cbn [bind]; [|reflexivity]. destruct (rank_of r) as [[q m]|]; cbn [bind]; [|reflexivity].
    destruct (inS _ _); [reflexivity|]. apply IH. intros y I. apply H. right. exact I.
  Qed.
  Lemma find_best_eq t n m : all_look_alike st st' n -> decided n -> find_best_solution ord cy t n m = find_best_solution ord cx t n m.
  Proof.
    intros P R. unfold find_best_solution. rewrite (solutions_eq n P). rewrite best_loop_eq; [reflexivity|].
    intros s I. split; [eapply solution_kind; exact I|]. eapply livable_of; [exact R|exact P|eapply solutions_within; exact I|eapply solutions_quotes; exact I].
  Qed.
  Lemma solve_independent_eq l : (forall n, In n l -> all_look_alike st st' n /\ decided n) -> forall t, solve_independent ord cy t l = solve_independent ord cx t l.
  Proof.
    induction l as [|n l IH]; intros H t; [reflexivity|]. cbn [solve_independent]. destruct (H n (in_eq _ _)) as [P R]. rewrite (find_best_eq t n true P R).
    destruct (find_best_solution _ _ _ _ _) as [[r t1]|]; cbn [bind]; [|reflexivity]. rewrite IH by (intros y I; apply H; right; exact I). reflexivity.
  Qed.
  Hypothesis NORD : forall l, Permutation (nord l) l.
  Lemma top_count_eq t k i items : all_look_alike st st' (NCount k i items) -> decided (NCount k i items) ->
    top_count_solutions ord nord cy t i items = top_count_solutions ord nord cx t i items.
  Proof.
    intros C R. assert (CI : forall y, In y items -> all_look_alike st st' y) by (intros y I; eapply cov_part; [eapply pt_count; [exact I|apply pt_self]|exact C]).
    assert (RI : forall y, In y items -> decided y) by (intros y I z a Y J; apply (R z a); [eapply pt_count; eauto|exact J]).
    unfold top_count_solutions. rewrite waived_eq. destruct (waived _ _); [reflexivity|].
    rewrite (map_ext_in _ (fun c => (c, solutions ord cx c)) items) by (intros y I; rewrite (solutions_eq y (CI y I)); reflexivity).
    rewrite potential_children_eq by (intros c I; apply in_map_iff in I as [y [<- I]]; apply CI, I).
    destruct (potential_children _ _) as [pot|] eqn:P; [|reflexivity]. destruct pot as [|p0 pot']; [reflexivity|]. destruct (n_audits i); [|reflexivity].
    set (pot := p0 :: pot') in *.
    assert (PI : forall y, In y (nord (map fst pot)) -> In y items).
    { intros y I. apply (Permutation_in _ (NORD _)) in I. apply in_map_iff in I as [c [<- J]]. eapply pot_items; eauto. }
    rewrite (mapr_eq (fun n => let! m := matches_of cy n in Ok (n, m)) (fun n => let! m := matches_of cx n in Ok (n, m))) by (intros y I; rewrite (matches_eq y (CI y (PI y I))); reflexivity).
    destruct (mapr _ _) as [ms|] eqn:M; cbn [bind]; [|reflexivity]. destruct (classify ms) as [dis non] eqn:CL.
    rewrite solve_independent_eq; [reflexivity|]. intros n I. apply (Permutation_in _ (NORD _)) in I. apply (classify_in _ _ _ _ CL) in I. rewrite (matched_fst _ _ _ M) in I.
    split; [apply CI|apply RI]; apply PI, I.
  Qed.
  Lemma top_eq n : forall t, all_look_alike st st' n -> decided n -> top_solutions ord nord cy t n = top_solutions ord nord cx t n.
  Proof.
    induction n as [k r|k q|k i items IH|k i o IH|k i b f IHt IHf|k i c] using node_induction; intros t C R; cbn [top_solutions]; try (rewrite solutions_eq by exact C; reflexivity).
    - eapply top_count_eq; eauto.
    - destruct (e_result (d_cond i)) as [[|]|]; [|destruct f as [y|]; [|reflexivity]|reflexivity].
      + rewrite IHt; [reflexivity| |]; [eapply cov_part; [apply pt_true, pt_self|exact C]|intros y a Y I; apply (R y a); [apply pt_true, Y|exact I]].
      + rewrite (IHf y eq_refl); [reflexivity| |]; [eapply cov_part; [apply pt_false, pt_self|exact C]|intros z a Y I; apply (R z a); [apply pt_false, Y|exact I]].
  Qed.

End Other.
Section Good.
  Variables (ord : list course -> list course) (nord : list node -> list node).
  Lemma top_quotes cx n : forall t s, In s (g_items (fst (top_solutions ord nord cx t n))) -> kind_of s = KSol /\ quotes n s.
  Proof.
    induction n as [k r|k q|k i items IH|k i o IH|k i b f IHt IHf|k i c] using node_induction; intros t s I; cbn [top_solutions] in I;
      try (cbn [fst] in I; split; [eapply solution_kind; exact I|eapply solutions_quotes; exact I]).
    - assert (RUN : forall its results others len, In s (g_items (count_run i len its results others)) ->
        (forall c, In c its -> In (fst c) items /\ forall s, In s (g_items (snd c)) -> quotes (fst c) s) -> (forall r, In r results -> kind_of r = KRes) -> (forall x, In x others -> In x items) -> kind_of s = KSol /\ quotes (NCount k i items) s).
      { intros its results others len J A1 A2 A3. apply run_of in J. split; [destruct J as [l [-> _]]; reflexivity|]. eapply quotes_count; [destruct k; simpl; auto|exact A1|exact A2|exact A3|exact J]. }
      unfold top_count_solutions in I. destruct (waived cx (n_path i)).
      + destruct I as [<-|[]]. split; [reflexivity|]. intros y L J. inversion L; subst; [exists (NCount k i items); split; [apply pt_self|exact J]|]. exists y. split; [eapply pt_count; [eassumption|apply live_part; assumption]|exact J].
      + destruct (potential_children _ _) as [pot|] eqn:P; [|destruct I].
        assert (PC : forall c, In c pot -> In (fst c) items /\ forall s, In s (g_items (snd c)) -> quotes (fst c) s).
        { intros c C. destruct (pot_items cx (solutions ord cx) items pot c P C) as [A1 A2]. split; [exact A1|]. rewrite A2. intros s' S'. eapply solutions_quotes; exact S'. }
        assert (CS : forall x, In x (children_set items) -> In x items) by (intros x X; unfold children_set in X; apply dedup_incl in X; exact X).
        assert (PLAIN : In s (g_items (count_run i (Z.of_nat (List.length items)) (sort_by_path child_path pot) [] (children_set items))) -> kind_of s = KSol /\ quotes (NCount k i items) s).
        { intro J. eapply RUN; [exact J| |intros r []|exact CS]. intros c C. unfold sort_by_path in C. rewrite in_isort in C. apply PC, C. }
        destruct pot as [|p0 pot']; [apply PLAIN, I|]. destruct (n_audits i); [|apply PLAIN, I]. set (pot := p0 :: pot') in *.
        destruct (mapr _ _) as [ms|] eqn:M; cbn [bind] in I; [|destruct I]. destruct (classify ms) as [dis non]. destruct (solve_independent _ _ _ _) as [[solved t']|] eqn:SI; cbn [bind fst] in I; [|destruct I].
        eapply RUN; [exact I| | |].
        * intros c C. unfold sort_by_path in C. rewrite in_isort in C. apply filter_In in C as [C _]. apply PC, C.
        * intros r C. unfold sort_by_path in C. rewrite in_isort in C. eapply solved_kinds; eauto.
        * intros x C. apply filter_In in C as [C _]. apply CS, C.
    - destruct (e_result (d_cond i)) as [[|]|]; [|destruct f as [x|]; [|destruct I]|destruct I].
      + destruct (top_solutions ord nord cx t b) as [g t'] eqn:E. cbn [fst] in I. apply in_gmap in I as [s' [I ->]]. destruct (IHt t s') as [_ W]; [rewrite E; exact I|]. split; [reflexivity|].
        intros y L J. inversion L; subst; [destruct J| |]; [refine (quotes_part _ b s' _ W y _ J); [apply pt_true, pt_self|assumption]|exists y; split; [apply pt_false, live_part; assumption|exact J]].
      + destruct (top_solutions ord nord cx t x) as [g t'] eqn:E. cbn [fst] in I. apply in_gmap in I as [s' [I ->]]. destruct (IHf x eq_refl t s') as [_ W]; [rewrite E; exact I|]. split; [reflexivity|].
        intros y L J. inversion L; subst; [destruct J| |]; [exists y; split; [apply pt_true, live_part; assumption|exact J]|refine (quotes_part _ x s' _ W y _ J); [apply pt_false, pt_self|assumption]].
  Qed.
End Good.

