(** Audits of a student with and without a class that no part of the area can use. *)
From Coq Require Import List ZArith QArith Bool String Lia Permutation Sorted.
From Verif Require Import Transcript Prelude Dec Status Course Claims Exceptions Op Context CondExpr Paths Predicate Limit Apply Assertion Query CourseRule EnumSpec LazyRun Tree Solve Driver Area.
From Verif Require Import ListFacts ExceptionsProofs LimitProofs TreeSpec TreeSolSpec FrameSpec FrameProofs IdleSpec.
Import ListNotations.
Local Open Scope list_scope.

(** ** What solutions are made of *)
Definition quoted (n : node) : Prop := match n with NQuery _ q => q_source q = QClaimed | _ => False end.
Lemma query_source_kept ord cx q s : In s (g_items (q_solutions ord cx q)) -> q_source s = q_source q.
Proof.
  unfold q_solutions. destruct (q_overridden q); [intros [<-|[]]; reflexivity|]. destruct (q_filtered cx q) as [[[data ins] forced]|]; [|intros []].
  remember (q_source q) as so eqn:SO. destruct so; try (cbn; intros [<-|[]]; exact (eq_sym SO)).
  destruct (mapr as_course data); [|intros []]. destruct (gflat _ _) as [[|y l] [e0|]]; [intros []|intros [<-|[]]; exact (eq_sym SO)| |]; intro I; apply in_gmap in I as [o [_ ->]]; exact (eq_sym SO).
Qed.
Definition quotes (n s : node) : Prop := forall y, live s y -> quoted y -> exists x, part_of n x /\ quoted x.
Lemma quotes_self n : quotes n n.
Proof. intros y L I. exists y. split; [apply live_part, L|exact I]. Qed.
Lemma quotes_part n x s : part_of n x -> quotes x s -> quotes n s.
Proof.
  intros P W y L I. destruct (W y L I) as [z [Z J]]. exists z. split; [|exact J]. clear - P Z.
  induction P; [exact Z|eapply pt_count; eauto|apply pt_req; auto|apply pt_true; auto|apply pt_false; auto].
Qed.

Lemma quotes_count n i items its results : In n [NCount KRule i items; NCount KSol i items; NCount KRes i items] ->
  (forall c, In c its -> In (fst c) items /\ forall s, In s (g_items (snd c)) -> quotes (fst c) s) -> (forall r, In r results -> kind_of r = KRes) ->
  forall others z, (forall x, In x others -> In x items) -> made_of i its results others z -> quotes n z.
Proof.
  intros N C R others z O [l [-> L]] y V I.
  assert (SELF : exists k, n = NCount k i items) by (destruct N as [<-|[<-|[<-|[]]]]; eauto). destruct SELF as [k ->]. clear N.
  inversion V; subst; [exists (NCount k i items); split; [apply pt_self|exact I]|].
  match goal with J : In ?x l, W : live ?x y |- _ => destruct (L x J) as [K|[K|[c [K M]]]] end.
  - exists y. split; [|exact I]. eapply pt_count; [apply O; eassumption|apply live_part; assumption].
  - exfalso. apply R in K. match goal with W : live ?x y, E : kind_of ?x = KRes |- _ => inversion W; subst; cbn in E; congruence end.
  - destruct (C c K) as [J' W]. assert (Q0 := quotes_part (NCount k i items) (fst c) x (pt_count k i items _ _ J' (pt_self _)) (W x M)). apply (Q0 y); assumption.
Qed.
Lemma solutions_quotes ord cx n : forall s, In s (g_items (solutions ord cx n)) -> quotes n s.
Proof.
  induction n as [k r|k q|k i items IH|k i o IH|k i t f IHt IHf|k i c] using node_induction; intros s I; cbn [solutions] in I.
  - apply in_gmap in I as [r' [_ ->]]. intros y L J. inversion L; subst. destruct J.
  - apply in_gmap in I as [q' [Q' ->]]. apply query_source_kept in Q'. intros y L J. inversion L; subst. cbn [quoted] in J. rewrite Q' in J. exists (NQuery k q). split; [apply pt_self|exact J].
  - unfold count_solutions in I. destruct (waived cx (n_path i)).
    + destruct I as [<-|[]]. intros y L J. inversion L; subst; [exists (NCount k i items); split; [apply pt_self|exact J]|]. exists y. split; [eapply pt_count; [eassumption|apply live_part; assumption]|exact J].
    + destruct (potential_children _ _) as [pot|] eqn:P; [|destruct I]. apply run_of in I.
      eapply quotes_count; [|  | |  |exact I].
      * destruct k; simpl; auto.
      * intros c C. unfold sort_by_path in C. rewrite in_isort in C. destruct (pot_items cx (solutions ord cx) items pot c P C) as [A1 A2]. split; [exact A1|]. rewrite A2. apply IH. exact A1.
      * intros r [].
      * intros x X. unfold children_set in X. apply dedup_incl in X. exact X.
  - destruct (waived cx (e_path i)).
    + destruct I as [<-|[]]. intros y L J. inversion L; subst; [destruct J|]. exists y. split; [apply pt_req, live_part; assumption|exact J].
    + destruct o as [x|]; [|destruct I as [<-|[]]; intros y L J; inversion L; subst; destruct J].
      apply in_gmap in I as [s' [I ->]]. intros y L J. inversion L; subst; [destruct J|]. refine (quotes_part _ x s' _ (IH x eq_refl s' I) y _ J); [apply pt_req, pt_self|assumption].
  - destruct (e_result (d_cond i)) as [[|]|]; [| |destruct I].
    + apply in_gmap in I as [s' [I ->]]. intros y L J. inversion L; subst; [destruct J| |].
      * refine (quotes_part _ t s' _ (IHt s' I) y _ J); [apply pt_true, pt_self|assumption].
      * exists y. split; [apply pt_false, live_part; assumption|exact J].
    + destruct f as [x|]; [|destruct I]. apply in_gmap in I as [s' [I ->]]. intros y L J. inversion L; subst; [destruct J| |].
      * exists y. split; [apply pt_true, live_part; assumption|exact J].
      * refine (quotes_part _ x s' _ (IHf x eq_refl s' I) y _ J); [apply pt_false, pt_self|assumption].
  - unfold prof_solutions in I. intros y L J. destruct (waived cx (f_path i)); [destruct I as [<-|[]]; inversion L; subst; destruct J|].
    destruct c as [[k' r]|]; [destruct (gnext _); [|destruct I]|]; destruct I as [<-|[]]; inversion L; subst; destruct J.
Qed.


(** ** With and without a class *)
Definition without (x : course) (cx : ctx) : ctx :=
  mkCtx (drop x (cx_transcript cx)) (drop x (cx_excluded cx)) (drop x (cx_failed cx)) (cx_forced cx) (cx_multi cx) (cx_exc cx) (cx_areas cx) (cx_perf cx) (cx_att cx) (cx_prof cx).
Lemma is_it c x : course_eqb c x = true -> c = x.
Proof. unfold course_eqb. destruct (course_eq_dec c x); [auto|discriminate]. Qed.
Lemma gfilter_drop x (f : course -> res bool) l : f x = Ok false -> gfilter f (drop x l) = gfilter f l.
Proof.
  intro F. induction l as [|c l IH]; [reflexivity|]. cbn [drop filter]. destruct (course_eqb c x) eqn:E; cbn [negb gfilter]; fold (drop x l).
  - apply is_it in E. subst c. rewrite F. exact IH.
  - rewrite IH. reflexivity.
Qed.
Lemma any_drop x (f : course -> res bool) l : f x = Ok false -> any_res f (drop x l) = any_res f l.
Proof.
  intro F. induction l as [|c l IH]; [reflexivity|]. cbn [drop filter]. destruct (course_eqb c x) eqn:E; cbn [negb any_res]; fold (drop x l).
  - apply is_it in E. subst c. rewrite F. exact IH.
  - rewrite IH. reflexivity.
Qed.
Lemma filter_drop_out x (p : course -> bool) l : p x = false -> filter p (drop x l) = filter p l.
Proof.
  intro F. induction l as [|c l IH]; [reflexivity|]. cbn [drop filter]. destruct (course_eqb c x) eqn:E; cbn [negb filter]; fold (drop x l).
  - apply is_it in E. subst c. rewrite F. exact IH.
  - rewrite IH. reflexivity.
Qed.
Lemma filter_res_drop x (f : item -> res bool) (p : course -> bool) l : f (ICourse x) = Ok false -> filter_res f (map ICourse (filter p (drop x l))) = filter_res f (map ICourse (filter p l)).
Proof.
  intro F. induction l as [|c l IH]; [reflexivity|]. cbn [drop filter]. destruct (course_eqb c x) eqn:E; cbn [negb filter]; fold (drop x l).
  - apply is_it in E. subst c. destruct (p x); [|exact IH]. cbn [map filter_res]. rewrite F. cbn [bind]. rewrite IH. destruct (filter_res f (map ICourse (filter p l))); reflexivity.
  - destruct (p c); [|exact IH]. cbn [map filter_res]. rewrite IH. reflexivity.
Qed.
Lemma any_items_drop x (f : item -> res bool) (p : course -> bool) l : f (ICourse x) = Ok false -> any_res f (map ICourse (filter p (drop x l))) = any_res f (map ICourse (filter p l)).
Proof.
  intro F. induction l as [|c l IH]; [reflexivity|]. cbn [drop filter]. destruct (course_eqb c x) eqn:E; cbn [negb filter]; fold (drop x l).
  - apply is_it in E. subst c. destruct (p x); [|exact IH]. cbn [map any_res]. rewrite F. cbn [bind]. exact IH.
  - destruct (p c); [|exact IH]. cbn [map any_res]. rewrite IH. reflexivity.
Qed.
Lemma filter_rev' {A} (p : A -> bool) l : filter p (rev l) = rev (filter p l).
Proof. induction l as [|c l IH]; [reflexivity|]. cbn [rev filter]. rewrite filter_app, IH. cbn [filter]. destruct (p c); [reflexivity|apply app_nil_r]. Qed.
Lemma lookup_drop x l k : k <> c_clbid x -> lookup_clbid (drop x l) k = lookup_clbid l k.
Proof.
  intro N. unfold lookup_clbid, drop. rewrite <- filter_rev'. induction (rev l) as [|c r IH]; [reflexivity|]. cbn [filter find]. destruct (course_eqb c x) eqn:E; cbn [negb].
  - apply is_it in E. subst c. rewrite IH. destruct (String.eqb_spec (c_clbid x) k); [congruence|reflexivity].
  - cbn [find]. rewrite IH. reflexivity.
Qed.
Section Idle.
  Variables (ord : list course -> list course) (nord : list node -> list node) (x : course) (cx : ctx).
  Definition unnamed : Prop := forall p e, In e (exc_at (cx_exc cx) p) -> is_insert e = true \/ is_block e = true -> exc_clbid e <> c_clbid x.
  Hypothesis UN : unnamed.
  Let cy := without x cx.
  Lemma find_eq k : k <> c_clbid x -> find_by_clbid cy k = find_by_clbid cx k.
  Proof. intro N. apply lookup_drop, N. Qed.
  Lemma forced_eq k : k <> c_clbid x -> forced_by_clbid cy k = forced_by_clbid cx k.
  Proof. intro N. unfold forced_by_clbid. rewrite (find_eq k N). reflexivity. Qed.
  Definition other_ids (es : list exc) : Prop := forall e, In e es -> exc_clbid e <> c_clbid x.
  Lemma inserts_ids p : other_ids (get_inserts (cx_exc cx) p).
  Proof. intros e I. unfold get_inserts in I. apply filter_In in I as [I E]. eapply UN; eauto. Qed.
  Lemma blocks_ids p : other_ids (get_blocks (cx_exc cx) p).
  Proof. intros e I. unfold get_blocks in I. apply filter_In in I as [I E]. eapply UN; eauto. Qed.
  Lemma insert_items_eq es : other_ids es -> forall data ins, insert_items cy es data ins = insert_items cx es data ins.
  Proof.
    induction es as [|e es IH]; intros O data ins; [reflexivity|]. cbn [insert_items]. assert (N := O e (in_eq _ _)). assert (O' : other_ids es) by (intros y I; apply O; right; exact I).
    rewrite (forced_eq _ N), (find_eq _ N). destruct (forced_by_clbid _ _); cbn [bind]; [|reflexivity]. destruct (exc_forced e); [apply IH, O'|]. destruct (find_by_clbid _ _); apply IH, O'.
  Qed.
  Lemma block_items_eq es : other_ids es -> forall data, block_items cy es data = block_items cx es data.
  Proof.
    induction es as [|e es IH]; intros O data; [reflexivity|]. cbn [block_items]. assert (N := O e (in_eq _ _)). assert (O' : other_ids es) by (intros y I; apply O; right; exact I).
    rewrite (forced_eq _ N). destruct (forced_by_clbid _ _); cbn [bind]; [|reflexivity]. apply IH, O'.
  Qed.
  Lemma audit_assertion_eq data a : audit_assertion cy data a = audit_assertion cx data a.
  Proof.
    unfold audit_assertion. change (cx_exc cy) with (cx_exc cx). destruct (as_overridden a); [reflexivity|].
    destruct (match as_where a with Some w => _ | None => _ end); cbn [bind]; [|reflexivity]. rewrite (insert_items_eq _ (inserts_ids _)). destruct (insert_items _ _ _ _); cbn [bind]; [|reflexivity]. rewrite (block_items_eq _ (blocks_ids _)). reflexivity.
  Qed.
  Lemma audit_any_eq data a : decided_assertion a -> audit_any cy data a = audit_any cx data a.
  Proof.
    intro D. destruct a as [y|p c t e0|p c t]; cbn [audit_any].
    - rewrite audit_assertion_eq. reflexivity.
    - assert (E : forall k, evaluate k c = Ok c) by (intro k; cbn [decided_assertion] in D; destruct c as [? [|]|? [|]|? [|]|? ? [|]]; try reflexivity; destruct D; reflexivity).
      rewrite !E. cbn [bind]. destruct (e_result c) as [[|]|]; [|destruct e0 as [f0|]|reflexivity]; rewrite ?audit_assertion_eq; reflexivity.
    - destruct (mapr as_course data); cbn [bind]; [|reflexivity]. destruct (eval_dyn _ _); cbn [bind]; [|reflexivity]. destruct (d_result _) as [[|]|]; try reflexivity.
      rewrite audit_assertion_eq. reflexivity.
  Qed.

  (** *** Queries *)
  Lemma q_insert_eq q es : other_ids es -> forall data ins forced, q_insert cy q es data ins forced = q_insert cx q es data ins forced.
  Proof.
    induction es as [|e es IH]; intros O data ins forced; [reflexivity|]. cbn [q_insert]. assert (N := O e (in_eq _ _)). assert (O' : other_ids es) by (intros y I; apply O; right; exact I).
    rewrite (forced_eq _ N), (find_eq _ N). destruct (instr _ _); [apply IH, O'|]. destruct (exc_forced e); [destruct (forced_by_clbid _ _); cbn [bind]; [apply IH, O'|reflexivity]|apply IH, O'].
  Qed.
  Lemma source_eq (q : query) : (if q_failed_too q then cx_failed cy else cx_transcript cy) = drop x (if q_failed_too q then cx_failed cx else cx_transcript cx).
  Proof. destruct (q_failed_too q); reflexivity. Qed.
  Lemma q_data_eq q : query_ignores x q -> q_data cy q = q_data cx q \/ exists w, q_where q = Some w /\ filter_res (fun i => apply_pred i w) (q_data cy q) = filter_res (fun i => apply_pred i w) (q_data cx q) /\
    any_res (fun i => apply_pred i w) (q_data cy q) = any_res (fun i => apply_pred i w) (q_data cx q).
  Proof.
    intros [_ H]. unfold q_data. destruct (q_source q); try (left; reflexivity). rewrite source_eq. destruct (H eq_refl) as [E|[w [W E]]].
    - left. f_equal. apply filter_drop_out. rewrite E. reflexivity.
    - right. exists w. split; [exact W|]. split; [apply filter_res_drop|apply any_items_drop]; exact E.
  Qed.
  Lemma q_filtered_eq q : query_ignores x q -> q_filtered cy q = q_filtered cx q.
  Proof.
    intro H. unfold q_filtered. change (cx_exc cy) with (cx_exc cx).
    assert (E : match q_where q with Some w => filter_res (fun i => apply_pred i w) (q_data cy q) | None => Ok (q_data cy q) end = match q_where q with Some w => filter_res (fun i => apply_pred i w) (q_data cx q) | None => Ok (q_data cx q) end).
    { destruct (q_data_eq q H) as [->|[w [-> [E _]]]]; [reflexivity|exact E]. }
    rewrite E. clear E. match goal with |- bind ?m _ = _ => destruct m end; cbn [bind]; [|reflexivity]. destruct (q_source q); try reflexivity; apply q_insert_eq, inserts_ids.
  Qed.
  Lemma q_solutions_eq q : query_ignores x q -> q_solutions ord cy q = q_solutions ord cx q.
  Proof. intro H. unfold q_solutions. rewrite (q_filtered_eq q H). reflexivity. Qed.
  Lemma q_potential_eq q : query_ignores x q -> q_potential cy q = q_potential cx q.
  Proof. intro H. unfold q_potential. change (cx_exc cy) with (cx_exc cx). destruct (q_data_eq q H) as [->|[w [-> [_ ->]]]]; reflexivity. Qed.
  Lemma q_audit_eq t q : q_source q <> QClaimed -> (forall a, In a (q_asserts q) -> decided_assertion a) -> q_audit cy t q = q_audit cx t q.
  Proof.
    intros N H. unfold q_audit. destruct (q_overridden q); [reflexivity|]. change (cx_multi cy) with (cx_multi cx). destruct (q_source q); try (destruct N; reflexivity);
    (match goal with |- bind ?m _ = bind ?m _ => destruct m as [[[[items ok] bad] t']|]; cbn [bind]; [|reflexivity] end;
     rewrite (mapr_eq (audit_any cy items) (audit_any cx items)) by (intros; apply audit_any_eq, H; assumption); reflexivity).
  Qed.

  (** *** Course rules *)
  Lemma c_inserts_eq r es : other_ids es -> c_inserts cy r es = c_inserts cx r es.
  Proof.
    induction es as [|e es IH]; intro O; [reflexivity|]. cbn [c_inserts]. rewrite (forced_eq _ (O e (in_eq _ _))). rewrite IH by (intros y I; apply O; right; exact I). reflexivity.
  Qed.
  Lemma find_courses_eq r : rule_ignores x r -> find_courses cy r = find_courses cx r.
  Proof.
    intros [G F]. unfold find_courses. destruct (given (r_clbid r)); [rewrite (find_eq _ (G eq_refl)); reflexivity|]. apply gfilter_drop, F. reflexivity.
  Qed.
  Lemma c_solutions_eq r : rule_ignores x r -> c_solutions cy r = c_solutions cx r.
  Proof.
    intro H. unfold c_solutions. change (cx_exc cy) with (cx_exc cx). rewrite (c_inserts_eq r _ (inserts_ids _)), (find_courses_eq r H). reflexivity.
  Qed.
  Lemma c_potential_eq r : rule_ignores x r -> c_potential cy r = c_potential cx r.
  Proof.
    intros [G F]. unfold c_potential. change (cx_exc cy) with (cx_exc cx). destruct (_ || _)%bool; [reflexivity|]. destruct (given (r_clbid r)); [rewrite (find_eq _ (G eq_refl)); reflexivity|]. apply any_drop, F. reflexivity.
  Qed.
  Lemma c_matches_eq r : rule_ignores x r -> c_matches cy r = c_matches cx r.
  Proof.
    intro H. unfold c_matches. rewrite (find_courses_eq r H).
    assert (E : c_insert_matches cy r = c_insert_matches cx r); [|rewrite E; reflexivity]. unfold c_insert_matches. change (cx_exc cy) with (cx_exc cx). assert (O := inserts_ids (r_path r)).
    induction (get_inserts (cx_exc cx) (r_path r)) as [|e es IH]; [reflexivity|]. cbn [flat_map]. rewrite (find_eq _ (O e (in_eq _ _))), IH by (intros y I; apply O; right; exact I). reflexivity.
  Qed.

  (** *** Trees *)
  Lemma cov_part n y : part_of n y -> all_ignore x n -> all_ignore x y.
  Proof.
    intros P C z Z. apply C. clear - P Z.
    induction P; [exact Z|eapply pt_count; eauto|apply pt_req; auto|apply pt_true; auto|apply pt_false; auto].
  Qed.
  Lemma cov_own n : all_ignore x n -> ignores x n.
  Proof. intro C. apply C, pt_self. Qed.
  Lemma waived_eq p : waived cy p = waived cx p.
  Proof. reflexivity. Qed.
  Lemma potential_eq n : all_ignore x n -> potential cy n = potential cx n.
  Proof.
    induction n as [k r|k q|k i items IH|k i o IH|k i t f IHt IHf|k i c] using node_induction; intro C; cbn [potential].
    - apply c_potential_eq. apply (cov_own _ C).
    - apply q_potential_eq. apply (cov_own _ C).
    - change (cx_exc cy) with (cx_exc cx). rewrite (any_eq (potential cy) (potential cx)); [reflexivity|].
      intros y I. apply IH; [exact I|]. eapply cov_part; [eapply pt_count; [exact I|apply pt_self]|exact C].
    - change (cx_exc cy) with (cx_exc cx). destruct o as [y|]; [|reflexivity]. rewrite (IH y eq_refl); [reflexivity|]. eapply cov_part; [apply pt_req, pt_self|exact C].
    - destruct (e_result (d_cond i)) as [[|]|]; [|destruct f as [y|]; [|reflexivity]|reflexivity].
      + apply IHt. eapply cov_part; [apply pt_true, pt_self|exact C].
      + apply (IHf y eq_refl). eapply cov_part; [apply pt_false, pt_self|exact C].
    - reflexivity.
  Qed.
  Lemma matches_eq n : all_ignore x n -> matches_of cy n = matches_of cx n.
  Proof.
    induction n as [k r|k q|k i items IH|k i o IH|k i t f IHt IHf|k i c] using node_induction; intro C; cbn [matches_of].
    - unfold course_matches. rewrite c_matches_eq by apply (cov_own _ C). reflexivity.
    - unfold q_matches. rewrite q_filtered_eq by apply (cov_own _ C). reflexivity.
    - rewrite (mapr_eq (matches_of cy) (matches_of cx)); [reflexivity|].
      intros y I. apply IH; [exact I|]. eapply cov_part; [eapply pt_count; [exact I|apply pt_self]|exact C].
    - destruct o as [y|]; [|reflexivity]. apply (IH y eq_refl). eapply cov_part; [apply pt_req, pt_self|exact C].
    - destruct (e_result (d_cond i)) as [[|]|]; [|destruct f as [y|]; [|reflexivity]|reflexivity].
      + apply IHt. eapply cov_part; [apply pt_true, pt_self|exact C].
      + apply (IHf y eq_refl). eapply cov_part; [apply pt_false, pt_self|exact C].
    - destruct c as [[k' r]|]; [|reflexivity]. unfold course_matches. rewrite c_matches_eq by apply (cov_own _ C). reflexivity.
  Qed.
  Lemma potential_children_eq cs : (forall c, In c cs -> all_ignore x (fst c)) -> potential_children cy cs = potential_children cx cs.
  Proof.
    intro H. unfold potential_children. rewrite (filter_res_eq (fun c => potential cy (fst c)) (fun c => potential cx (fst c))); [reflexivity|].
    intros c I. apply potential_eq, H, I.
  Qed.
  Lemma solutions_eq n : all_ignore x n -> solutions ord cy n = solutions ord cx n.
  Proof.
    induction n as [k r|k q|k i items IH|k i o IH|k i t f IHt IHf|k i c] using node_induction; intro C; cbn [solutions].
    - rewrite c_solutions_eq by apply (cov_own _ C). reflexivity.
    - rewrite q_solutions_eq by apply (cov_own _ C). reflexivity.
    - assert (CI : forall y, In y items -> all_ignore x y) by (intros y I; eapply cov_part; [eapply pt_count; [exact I|apply pt_self]|exact C]).
      rewrite (map_ext_in _ (fun c => (c, solutions ord cx c)) items) by (intros y I; rewrite (IH y I (CI y I)); reflexivity).
      unfold count_solutions. rewrite waived_eq. rewrite potential_children_eq; [reflexivity|].
      intros c I. apply in_map_iff in I as [y [<- I]]. apply CI, I.
    - rewrite waived_eq. destruct o as [y|]; [|reflexivity]. rewrite (IH y eq_refl); [reflexivity|]. eapply cov_part; [apply pt_req, pt_self|exact C].
    - destruct (e_result (d_cond i)) as [[|]|]; [|destruct f as [y|]; [|reflexivity]|reflexivity].
      + rewrite IHt; [reflexivity|]. eapply cov_part; [apply pt_true, pt_self|exact C].
      + rewrite (IHf y eq_refl); [reflexivity|]. eapply cov_part; [apply pt_false, pt_self|exact C].
    - unfold prof_solutions. rewrite waived_eq. destruct c as [[k' r]|]; [|reflexivity]. rewrite c_solutions_eq by apply (cov_own _ C). reflexivity.
  Qed.

  (** *** Audits *)
  Definition livable (n : node) : Prop := (forall y a, live n y -> In a (own_assertions y) -> decided_assertion a) /\ forall y, live n y -> ~ quoted y.
  Lemma livable_part n z : (forall y, live z y -> live n y) -> livable n -> livable z.
  Proof. intros S0 [A B]. split; [intros y a V; apply A, S0, V|intros y V; apply B, S0, V]. Qed.
  Lemma livable_of n s : decided n -> all_ignore x n -> within n s -> quotes n s -> livable s.
  Proof.
    intros D C W S0. split.
    - intros y a V I. destruct (W y a V I) as [z [Z J]]. exact (D z a Z J).
    - intros y V J. destruct (S0 y V J) as [z [Z K]]. specialize (C z Z). destruct z; try (destruct K; fail). destruct C as [C _]. exact (C K).
  Qed.
  Lemma audit_eq n : forall t, kind_of n = KSol -> livable n -> audit ord cy t n = audit ord cx t n.
  Proof.
    induction n as [k r|k q|k i items IH|k i o IH|k i b f IHt IHf|k i c] using node_induction; intros t K L; cbn [kind_of] in K; subst k; cbn [audit].
    - reflexivity.
    - rewrite q_audit_eq; [reflexivity| |]; [exact (proj2 L _ (lv_self (NQuery KSol q) eq_refl))|]. intros a I. apply (proj1 L _ a (lv_self (NQuery KSol q) eq_refl)). exact I.
    - destruct (n_overridden i); [reflexivity|]. rewrite (audit_each_eq (audit ord cy) (audit ord cx)).
      + destruct (audit_each _ _ _) as [[results t']|]; cbn [bind]; [|reflexivity].
        rewrite (mapr_eq (audit_any cy (flat_map (matched_items ord) results)) (audit_any cx (flat_map (matched_items ord) results))); [reflexivity|].
        intros a I. apply audit_any_eq. apply (proj1 L _ a (lv_self (NCount KSol i items) eq_refl)). exact I.
      + intros y t0 I KX. apply IH; [exact I|exact KX|]. eapply livable_part; [|exact L]. intros z V. eapply lv_count; eauto.
    - destruct (e_overridden i); [reflexivity|]. destruct o as [y|]; [|reflexivity]. destruct (kind_of y) eqn:KX; try reflexivity.
      rewrite (IH y eq_refl); [reflexivity|exact KX|]. eapply livable_part; [|exact L]. intros z V. apply lv_req, V.
    - destruct (e_result (d_cond i)) as [[|]|]; [|destruct f as [y|]; [|reflexivity]|reflexivity].
      + destruct (kind_of b) eqn:KX; try reflexivity. rewrite IHt; [reflexivity|reflexivity|]. eapply livable_part; [|exact L]. intros z V. apply lv_true, V.
      + destruct (kind_of y) eqn:KX; try reflexivity. rewrite (IHf y eq_refl); [reflexivity|exact KX|]. eapply livable_part; [|exact L]. intros z V. apply lv_false, V.
    - reflexivity.
  Qed.

  (** *** The search *)
  Lemma best_loop_eq e0 l : (forall s, In s l -> kind_of s = KSol /\ livable s) -> forall best inner, best_loop ord cy best inner l e0 = best_loop ord cx best inner l e0.
  Proof.
    induction l as [|s l IH]; intros H best inner; [reflexivity|]. cbn [best_loop]. destruct (H s (in_eq _ _)) as [K L]. rewrite (audit_eq s [] K L).
    destruct (audit ord cx [] s) as [[r t]|]; cbn [bind]; [|reflexivity]. destruct (rank_of r) as [[q m]|]; cbn [bind]; [|reflexivity].
    destruct (inS _ _); [reflexivity|]. apply IH. intros y I. apply H. right. exact I.
  Qed.
  Lemma find_best_eq t n m : all_ignore x n -> decided n -> find_best_solution ord cy t n m = find_best_solution ord cx t n m.
  Proof.
    intros P R. unfold find_best_solution. rewrite (solutions_eq n P). rewrite best_loop_eq; [reflexivity|].
    intros s I. split; [eapply solution_kind; exact I|]. eapply livable_of; [exact R|exact P|eapply solutions_within; exact I|eapply solutions_quotes; exact I].
  Qed.
  Lemma solve_independent_eq l : (forall n, In n l -> all_ignore x n /\ decided n) -> forall t, solve_independent ord cy t l = solve_independent ord cx t l.
  Proof.
    induction l as [|n l IH]; intros H t; [reflexivity|]. cbn [solve_independent]. destruct (H n (in_eq _ _)) as [P R]. rewrite (find_best_eq t n true P R).
    destruct (find_best_solution _ _ _ _ _) as [[r t1]|]; cbn [bind]; [|reflexivity]. rewrite IH by (intros y I; apply H; right; exact I). reflexivity.
  Qed.
  Hypothesis NORD : forall l, Permutation (nord l) l.
  Lemma top_count_eq t k i items : all_ignore x (NCount k i items) -> decided (NCount k i items) ->
    top_count_solutions ord nord cy t i items = top_count_solutions ord nord cx t i items.
  Proof.
    intros C R. assert (CI : forall y, In y items -> all_ignore x y) by (intros y I; eapply cov_part; [eapply pt_count; [exact I|apply pt_self]|exact C]).
    assert (RI : forall y, In y items -> decided y) by (intros y I z a Y J; apply (R z a); [eapply pt_count; eauto|exact J]).
    unfold top_count_solutions. rewrite waived_eq. destruct (waived _ _); [reflexivity|].
    rewrite (map_ext_in _ (fun c => (c, solutions ord cx c)) items) by (intros y I; rewrite (solutions_eq y (CI y I)); reflexivity).
    rewrite potential_children_eq by (intros c I; apply in_map_iff in I as [y [<- I]]; apply CI, I).
    destruct (potential_children _ _) as [pot|] eqn:P; [|reflexivity]. destruct pot as [|p0 pot']; [reflexivity|]. destruct (n_audits i); [|reflexivity].
    set (pot := p0 :: pot') in *.
    assert (PI : forall y, In y (nord (map fst pot)) -> In y items).
    { intros y I. apply (Permutation_in _ (NORD _)) in I. apply in_map_iff in I as [c [<- J]]. eapply pot_items; eauto. }
    rewrite (mapr_eq (fun n => let! m := matches_of cy n in Ok (n, m)) (fun n => let! m := matches_of cx n in Ok (n, m))) by (intros y I; rewrite (matches_eq y (CI y (PI y I))); reflexivity).
    destruct (mapr _ _) as [ms|] eqn:M; cbn [bind]; [|reflexivity]. destruct (classify ms) as [dis non] eqn:CL.
    rewrite solve_independent_eq; [reflexivity|]. intros n I. apply (Permutation_in _ (NORD _)) in I. apply (classify_in _ _ _ _ CL) in I. rewrite (matched_fst _ _ _ M) in I.
    split; [apply CI|apply RI]; apply PI, I.
  Qed.
  Lemma top_eq n : forall t, all_ignore x n -> decided n -> top_solutions ord nord cy t n = top_solutions ord nord cx t n.
  Proof.
    induction n as [k r|k q|k i items IH|k i o IH|k i b f IHt IHf|k i c] using node_induction; intros t C R; cbn [top_solutions]; try (rewrite solutions_eq by exact C; reflexivity).
    - eapply top_count_eq; eauto.
    - destruct (e_result (d_cond i)) as [[|]|]; [|destruct f as [y|]; [|reflexivity]|reflexivity].
      + rewrite IHt; [reflexivity| |]; [eapply cov_part; [apply pt_true, pt_self|exact C]|intros y a Y I; apply (R y a); [apply pt_true, Y|exact I]].
      + rewrite (IHf y eq_refl); [reflexivity| |]; [eapply cov_part; [apply pt_false, pt_self|exact C]|intros z a Y I; apply (R z a); [apply pt_false, Y|exact I]].
  Qed.
End Idle.
Section Good.
  Variables (ord : list course -> list course) (nord : list node -> list node).
  Lemma top_quotes cx n : forall t s, In s (g_items (fst (top_solutions ord nord cx t n))) -> kind_of s = KSol /\ quotes n s.
  Proof.
    induction n as [k r|k q|k i items IH|k i o IH|k i b f IHt IHf|k i c] using node_induction; intros t s I; cbn [top_solutions] in I;
      try (cbn [fst] in I; split; [eapply solution_kind; exact I|eapply solutions_quotes; exact I]).
    - assert (RUN : forall its results others len, In s (g_items (count_run i len its results others)) ->
        (forall c, In c its -> In (fst c) items /\ forall s, In s (g_items (snd c)) -> quotes (fst c) s) -> (forall r, In r results -> kind_of r = KRes) -> (forall x, In x others -> In x items) -> kind_of s = KSol /\ quotes (NCount k i items) s).
      { intros its results others len J A1 A2 A3. apply run_of in J. split; [destruct J as [l [-> _]]; reflexivity|]. eapply quotes_count; [destruct k; simpl; auto|exact A1|exact A2|exact A3|exact J]. }
      unfold top_count_solutions in I. destruct (waived cx (n_path i)).
      + destruct I as [<-|[]]. split; [reflexivity|]. intros y L J. inversion L; subst; [exists (NCount k i items); split; [apply pt_self|exact J]|]. exists y. split; [eapply pt_count; [eassumption|apply live_part; assumption]|exact J].
      + destruct (potential_children _ _) as [pot|] eqn:P; [|destruct I].
        assert (PC : forall c, In c pot -> In (fst c) items /\ forall s, In s (g_items (snd c)) -> quotes (fst c) s).
        { intros c C. destruct (pot_items cx (solutions ord cx) items pot c P C) as [A1 A2]. split; [exact A1|]. rewrite A2. intros s' S'. eapply solutions_quotes; exact S'. }
        assert (CS : forall x, In x (children_set items) -> In x items) by (intros x X; unfold children_set in X; apply dedup_incl in X; exact X).
        assert (PLAIN : In s (g_items (count_run i (Z.of_nat (List.length items)) (sort_by_path child_path pot) [] (children_set items))) -> kind_of s = KSol /\ quotes (NCount k i items) s).
        { intro J. eapply RUN; [exact J| |intros r []|exact CS]. intros c C. unfold sort_by_path in C. rewrite in_isort in C. apply PC, C. }
        destruct pot as [|p0 pot']; [apply PLAIN, I|]. destruct (n_audits i); [|apply PLAIN, I]. set (pot := p0 :: pot') in *.
        destruct (mapr _ _) as [ms|] eqn:M; cbn [bind] in I; [|destruct I]. destruct (classify ms) as [dis non]. destruct (solve_independent _ _ _ _) as [[solved t']|] eqn:SI; cbn [bind fst] in I; [|destruct I].
        eapply RUN; [exact I| | |].
        * intros c C. unfold sort_by_path in C. rewrite in_isort in C. apply filter_In in C as [C _]. apply PC, C.
        * intros r C. unfold sort_by_path in C. rewrite in_isort in C. eapply solved_kinds; eauto.
        * intros x C. apply filter_In in C as [C _]. apply CS, C.
    - destruct (e_result (d_cond i)) as [[|]|]; [|destruct f as [x|]; [|destruct I]|destruct I].
      + destruct (top_solutions ord nord cx t b) as [g t'] eqn:E. cbn [fst] in I. apply in_gmap in I as [s' [I ->]]. destruct (IHt t s') as [_ W]; [rewrite E; exact I|]. split; [reflexivity|].
        intros y L J. inversion L; subst; [destruct J| |]; [refine (quotes_part _ b s' _ W y _ J); [apply pt_true, pt_self|assumption]|exists y; split; [apply pt_false, live_part; assumption|exact J]].
      + destruct (top_solutions ord nord cx t x) as [g t'] eqn:E. cbn [fst] in I. apply in_gmap in I as [s' [I ->]]. destruct (IHf x eq_refl t s') as [_ W]; [rewrite E; exact I|]. split; [reflexivity|].
        intros y L J. inversion L; subst; [destruct J| |]; [exists y; split; [apply pt_true, live_part; assumption|exact J]|refine (quotes_part _ x s' _ W y _ J); [apply pt_false, pt_self|assumption]].
  Qed.
End Good.

(** ** Limits *)
Lemma insert_drop x c l : StronglySorted (fun a b => course_leb a b = true) l -> drop x (insert course_leb c l) = if course_eqb c x then drop x l else insert course_leb c (drop x l).
Proof.
  induction l as [|d l IH]; intro S0; cbn [insert drop filter].
  - destruct (course_eqb c x); reflexivity.
  - inversion S0 as [|? ? SL F]; subst. destruct (course_leb c d) eqn:L; cbn [filter]; fold (drop x l).
    + destruct (course_eqb c x) eqn:E; cbn [negb]; [reflexivity|]. destruct (course_eqb d x) eqn:E'; cbn [negb]; [|cbn [insert]; rewrite L; reflexivity].
      assert (G : Forall (fun b => course_leb c b = true) (drop x l)).
      { apply Forall_forall. intros b I. apply filter_In in I as [I _]. rewrite Forall_forall in F. eapply course_trans; [exact L|apply F, I]. }
      destruct (drop x l) as [|b r]; [reflexivity|]. cbn [insert]. inversion G as [|? ? G1 _]; subst. rewrite G1. reflexivity.
    + fold (drop x (insert course_leb c l)). rewrite (IH SL). destruct (course_eqb d x) eqn:E'; cbn [negb].
      * reflexivity.
      * destruct (course_eqb c x); [reflexivity|]. cbn [insert]. rewrite L. reflexivity.
Qed.
Lemma isort_drop x l : drop x (isort course_leb l) = isort course_leb (drop x l).
Proof.
  induction l as [|c l IH]; [reflexivity|]. change (isort course_leb (c :: l)) with (insert course_leb c (isort course_leb l)).
  rewrite insert_drop by apply (isort_sorted course_leb course_total course_trans). rewrite IH. cbn [drop filter]. fold (drop x l). destruct (course_eqb c x); reflexivity.
Qed.
Lemma filter_comm {A} (p q : A -> bool) l : filter p (filter q l) = filter q (filter p l).
Proof. induction l as [|c l IH]; [reflexivity|]. cbn [filter]. destruct (q c) eqn:E, (p c) eqn:F; cbn [filter]; rewrite ?E, ?F, ?IH; reflexivity. Qed.
Lemma dedup_drop x l : dedup course_eqb (drop x l) = drop x (dedup course_eqb l).
Proof.
  induction l as [|c l IH]; [reflexivity|]. cbn [drop filter dedup]. fold (drop x l). destruct (course_eqb c x) eqn:E; cbn [negb].
  - rewrite IH. apply is_it in E. subst c. unfold drop. rewrite filter_comm. symmetry. clear IH. induction (dedup course_eqb l) as [|d r IHr]; [reflexivity|]. cbn [filter].
    assert (SYM : course_eqb x d = course_eqb d x) by (unfold course_eqb; destruct (course_eq_dec x d), (course_eq_dec d x); congruence).
    destruct (course_eqb d x) eqn:D; cbn [negb filter]; [exact IHr|]. rewrite SYM. cbn [negb]. f_equal. exact IHr.
  - cbn [dedup]. rewrite IH. unfold drop. rewrite filter_comm. reflexivity.
Qed.
Section Limits.
  Variables (ord : list course -> list course) (x : course) (ls : list limit) (fk : list string).
  Hypothesis ORD : forall l, Permutation (ord l) l.
  Hypothesis NM : forall l, In l ls -> lm_match l x = Ok false.
  Hypothesis NF : ~ In (c_clbid x) fk.
  Lemma probe_courses_drop forced l cs : lm_match l x = Ok false -> forall d, probe_courses forced l (drop x cs) d = probe_courses forced l cs d.
  Proof.
    intro M. induction cs as [|c cs IH]; intro d; [reflexivity|]. cbn [drop filter]. fold (drop x cs). destruct (course_eqb c x) eqn:E; cbn [negb probe_courses].
    - apply is_it in E. subst c. destruct (existsb _ _); [apply IH|]. rewrite M. cbn [bind]. apply IH.
    - destruct (existsb _ _); [apply IH|]. destruct (lm_match l c); cbn [bind]; [apply IH|reflexivity].
  Qed.
  Lemma probe_drop forced cs l0 : (forall l, In l l0 -> In l ls) -> forall d, probe forced l0 (drop x cs) d = probe forced l0 cs d.
  Proof.
    induction l0 as [|l l0 IH]; intros S0 d; [reflexivity|]. cbn [probe]. rewrite probe_courses_drop by (apply NM, S0, in_eq). destruct (probe_courses _ _ _ _); cbn [bind]; [|reflexivity].
    apply IH. intros y I. apply S0. right. exact I.
  Qed.
  Definition clear_of (d : limit_sets) : Prop := forall p, In p d -> ~ In x (snd p).
  Lemma clear_add d l c : c <> x -> clear_of d -> clear_of (lset_add d l c).
  Proof.
    intros N. induction d as [|[l' s] d IH]; intros C p I; cbn [lset_add] in I.
    - destruct I as [<-|[]]. intros [E|[]]. exact (N E).
    - destruct (same_limit l l').
      + destruct I as [<-|I]; [|apply C; right; exact I]. cbn [snd]. unfold set_add. specialize (C _ (in_eq _ _)). cbn [snd] in C. destruct (memb course_eqb c s); [exact C|]. intro J. apply in_app_or in J as [J|[J|[]]]; auto.
      + destruct I as [<-|I]; [apply (C _ (in_eq _ _))|]. apply (IH (fun q J => C q (or_intror J)) p I).
  Qed.
  Lemma clear_courses forced l cs : lm_match l x = Ok false -> forall d d', clear_of d -> probe_courses forced l cs d = Ok d' -> clear_of d'.
  Proof.
    intro M. induction cs as [|c cs IH]; intros d d' C H; cbn [probe_courses] in H; [injection H as <-; exact C|]. destruct (existsb _ _); [eapply IH; eauto|].
    destruct (lm_match l c) as [b|] eqn:B; cbn [bind] in H; [|discriminate H]. eapply IH; [|exact H]. destruct b; [|exact C]. apply clear_add; [|exact C]. intro; subst c. congruence.
  Qed.
  Lemma clear_probe forced cs l0 : (forall l, In l l0 -> In l ls) -> forall d d', clear_of d -> probe forced l0 cs d = Ok d' -> clear_of d'.
  Proof.
    induction l0 as [|l l0 IH]; intros S0 d d' C H; cbn [probe] in H; [injection H as <-; exact C|]. destruct (probe_courses forced l cs d) as [d1|] eqn:P; cbn [bind] in H; [|discriminate H].
    eapply IH; [intros y I; apply S0; right; exact I| |exact H]. eapply clear_courses; [apply NM, S0, in_eq|exact C|exact P].
  Qed.
  Lemma drop_none l : ~ In x l -> drop x l = l.
  Proof.
    intro N. induction l as [|c l IH]; [reflexivity|]. cbn [drop filter]. fold (drop x l). destruct (course_eqb c x) eqn:E; cbn [negb].
    - apply is_it in E. subst c. destruct N. apply in_eq.
    - rewrite IH; [reflexivity|]. intro I. apply N. right. exact I.
  Qed.
  Lemma gmap_app {A B} (g : A -> B) a b : gmap g (gapp a b) = gapp (gmap g a) (gmap g b).
  Proof. unfold gapp, gmap. cbn [g_exn g_items]. destruct (g_exn a) eqn:E; cbn [g_exn g_items]; [rewrite E; reflexivity|]. rewrite map_app. reflexivity. Qed.
  Lemma emit_drop unm combos : (forall r, In r combos -> ~ In x (List.concat r)) -> forall emitted, emit ord ls (drop x unm) combos emitted = gmap (drop x) (emit ord ls unm combos emitted).
  Proof.
    induction combos as [|r combos IH]; intros C emitted; [reflexivity|]. cbn [emit]. assert (C' : forall r, In r combos -> ~ In x (List.concat r)) by (intros y I; apply C; right; exact I).
    destruct (check ls _) as [[|]|]; [|apply IH, C'|reflexivity]. destruct (existsb _ emitted); [apply IH, C'|]. rewrite gmap_app, IH by exact C'. f_equal. unfold gret, gmap. cbn [g_items g_exn map]. do 2 f_equal.
    rewrite isort_drop. f_equal. unfold drop at 2. rewrite filter_app. fold (drop x unm). f_equal. symmetry. apply drop_none. intro I. apply (Permutation_in _ (ORD _)) in I. apply dedup_incl in I. exact (C r (in_eq _ _) I).
  Qed.
  Lemma limited_drop cs : limited_transcripts ord ls fk (drop x cs) = gmap (drop x) (limited_transcripts ord ls fk cs).
  Proof.
    unfold limited_transcripts. destruct ls as [|l0 l1] eqn:LS; [reflexivity|]. rewrite <- LS in *. cbv zeta.
    assert (EF : filter (fun k => existsb (String.eqb k) fk) (map c_clbid (dedup course_eqb (drop x cs))) = filter (fun k => existsb (String.eqb k) fk) (map c_clbid (dedup course_eqb cs))).
    { rewrite dedup_drop. induction (dedup course_eqb cs) as [|c r IH]; [reflexivity|]. cbn [drop filter map]. fold (drop x r). destruct (course_eqb c x) eqn:E; cbn [negb map filter]; [|rewrite IH; reflexivity].
      apply is_it in E. subst c. rewrite IH. destruct (existsb (String.eqb (c_clbid x)) fk) eqn:F; [|reflexivity]. destruct NF. apply existsb_exists in F as [k [I E]]. apply String.eqb_eq in E. subst k. exact I. }
    rewrite EF, probe_drop by auto. destruct (probe _ ls cs []) as [matched|] eqn:P; [|reflexivity].
    assert (CL : clear_of matched) by (eapply clear_probe; [| |exact P]; [auto|intros p []]).
    rewrite gmap_app, dedup_drop. unfold drop at 1. rewrite filter_comm. fold (drop x (filter (fun c => negb (memb course_eqb c (flat_map snd matched))) (dedup course_eqb cs))). rewrite emit_drop; [destruct (g_exn (lazy_run _)); reflexivity|].
    intros r I J. apply in_concat in J as [s [S0 J]]. destruct (in_lazy s r _ I S0) as [g [G K]]. apply in_map_iff in G as [p [<- G]]. cbn [gret g_items] in K. apply iterate_subseq in K. eapply subseq_in in J; [|exact K].
    rewrite in_isort in J. exact (CL p G J).
  Qed.
End Limits.
