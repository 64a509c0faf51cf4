(** Audits look up exceptions at the paths of parts and assertions only. *)
From Coq Require Import List ZArith QArith Bool String Lia Permutation.
From Verif Require Import Transcript Prelude Dec Status Course Claims Exceptions Op Context CondExpr Paths Predicate Limit Apply Assertion Query CourseRule EnumSpec LazyRun Tree Solve Driver Area.
From Verif Require Import ListFacts ExceptionsProofs TreeSpec TreeSolSpec FrameSpec.
Import ListNotations.
Local Open Scope list_scope.

(** a context with other exceptions *)
Definition swap (d : exc_dict) (cx : ctx) : ctx :=
  mkCtx (cx_transcript cx) (cx_excluded cx) (cx_failed cx) (cx_forced cx) (cx_multi cx) d (cx_areas cx) (cx_perf cx) (cx_att cx) (cx_prof cx).

(** ** What solutions are made of *)
(** the parts that an audit goes through *)
Inductive live : node -> node -> Prop :=
| lv_self n : kind_of n = KSol -> live n n
| lv_count i items x y : In x items -> live x y -> live (NCount KSol i items) y
| lv_req i x y : live x y -> live (NReq KSol i (Some x)) y
| lv_true i t f y : live t y -> live (NCond KSol i t f) y
| lv_false i t x y : live x y -> live (NCond KSol i t (Some x)) y.
Lemma live_part n y : live n y -> part_of n y.
Proof. induction 1; [apply pt_self|eapply pt_count; eauto|apply pt_req; auto|apply pt_true; auto|apply pt_false; auto]. Qed.
Definition within (n s : node) : Prop := forall y a, live s y -> In a (own_assertions y) -> exists x, part_of n x /\ In a (own_assertions x).
Lemma within_self n : within n n.
Proof. intros y a L I. exists y. split; [apply live_part, L|exact I]. Qed.
Lemma within_part n x s : part_of n x -> within x s -> within n s.
Proof.
  intros P W y a L I. destruct (W y a L I) as [z [Z J]]. exists z. split; [|exact J]. clear - P Z.
  induction P; [exact Z|eapply pt_count; eauto|apply pt_req; auto|apply pt_true; auto|apply pt_false; auto].
Qed.

Lemma in_gapp {A} (x : A) a b : In x (g_items (gapp a b)) -> In x (g_items a) \/ In x (g_items b).
Proof. unfold gapp. destruct (g_exn a); cbn [g_items]; [auto|]. apply in_app_or. Qed.
Lemma in_gmap {A B} (g : A -> B) x h : In x (g_items (gmap g h)) -> exists y, In y (g_items h) /\ x = g y.
Proof. unfold gmap. cbn [g_items]. rewrite in_map_iff. intros [y [E I]]. eauto. Qed.
Lemma in_gflat {A B} (g : A -> gen B) x h : In x (g_items (gflat g h)) -> exists y, In y (g_items h) /\ In x (g_items (g y)).
Proof.
  unfold gflat. generalize (g_exn h). induction (g_items h) as [|y l IH]; intro e0; cbn [gflat_list g_items]; [intros []|].
  intro I. apply in_gapp in I as [I|I]; [exists y; split; [apply in_eq|exact I]|]. destruct (IH e0 I) as [z [Z J]]. exists z. split; [right; exact Z|exact J].
Qed.
Lemma in_lazy {A} (x : A) t gs : In t (g_items (lazy_run gs)) -> In x t -> exists g, In g gs /\ In x (g_items g).
Proof.
  unfold lazy_run. destruct (first_failure gs); [intros []|]. revert t. induction gs as [|g gs IH]; intros t I J; cbn [product_gen] in I.
  - destruct I as [<-|[]]. destruct J.
  - apply in_gflat in I as [y [Y I]]. apply in_gmap in I as [t' [I ->]]. destruct J as [<-|J]; [exists g; split; [apply in_eq|exact Y]|].
    destruct (IH t' I J) as [h [H K]]. exists h. split; [right; exact H|exact K].
Qed.
Lemma in_combinations {A} (x : A) s l k : In s (g_items (combinations l k)) -> In x s -> In x l.
Proof. unfold combinations. destruct (k <? 0)%Z; [intros []|]. cbn [gret g_items]. intros I J. apply in_combs in I as [I _]. eapply subseq_in; eauto. Qed.
Lemma dedup_incl {A} eqb (x : A) l : In x (dedup eqb l) -> In x l.
Proof. induction l as [|y l IH]; cbn [dedup]; [auto|]. intros [<-|I]; [apply in_eq|]. apply filter_In in I. right. apply IH, I. Qed.
Definition made_of (i : count_info) (its : list child) (results others : list node) (z : node) : Prop :=
  exists l, z = count_solution i l false /\ forall x, In x l -> In x others \/ In x results \/ exists c, In c its /\ In x (g_items (snd c)).
Lemma combination_of i its results others k z : In z (g_items (make_combinations i its results others k)) -> made_of i its results others z.
Proof.
  unfold make_combinations. intro I. apply in_gflat in I as [sel [S0 I]]. apply in_gmap in I as [sols [I ->]]. eexists. split; [reflexivity|].
  intros x J. unfold sort_by_path in J. rewrite in_isort, !in_app_iff in J. destruct J as [J|[J|J]]; [|apply filter_In in J; left; apply J|right; left; exact J].
  right. right. destruct (in_lazy x sols _ I J) as [g [G K]]. apply in_map_iff in G as [c [<- C]]. exists c. split; [|exact K]. eapply in_combinations; eauto.
Qed.
Lemma run_of i len its results others z : In z (g_items (count_run i len its results others)) -> made_of i its results others z.
Proof.
  unfold count_run. destruct (gflat (make_combinations i its results others) _) as [[|y l] [e0|]] eqn:R.
  - intros [].
  - assert (D : In z (g_items (gret [count_solution i (sort_by_path path_of (others ++ results)) false])) -> made_of i its results others z).
    { intros [<-|[]]. eexists. split; [reflexivity|]. intros x J. unfold sort_by_path in J. rewrite in_isort, in_app_iff in J. destruct J; auto. }
    destruct its as [|c its]; [exact D|]. destruct (make_combinations i (c :: its) results others _) as [[|y l] [e0|]] eqn:M; [intros []|exact D| |]; rewrite <- M; apply combination_of.
  - rewrite <- R. intro I. apply in_gflat in I as [k [_ I]]. eapply combination_of; eauto.
  - rewrite <- R. intro I. apply in_gflat in I as [k [_ I]]. eapply combination_of; eauto.
Qed.
Lemma query_asserts_kept ord cx q s : In s (g_items (q_solutions ord cx q)) -> q_asserts s = q_asserts q.
Proof.
  unfold q_solutions. destruct (q_overridden q); [intros [<-|[]]; reflexivity|]. destruct (q_filtered cx q) as [[[data ins] forced]|]; [|intros []].
  destruct (q_source q); try (intros [<-|[]]; reflexivity); try (cbn; intros [<-|[]]; reflexivity).
  destruct (mapr as_course data); [|intros []]. destruct (gflat _ _) as [[|y l] [e0|]]; [intros []|intros [<-|[]]; reflexivity| |]; intro I; apply in_gmap in I as [o [_ ->]]; reflexivity.
Qed.
Lemma within_count n i items its results : In n [NCount KRule i items; NCount KSol i items; NCount KRes i items] ->
  (forall c, In c its -> In (fst c) items /\ forall s, In s (g_items (snd c)) -> within (fst c) s) -> (forall r, In r results -> kind_of r = KRes) ->
  forall others z, (forall x, In x others -> In x items) -> made_of i its results others z -> within n z.
Proof.
  intros N C R others z O [l [-> L]] y a V I.
  assert (SELF : exists k, n = NCount k i items) by (destruct N as [<-|[<-|[<-|[]]]]; eauto). destruct SELF as [k ->]. clear N.
  inversion V; subst; [exists (NCount k i items); split; [apply pt_self|exact I]|].
  match goal with J : In ?x l, W : live ?x y |- _ => destruct (L x J) as [K|[K|[c [K M]]]] end.
  - exists y. split; [|exact I]. eapply pt_count; [apply O; eassumption|apply live_part; assumption].
  - exfalso. apply R in K. match goal with W : live ?x y, E : kind_of ?x = KRes |- _ => inversion W; subst; cbn in E; congruence end.
  - destruct (C c K) as [J' W]. assert (Q0 := within_part (NCount k i items) (fst c) x (pt_count k i items _ _ J' (pt_self _)) (W x M)). apply (Q0 y a); assumption.
Qed.
Lemma pot_items cx f items pot c : potential_children cx (map (fun c => (c, f c)) items) = Ok pot -> In c pot -> In (fst c) items /\ snd c = f (fst c).
Proof.
  unfold potential_children. destruct (filter_res _ _) as [l|] eqn:E; cbn [bind]; [|discriminate]. intro H. injection H as <-. intro I. apply dedup_incl in I.
  assert (J : In c (map (fun c => (c, f c)) items)).
  { revert l E I. generalize (map (fun c => (c, f c)) items). induction l as [|x l IH]; intros l' E I; cbn [filter_res] in E; [injection E as <-; destruct I|].
    destruct (potential cx (fst x)) as [b|]; cbn [bind] in E; [|discriminate E]. destruct (filter_res _ l) as [r|] eqn:F; cbn [bind] in E; [|discriminate E]. injection E as <-.
    destruct b; [destruct I as [<-|I]; [apply in_eq|]|]; right; eapply IH; eauto. }
  apply in_map_iff in J as [x [<- J]]. split; [exact J|reflexivity].
Qed.
Lemma solutions_within ord cx n : forall s, In s (g_items (solutions ord cx n)) -> within n s.
Proof.
  induction n as [k r|k q|k i items IH|k i o IH|k i t f IHt IHf|k i c] using node_induction; intros s I; cbn [solutions] in I.
  - apply in_gmap in I as [r' [_ ->]]. intros y a L J. inversion L; subst. destruct J.
  - apply in_gmap in I as [q' [Q' ->]]. apply query_asserts_kept in Q'. intros y a L J. inversion L; subst. cbn [own_assertions] in J. rewrite Q' in J. exists (NQuery k q). split; [apply pt_self|exact J].
  - unfold count_solutions in I. destruct (waived cx (n_path i)).
    + destruct I as [<-|[]]. intros y a L J. inversion L; subst; [exists (NCount k i items); split; [apply pt_self|exact J]|]. exists y. split; [eapply pt_count; [eassumption|apply live_part; assumption]|exact J].
    + destruct (potential_children _ _) as [pot|] eqn:P; [|destruct I]. apply run_of in I.
      eapply within_count; [|  | |  |exact I].
      * destruct k; simpl; auto.
      * intros c C. unfold sort_by_path in C. rewrite in_isort in C. destruct (pot_items cx (solutions ord cx) items pot c P C) as [A1 A2]. split; [exact A1|]. rewrite A2. apply IH. exact A1.
      * intros r [].
      * intros x X. unfold children_set in X. apply dedup_incl in X. exact X.
  - destruct (waived cx (e_path i)).
    + destruct I as [<-|[]]. intros y a L J. inversion L; subst; [destruct J|]. exists y. split; [apply pt_req, live_part; assumption|exact J].
    + destruct o as [x|]; [|destruct I as [<-|[]]; intros y a L J; inversion L; subst; destruct J].
      apply in_gmap in I as [s' [I ->]]. intros y a L J. inversion L; subst; [destruct J|]. refine (within_part _ x s' _ (IH x eq_refl s' I) y a _ J); [apply pt_req, pt_self|assumption].
  - destruct (e_result (d_cond i)) as [[|]|]; [| |destruct I].
    + apply in_gmap in I as [s' [I ->]]. intros y a L J. inversion L; subst; [destruct J| |].
      * refine (within_part _ t s' _ (IHt s' I) y a _ J); [apply pt_true, pt_self|assumption].
      * exists y. split; [apply pt_false, live_part; assumption|exact J].
    + destruct f as [x|]; [|destruct I]. apply in_gmap in I as [s' [I ->]]. intros y a L J. inversion L; subst; [destruct J| |].
      * exists y. split; [apply pt_true, live_part; assumption|exact J].
      * refine (within_part _ x s' _ (IHf x eq_refl s' I) y a _ J); [apply pt_false, pt_self|assumption].
  - unfold prof_solutions in I. intros y a L J. destruct (waived cx (f_path i)); [destruct I as [<-|[]]; inversion L; subst; destruct J|].
    destruct c as [[k' r]|]; [destruct (gnext _); [|destruct I]|]; destruct I as [<-|[]]; inversion L; subst; destruct J.
Qed.

(** ** Two sets of exceptions *)
Lemma mapr_eq {A B} (g h : A -> res B) l : (forall x, In x l -> g x = h x) -> mapr g l = mapr h l.
Proof. induction l as [|x l IH]; intro H; [reflexivity|]. cbn [mapr]. rewrite (H x) by apply in_eq. rewrite IH by (intros; apply H; right; assumption). reflexivity. Qed.
Lemma any_eq {A} (g h : A -> res bool) l : (forall x, In x l -> g x = h x) -> any_res g l = any_res h l.
Proof. induction l as [|x l IH]; intro H; [reflexivity|]. cbn [any_res]. rewrite (H x) by apply in_eq. rewrite IH by (intros; apply H; right; assumption). reflexivity. Qed.
Lemma filter_res_eq {A} (g h : A -> res bool) l : (forall x, In x l -> g x = h x) -> filter_res g l = filter_res h l.
Proof. induction l as [|x l IH]; intro H; [reflexivity|]. cbn [filter_res]. rewrite (H x) by apply in_eq. rewrite IH by (intros; apply H; right; assumption). reflexivity. Qed.
Section Frame.
  Variables (ord : list course -> list course) (nord : list node -> list node).
  Variables (d d' : exc_dict) (S1 S2 : path -> Prop).
  Hypothesis AT : forall p, S1 p -> exc_at d p = exc_at d' p.
  Hypothesis BE : forall p, S2 p -> has_exception_beneath d p = has_exception_beneath d' p.
  Lemma inserts_eq p : S1 p -> get_inserts d p = get_inserts d' p.
  Proof. intro H. unfold get_inserts. rewrite (AT p H). reflexivity. Qed.
  Lemma blocks_eq p : S1 p -> get_blocks d p = get_blocks d' p.
  Proof. intro H. unfold get_blocks. rewrite (AT p H). reflexivity. Qed.
  Lemma waive_eq p : S1 p -> get_waive d p = get_waive d' p.
  Proof. intro H. unfold get_waive. rewrite (AT p H). reflexivity. Qed.

  Lemma insert_items_eq cx es : forall data ins, insert_items (swap d cx) es data ins = insert_items (swap d' cx) es data ins.
  Proof.
    induction es as [|x es IH]; intros; [reflexivity|]. cbn [insert_items]. change (forced_by_clbid (swap d' cx) (exc_clbid x)) with (forced_by_clbid (swap d cx) (exc_clbid x)).
    change (find_by_clbid (swap d' cx) (exc_clbid x)) with (find_by_clbid (swap d cx) (exc_clbid x)).
    destruct (forced_by_clbid _ _); cbn [bind]; [|reflexivity]. destruct (exc_forced x); [apply IH|]. destruct (find_by_clbid _ _); apply IH.
  Qed.
  Lemma block_items_eq cx es : forall data, block_items (swap d cx) es data = block_items (swap d' cx) es data.
  Proof.
    induction es as [|x es IH]; intros; [reflexivity|]. cbn [block_items]. change (forced_by_clbid (swap d' cx) (exc_clbid x)) with (forced_by_clbid (swap d cx) (exc_clbid x)).
    destruct (forced_by_clbid _ _); cbn [bind]; [|reflexivity]. apply IH.
  Qed.
  Lemma audit_assertion_eq cx data a : S1 (as_path a) -> audit_assertion (swap d cx) data a = audit_assertion (swap d' cx) data a.
  Proof.
    intro H. unfold audit_assertion. cbn [cx_exc swap]. rewrite (inserts_eq _ H), (blocks_eq _ H). destruct (as_overridden a); [reflexivity|].
    destruct (match as_where a with Some w => _ | None => _ end); cbn [bind]; [|reflexivity]. rewrite insert_items_eq. destruct (insert_items _ _ _ _); cbn [bind]; [|reflexivity]. rewrite block_items_eq. reflexivity.
  Qed.
  Definition acov (a : any_assertion) : Prop := decided_assertion a /\ forall v, In v (variants a) -> S1 (as_path v).
  Lemma audit_any_eq cx data a : acov a -> audit_any (swap d cx) data a = audit_any (swap d' cx) data a.
  Proof.
    intros [D V]. destruct a as [x|p c t e0|p c t]; cbn [audit_any].
    - rewrite audit_assertion_eq by (apply V, in_eq). reflexivity.
    - assert (E : forall k, evaluate k c = Ok c) by (intro k; cbn [decided_assertion] in D; destruct c as [? [|]|? [|]|? [|]|? ? [|]]; try reflexivity; destruct D; reflexivity).
      rewrite !E. cbn [bind]. destruct (e_result c) as [[|]|]; [|destruct e0 as [f0|]|reflexivity].
      + rewrite audit_assertion_eq by (apply V; destruct e0; apply in_eq). reflexivity.
      + rewrite audit_assertion_eq by (apply V; right; left; reflexivity). reflexivity.
      + reflexivity.
    - destruct (mapr as_course data); cbn [bind]; [|reflexivity]. destruct (eval_dyn _ _); cbn [bind]; [|reflexivity]. destruct (d_result _) as [[|]|]; try reflexivity.
      rewrite audit_assertion_eq by (apply V, in_eq). reflexivity.
  Qed.

  (** *** Queries *)
  Lemma q_insert_eq cx q es : forall data ins forced, q_insert (swap d cx) q es data ins forced = q_insert (swap d' cx) q es data ins forced.
  Proof.
    induction es as [|x es IH]; intros; [reflexivity|]. cbn [q_insert]. change (forced_by_clbid (swap d' cx) (exc_clbid x)) with (forced_by_clbid (swap d cx) (exc_clbid x)).
    change (find_by_clbid (swap d' cx) (exc_clbid x)) with (find_by_clbid (swap d cx) (exc_clbid x)).
    destruct (instr _ _); [apply IH|]. destruct (exc_forced x); [destruct (forced_by_clbid _ _); cbn [bind]; [apply IH|reflexivity]|apply IH].
  Qed.
  Lemma q_filtered_eq cx q : S1 (q_path q) -> q_filtered (swap d cx) q = q_filtered (swap d' cx) q.
  Proof.
    intro H. unfold q_filtered. change (q_data (swap d' cx) q) with (q_data (swap d cx) q). cbn [cx_exc swap]. rewrite (inserts_eq _ H).
    destruct (match q_where q with Some w => _ | None => _ end); cbn [bind]; [|reflexivity]. destruct (q_source q); try reflexivity; apply q_insert_eq.
  Qed.
  Lemma q_solutions_eq cx q : S1 (q_path q) -> q_solutions ord (swap d cx) q = q_solutions ord (swap d' cx) q.
  Proof. intro H. unfold q_solutions. rewrite (q_filtered_eq cx q H). reflexivity. Qed.
  Lemma q_potential_eq cx q : S2 (q_path q) -> q_potential (swap d cx) q = q_potential (swap d' cx) q.
  Proof. intro H. unfold q_potential. cbn [cx_exc swap]. rewrite (BE _ H). reflexivity. Qed.
  Lemma q_audit_eq cx t q : (forall a, In a (q_asserts q) -> acov a) -> q_audit (swap d cx) t q = q_audit (swap d' cx) t q.
  Proof.
    intro H. unfold q_audit. destruct (q_overridden q); [reflexivity|]. change (collect_claimed (swap d' cx) t q) with (collect_claimed (swap d cx) t q). cbn [cx_multi swap].
    match goal with |- bind ?m _ = bind ?m _ => destruct m as [[[[items ok] bad] t']|]; cbn [bind]; [|reflexivity] end.
    rewrite (mapr_eq (audit_any (swap d cx) items) (audit_any (swap d' cx) items)) by (intros; apply audit_any_eq, H; assumption). reflexivity.
  Qed.

  (** *** Course rules *)
  Lemma c_inserts_eq cx r es : c_inserts (swap d cx) r es = c_inserts (swap d' cx) r es.
  Proof.
    induction es as [|x es IH]; [reflexivity|]. cbn [c_inserts]. change (forced_by_clbid (swap d' cx) (exc_clbid x)) with (forced_by_clbid (swap d cx) (exc_clbid x)). rewrite IH. reflexivity.
  Qed.
  Lemma c_solutions_eq cx r : S1 (r_path r) -> c_solutions (swap d cx) r = c_solutions (swap d' cx) r.
  Proof.
    intro H. unfold c_solutions. cbn [cx_exc swap]. rewrite (waive_eq _ H), (inserts_eq _ H), c_inserts_eq. change (find_courses (swap d' cx) r) with (find_courses (swap d cx) r). reflexivity.
  Qed.
  Lemma c_potential_eq cx r : S2 (r_path r) -> c_potential (swap d cx) r = c_potential (swap d' cx) r.
  Proof. intro H. unfold c_potential. cbn [cx_exc swap]. rewrite (BE _ H). reflexivity. Qed.
  Lemma c_matches_eq cx r : S1 (r_path r) -> c_matches (swap d cx) r = c_matches (swap d' cx) r.
  Proof. intro H. unfold c_matches, c_insert_matches. cbn [cx_exc swap]. rewrite (inserts_eq _ H). reflexivity. Qed.

  (** *** Trees *)
  Definition pcov (n : node) : Prop := forall p, names_part n p -> S1 p /\ S2 p.
  Lemma pcov_part n x : part_of n x -> pcov n -> pcov x.
  Proof.
    intros P C p [y [Y I]]. apply C. exists y. split; [|exact I]. clear - P Y.
    induction P; [exact Y|eapply pt_count; eauto|apply pt_req; auto|apply pt_true; auto|apply pt_false; auto].
  Qed.
  Lemma pcov_own n p : pcov n -> In p (places n) -> S1 p /\ S2 p.
  Proof. intros C I. apply C. exists n. split; [apply pt_self|exact I]. Qed.
  Lemma waived_eq cx p : S1 p -> waived (swap d cx) p = waived (swap d' cx) p.
  Proof. intro H. unfold waived. cbn [cx_exc swap]. rewrite (waive_eq _ H). reflexivity. Qed.
  Lemma potential_eq cx n : pcov n -> potential (swap d cx) n = potential (swap d' cx) n.
  Proof.
    induction n as [k r|k q|k i items IH|k i o IH|k i t f IHt IHf|k i c] using node_induction; intro C; cbn [potential].
    - apply c_potential_eq. apply (pcov_own _ _ C). apply in_eq.
    - apply q_potential_eq. apply (pcov_own _ _ C). apply in_eq.
    - cbn [cx_exc swap]. rewrite (BE (n_path i)) by (apply (pcov_own _ _ C); apply in_eq). rewrite (any_eq (potential (swap d cx)) (potential (swap d' cx))); [reflexivity|].
      intros x I. apply IH; [exact I|]. eapply pcov_part; [eapply pt_count; [exact I|apply pt_self]|exact C].
    - cbn [cx_exc swap]. rewrite (BE (e_path i)) by (apply (pcov_own _ _ C); apply in_eq). destruct o as [x|]; [|reflexivity]. rewrite (IH x eq_refl); [reflexivity|]. eapply pcov_part; [apply pt_req, pt_self|exact C].
    - destruct (e_result (d_cond i)) as [[|]|]; [|destruct f as [x|]; [|reflexivity]|reflexivity].
      + apply IHt. eapply pcov_part; [apply pt_true, pt_self|exact C].
      + apply (IHf x eq_refl). eapply pcov_part; [apply pt_false, pt_self|exact C].
    - reflexivity.
  Qed.
  Lemma matches_eq cx n : pcov n -> matches_of (swap d cx) n = matches_of (swap d' cx) n.
  Proof.
    induction n as [k r|k q|k i items IH|k i o IH|k i t f IHt IHf|k i c] using node_induction; intro C; cbn [matches_of].
    - unfold course_matches. rewrite c_matches_eq by (apply (pcov_own _ _ C); apply in_eq). reflexivity.
    - unfold q_matches. rewrite q_filtered_eq by (apply (pcov_own _ _ C); apply in_eq). reflexivity.
    - rewrite (mapr_eq (matches_of (swap d cx)) (matches_of (swap d' cx))); [reflexivity|].
      intros x I. apply IH; [exact I|]. eapply pcov_part; [eapply pt_count; [exact I|apply pt_self]|exact C].
    - destruct o as [x|]; [|reflexivity]. apply (IH x eq_refl). eapply pcov_part; [apply pt_req, pt_self|exact C].
    - destruct (e_result (d_cond i)) as [[|]|]; [|destruct f as [x|]; [|reflexivity]|reflexivity].
      + apply IHt. eapply pcov_part; [apply pt_true, pt_self|exact C].
      + apply (IHf x eq_refl). eapply pcov_part; [apply pt_false, pt_self|exact C].
    - destruct c as [[k' r]|]; [|reflexivity]. unfold course_matches. rewrite c_matches_eq by (apply (pcov_own _ _ C); right; apply in_eq). reflexivity.
  Qed.
  Lemma potential_children_eq cx cs : (forall c, In c cs -> pcov (fst c)) -> potential_children (swap d cx) cs = potential_children (swap d' cx) cs.
  Proof.
    intro H. unfold potential_children. rewrite (filter_res_eq (fun c => potential (swap d cx) (fst c)) (fun c => potential (swap d' cx) (fst c))); [reflexivity|].
    intros c I. apply potential_eq, H, I.
  Qed.
  Lemma solutions_eq cx n : pcov n -> solutions ord (swap d cx) n = solutions ord (swap d' cx) n.
  Proof.
    induction n as [k r|k q|k i items IH|k i o IH|k i t f IHt IHf|k i c] using node_induction; intro C; cbn [solutions].
    - rewrite c_solutions_eq by (apply (pcov_own _ _ C); apply in_eq). reflexivity.
    - rewrite q_solutions_eq by (apply (pcov_own _ _ C); apply in_eq). reflexivity.
    - assert (CI : forall x, In x items -> pcov x) by (intros x I; eapply pcov_part; [eapply pt_count; [exact I|apply pt_self]|exact C]).
      rewrite (map_ext_in _ (fun c => (c, solutions ord (swap d' cx) c)) items) by (intros x I; rewrite (IH x I (CI x I)); reflexivity).
      unfold count_solutions. rewrite waived_eq by (apply (pcov_own _ _ C); apply in_eq). rewrite potential_children_eq; [reflexivity|].
      intros c I. apply in_map_iff in I as [x [<- I]]. apply CI, I.
    - rewrite waived_eq by (apply (pcov_own _ _ C); apply in_eq). destruct o as [x|]; [|reflexivity]. rewrite (IH x eq_refl); [reflexivity|]. eapply pcov_part; [apply pt_req, pt_self|exact C].
    - destruct (e_result (d_cond i)) as [[|]|]; [|destruct f as [x|]; [|reflexivity]|reflexivity].
      + rewrite IHt; [reflexivity|]. eapply pcov_part; [apply pt_true, pt_self|exact C].
      + rewrite (IHf x eq_refl); [reflexivity|]. eapply pcov_part; [apply pt_false, pt_self|exact C].
    - unfold prof_solutions. rewrite waived_eq by (apply (pcov_own _ _ C); apply in_eq). destruct c as [[k' r]|]; [|reflexivity]. rewrite c_solutions_eq by (apply (pcov_own _ _ C); right; apply in_eq). reflexivity.
  Qed.

  (** *** Audits *)
  Definition lcov (n : node) : Prop := forall y a, live n y -> In a (own_assertions y) -> acov a.
  Definition rcov (n : node) : Prop := forall y a, part_of n y -> In a (own_assertions y) -> acov a.
  Lemma lcov_of n s : rcov n -> within n s -> lcov s.
  Proof. intros R W y a L I. destruct (W y a L I) as [x [X J]]. exact (R x a X J). Qed.
  Lemma audit_each_eq (g h : claims -> node -> res (node * claims)) l : (forall x t, In x l -> kind_of x = KSol -> g t x = h t x) -> forall t, audit_each g t l = audit_each h t l.
  Proof.
    induction l as [|x l IH]; intros H t; [reflexivity|]. cbn [audit_each]. destruct (kind_of x) eqn:K.
    - cbn [bind]. rewrite IH by (intros; apply H; [right|]; assumption). reflexivity.
    - rewrite (H x t (in_eq _ _) K). destruct (h t x) as [[y t1]|]; cbn [bind]; [|reflexivity]. rewrite IH by (intros; apply H; [right|]; assumption). reflexivity.
    - cbn [bind]. rewrite IH by (intros; apply H; [right|]; assumption). reflexivity.
  Qed.
  Lemma audit_eq cx n : forall t, kind_of n = KSol -> lcov n -> audit ord (swap d cx) t n = audit ord (swap d' cx) t n.
  Proof.
    induction n as [k r|k q|k i items IH|k i o IH|k i b f IHt IHf|k i c] using node_induction; intros t K L; cbn [kind_of] in K; subst k; cbn [audit].
    - reflexivity.
    - rewrite q_audit_eq; [reflexivity|]. intros a I. apply (L _ a (lv_self (NQuery KSol q) eq_refl)). exact I.
    - destruct (n_overridden i); [reflexivity|]. rewrite (audit_each_eq (audit ord (swap d cx)) (audit ord (swap d' cx))).
      + destruct (audit_each _ _ _) as [[results t']|]; cbn [bind]; [|reflexivity].
        rewrite (mapr_eq (audit_any (swap d cx) (flat_map (matched_items ord) results)) (audit_any (swap d' cx) (flat_map (matched_items ord) results))); [reflexivity|].
        intros a I. apply audit_any_eq. apply (L _ a (lv_self (NCount KSol i items) eq_refl)). exact I.
      + intros x t0 I KX. apply IH; [exact I|exact KX|]. intros y a V J. apply (L y a); [eapply lv_count; eauto|exact J].
    - destruct (e_overridden i); [reflexivity|]. destruct o as [x|]; [|reflexivity]. destruct (kind_of x) eqn:KX; try reflexivity.
      rewrite (IH x eq_refl); [reflexivity|exact KX|]. intros y a V J. apply (L y a); [apply lv_req, V|exact J].
    - destruct (e_result (d_cond i)) as [[|]|]; [|destruct f as [x|]; [|reflexivity]|reflexivity].
      + destruct (kind_of b) eqn:KX; try reflexivity. rewrite IHt; [reflexivity|reflexivity|]. intros y a V J. apply (L y a); [apply lv_true, V|exact J].
      + destruct (kind_of x) eqn:KX; try reflexivity. rewrite (IHf x eq_refl); [reflexivity|exact KX|]. intros y a V J. apply (L y a); [apply lv_false, V|exact J].
    - reflexivity.
  Qed.
  Lemma solution_kind cx n s : In s (g_items (solutions ord cx n)) -> kind_of s = KSol.
  Proof.
    destruct n as [k r|k q|k i items|k i o|k i b f|k i c]; cbn [solutions]; intro I.
    - apply in_gmap in I as [r' [_ ->]]. reflexivity.
    - apply in_gmap in I as [r' [_ ->]]. reflexivity.
    - unfold count_solutions in I. destruct (waived cx (n_path i)); [destruct I as [<-|[]]; reflexivity|]. destruct (potential_children _ _); [|destruct I]. apply run_of in I as [l [-> _]]. reflexivity.
    - destruct (waived cx (e_path i)); [destruct I as [<-|[]]; reflexivity|]. destruct o; [apply in_gmap in I as [r' [_ ->]]; reflexivity|destruct I as [<-|[]]; reflexivity].
    - destruct (e_result (d_cond i)) as [[|]|]; [|destruct f; [|destruct I]|destruct I]; apply in_gmap in I as [r' [_ ->]]; reflexivity.
    - unfold prof_solutions in I. destruct (waived cx (f_path i)); [destruct I as [<-|[]]; reflexivity|]. destruct c as [[k' r]|]; [destruct (gnext _); [|destruct I]|]; destruct I as [<-|[]]; reflexivity.
  Qed.
  Lemma audit_kind cx t n r t' : audit ord cx t n = Ok (r, t') -> kind_of r = KRes.
  Proof.
    destruct n as [k r0|k q|k i items|k i o|k i b f|k i c]; cbn [audit]; intro H;
    repeat (match type of H with bind ?m _ = _ => destruct m as [[? ?]|] eqn:?; cbn [bind] in H | bind ?m _ = _ => destruct m eqn:?; cbn [bind] in H | context [if ?b then _ else _] => destruct b | context [match ?b with _ => _ end] => destruct b end; try discriminate H); injection H as <- <-; reflexivity.
  Qed.

  (** *** The search *)
  Lemma best_loop_eq cx e0 l : (forall s, In s l -> kind_of s = KSol /\ lcov s) -> forall best inner, best_loop ord (swap d cx) best inner l e0 = best_loop ord (swap d' cx) best inner l e0.
  Proof.
    induction l as [|s l IH]; intros H best inner; [reflexivity|]. cbn [best_loop]. destruct (H s (in_eq _ _)) as [K L]. rewrite (audit_eq cx s [] K L).
    destruct (audit ord (swap d' cx) [] s) as [[r t]|]; cbn [bind]; [|reflexivity]. destruct (rank_of r) as [[q m]|]; cbn [bind]; [|reflexivity].
    destruct (inS _ _); [reflexivity|]. apply IH. intros x I. apply H. right. exact I.
  Qed.
  Lemma find_best_eq cx t n m : pcov n -> rcov n -> find_best_solution ord (swap d cx) t n m = find_best_solution ord (swap d' cx) t n m.
  Proof.
    intros P R. unfold find_best_solution. rewrite (solutions_eq cx n P). rewrite best_loop_eq; [reflexivity|].
    intros s I. split; [eapply solution_kind; exact I|]. eapply lcov_of; [exact R|]. eapply solutions_within; exact I.
  Qed.
  Lemma solve_independent_eq cx l : (forall n, In n l -> pcov n /\ rcov n) -> forall t, solve_independent ord (swap d cx) t l = solve_independent ord (swap d' cx) t l.
  Proof.
    induction l as [|n l IH]; intros H t; [reflexivity|]. cbn [solve_independent]. destruct (H n (in_eq _ _)) as [P R]. rewrite (find_best_eq cx t n true P R).
    destruct (find_best_solution _ _ _ _ _) as [[r t1]|]; cbn [bind]; [|reflexivity]. rewrite IH by (intros x I; apply H; right; exact I). reflexivity.
  Qed.
  Lemma best_loop_kind cx e0 l : forall best inner r i, (forall b q, best = Some (b, q) -> kind_of b = KRes) -> best_loop ord cx best inner l e0 = Ok (Some r, i) -> kind_of r = KRes.
  Proof.
    induction l as [|s l IH]; intros best inner r i B H; cbn [best_loop] in H.
    - destruct e0; [discriminate H|]. destruct best as [[b q]|]; [|discriminate H]. injection H as <- _. eapply B. reflexivity.
    - destruct (audit ord cx [] s) as [[x t]|] eqn:A; cbn [bind] in H; [|discriminate H]. destruct (rank_of x) as [[q m]|]; cbn [bind] in H; [|discriminate H].
      apply audit_kind in A. destruct (inS _ _); [injection H as <- _; exact A|]. eapply IH; [|exact H]. intros b q' E.
      destruct best as [[b0 q0]|]; [destruct (Qle_bool q q0)|]; injection E as <- _; try exact A. eapply B. reflexivity.
  Qed.
  Lemma solved_kinds cx l : forall t out t', solve_independent ord cx t l = Ok (out, t') -> forall r, In r (solved_results out) -> kind_of r = KRes.
  Proof.
    induction l as [|n l IH]; intros t out t' H r I; cbn [solve_independent] in H; [injection H as <- _; destruct I|].
    destruct (find_best_solution ord cx t n true) as [[b t1]|] eqn:F; cbn [bind] in H; [|discriminate H]. destruct (solve_independent ord cx t1 l) as [[rs t2]|] eqn:E; cbn [bind] in H; [|discriminate H].
    injection H as <- _. unfold solved_results in I. cbn [flat_map snd] in I. apply in_app_or in I as [I|I]; [|eapply IH; eauto].
    destruct b as [b|]; [|destruct I]. destruct I as [<-|[]]. unfold find_best_solution in F. destruct (best_loop _ _ _ _ _ _) as [[best inner]|] eqn:BL; cbn [bind] in F; [|discriminate F].
    destruct inner; [|discriminate F]. injection F as -> _. eapply best_loop_kind; [|exact BL]. intros ? ? X. discriminate X.
  Qed.
  Lemma classify_in ms dis non n : classify ms = (dis, non) -> In n dis -> In n (map fst ms).
  Proof.
    assert (ADD : forall (P : node -> Prop) x l, P x -> (forall y, In y l -> P y) -> forall y, In y (add_node x l) -> P y).
    { intros P x l X L y. unfold add_node. destruct (in_nodes x l); [apply L|]. rewrite in_app_iff. intros [I|[<-|[]]]; auto. }
    assert (FOLD : forall (P : node -> Prop) ps acc, (forall p, In p ps -> P (fst (fst p)) /\ P (fst (snd p))) -> (forall y, In y (fst acc) -> P y) -> forall y, In y (fst (fold_left compare_pair ps acc)) -> P y).
    { intros P ps. induction ps as [|p ps IH]; intros acc PP A y; cbn [fold_left]; [apply A|]. apply IH; [intros q I; apply PP; right; exact I|].
      destruct (PP p (in_eq _ _)) as [X Y]. destruct acc as [dd nn], p as [[a am] [b bm]]. cbn [fst snd] in *. unfold compare_pair.
      destruct (always_disjoint a && always_disjoint b)%bool; [cbn [fst]; apply ADD; [exact Y|apply ADD; assumption]|]. destruct (negb _); cbn [fst]; [apply ADD; [exact Y|apply ADD; assumption]|exact A]. }
    assert (PAIRS : forall l p, In p (pairs l) -> In (fst p) l /\ In (snd p) (l : list (node * list item))).
    { induction l as [|x l IH]; intros p I; cbn [pairs] in I; [destruct I|]. apply in_app_or in I as [I|I].
      - apply in_map_iff in I as [y [<- I]]. split; [apply in_eq|right; exact I].
      - destruct (IH p I). split; right; assumption. }
    intro C. unfold classify in C. destruct ms as [|[m mm] [|m2 ms]].
    - cbn in C. injection C as <- <-. intros [].
    - injection C as <- <-. intros [<-|[]]. apply in_eq.
    - revert C. set (l := (m, mm) :: m2 :: ms). intro C. destruct (fold_left compare_pair (pairs l) ([], filter never_disjoint (map fst l))) as [dd nn] eqn:E. injection C as <- <-.
      intro I. apply filter_In in I as [I _]. change dd with (fst (dd, nn)) in I. rewrite <- E in I. revert I. apply (FOLD (fun y => In y (map fst l))); [|intros y []].
      intros p J. destruct (PAIRS l p J) as [X Y]. split; apply in_map; assumption.
  Qed.
  Hypothesis NORD : forall l, Permutation (nord l) l.
  Definition tcov (n : node) : Prop := (forall p, names_part n p -> S1 p) /\ forall p, asked_beneath n p -> S2 p.
  Lemma matched_fst cx l : forall ms, mapr (fun n => let! m := matches_of cx n in Ok (n, m)) l = Ok ms -> map fst ms = l.
  Proof.
    induction l as [|x l IH]; intros ms H; cbn [mapr] in H; [injection H as <-; reflexivity|]. destruct (matches_of cx x); cbn [bind] in H; [|discriminate H].
    destruct (mapr _ l) as [ys|] eqn:M; cbn [bind] in H; [|discriminate H]. injection H as <-. cbn [map fst]. rewrite (IH ys eq_refl). reflexivity.
  Qed.
  Lemma top_count_eq cx t k i items : tcov (NCount k i items) -> rcov (NCount k i items) ->
    top_count_solutions ord nord (swap d cx) t i items = top_count_solutions ord nord (swap d' cx) t i items.
  Proof.
    intros [T1 T2] R. assert (CI : forall x, In x items -> pcov x).
    { intros x I p [y [Y J]]. split; [apply T1; exists y; split; [eapply pt_count; eauto|exact J]|apply T2; eapply ab_count; [exact I|exists y; auto]]. }
    assert (RI : forall x, In x items -> rcov x) by (intros x I y a Y J; apply (R y a); [eapply pt_count; eauto|exact J]).
    unfold top_count_solutions. rewrite waived_eq by (apply T1; exists (NCount k i items); split; [apply pt_self|apply in_eq]).
    destruct (waived _ _); [reflexivity|].
    rewrite (map_ext_in _ (fun c => (c, solutions ord (swap d' cx) c)) items) by (intros x I; rewrite (solutions_eq cx x (CI x I)); reflexivity).
    rewrite potential_children_eq by (intros c I; apply in_map_iff in I as [x [<- I]]; apply CI, I).
    destruct (potential_children _ _) as [pot|] eqn:P; [|reflexivity]. destruct pot as [|p0 pot']; [reflexivity|]. destruct (n_audits i); [|reflexivity].
    set (pot := p0 :: pot') in *.
    assert (PI : forall x, In x (nord (map fst pot)) -> In x items).
    { intros x I. apply (Permutation_in _ (NORD _)) in I. apply in_map_iff in I as [c [<- C]]. eapply pot_items; eauto. }
    rewrite (mapr_eq (fun n => let! m := matches_of (swap d cx) n in Ok (n, m)) (fun n => let! m := matches_of (swap d' cx) n in Ok (n, m))) by (intros x I; rewrite (matches_eq cx x (CI x (PI x I))); reflexivity).
    destruct (mapr _ _) as [ms|] eqn:M; cbn [bind]; [|reflexivity]. destruct (classify ms) as [dis non] eqn:C.
    rewrite solve_independent_eq; [reflexivity|]. intros n I. apply (Permutation_in _ (NORD _)) in I. apply (classify_in _ _ _ _ C) in I. rewrite (matched_fst _ _ _ M) in I.
    split; [apply CI|apply RI]; apply PI, I.
  Qed.
  Lemma top_eq cx n : forall t, tcov n -> rcov n -> top_solutions ord nord (swap d cx) t n = top_solutions ord nord (swap d' cx) t n.
  Proof.
    assert (LEAF : forall n, tcov n -> match n with NCount _ _ _ | NCond _ _ _ _ => False | _ => True end -> solutions ord (swap d cx) n = solutions ord (swap d' cx) n).
    { intros n0 [T1 T2] L. apply solutions_eq. intros p N. split; [apply T1, N|apply T2, ab_other; assumption]. }
    induction n as [k r|k q|k i items IH|k i o IH|k i b f IHt IHf|k i c] using node_induction; intros t T R; cbn [top_solutions]; try (rewrite LEAF by (try exact T; exact Logic.I); reflexivity).
    - eapply top_count_eq; eauto.
    - destruct T as [T1 T2]. destruct (e_result (d_cond i)) as [[|]|]; [|destruct f as [x|]; [|reflexivity]|reflexivity].
      + rewrite IHt; [reflexivity| |]; [split; [intros p [y [Y I]]; apply T1; exists y; split; [apply pt_true, Y|exact I]|intros p A; apply T2, ab_true, A]|intros y a Y I; apply (R y a); [apply pt_true, Y|exact I]].
      + rewrite (IHf x eq_refl); [reflexivity| |]; [split; [intros p [y [Y I]]; apply T1; exists y; split; [apply pt_false, Y|exact I]|intros p A; apply T2, ab_false, A]|intros y a Y I; apply (R y a); [apply pt_false, Y|exact I]].
  Qed.
  Lemma top_good cx n : forall t s, In s (g_items (fst (top_solutions ord nord cx t n))) -> kind_of s = KSol /\ within n s.
  Proof.
    induction n as [k r|k q|k i items IH|k i o IH|k i b f IHt IHf|k i c] using node_induction; intros t s I; cbn [top_solutions] in I;
      try (cbn [fst] in I; split; [eapply solution_kind; exact I|eapply solutions_within; exact I]).
    - assert (RUN : forall its results others len, In s (g_items (count_run i len its results others)) ->
        (forall c, In c its -> In (fst c) items /\ forall s, In s (g_items (snd c)) -> within (fst c) s) -> (forall r, In r results -> kind_of r = KRes) -> (forall x, In x others -> In x items) -> kind_of s = KSol /\ within (NCount k i items) s).
      { intros its results others len J A1 A2 A3. apply run_of in J. split; [destruct J as [l [-> _]]; reflexivity|]. eapply within_count; [destruct k; simpl; auto|exact A1|exact A2|exact A3|exact J]. }
      unfold top_count_solutions in I. destruct (waived cx (n_path i)).
      + destruct I as [<-|[]]. split; [reflexivity|]. intros y a L J. inversion L; subst; [exists (NCount k i items); split; [apply pt_self|exact J]|]. exists y. split; [eapply pt_count; [eassumption|apply live_part; assumption]|exact J].
      + destruct (potential_children _ _) as [pot|] eqn:P; [|destruct I].
        assert (PC : forall c, In c pot -> In (fst c) items /\ forall s, In s (g_items (snd c)) -> within (fst c) s).
        { intros c C. destruct (pot_items cx (solutions ord cx) items pot c P C) as [A1 A2]. split; [exact A1|]. rewrite A2. intros s' S'. eapply solutions_within; exact S'. }
        assert (CS : forall x, In x (children_set items) -> In x items) by (intros x X; unfold children_set in X; apply dedup_incl in X; exact X).
        assert (PLAIN : In s (g_items (count_run i (Z.of_nat (List.length items)) (sort_by_path child_path pot) [] (children_set items))) -> kind_of s = KSol /\ within (NCount k i items) s).
        { intro J. eapply RUN; [exact J| |intros r []|exact CS]. intros c C. unfold sort_by_path in C. rewrite in_isort in C. apply PC, C. }
        destruct pot as [|p0 pot']; [apply PLAIN, I|]. destruct (n_audits i); [|apply PLAIN, I]. set (pot := p0 :: pot') in *.
        destruct (mapr _ _) as [ms|] eqn:M; cbn [bind] in I; [|destruct I]. destruct (classify ms) as [dis non]. destruct (solve_independent _ _ _ _) as [[solved t']|] eqn:SI; cbn [bind fst] in I; [|destruct I].
        eapply RUN; [exact I| | |].
        * intros c C. unfold sort_by_path in C. rewrite in_isort in C. apply filter_In in C as [C _]. apply PC, C.
        * intros r C. unfold sort_by_path in C. rewrite in_isort in C. eapply solved_kinds; eauto.
        * intros x C. apply filter_In in C as [C _]. apply CS, C.
    - destruct (e_result (d_cond i)) as [[|]|]; [|destruct f as [x|]; [|destruct I]|destruct I].
      + destruct (top_solutions ord nord cx t b) as [g t'] eqn:E. cbn [fst] in I. apply in_gmap in I as [s' [I ->]]. destruct (IHt t s') as [_ W]; [rewrite E; exact I|]. split; [reflexivity|].
        intros y a L J. inversion L; subst; [destruct J| |]; [refine (within_part _ b s' _ W y a _ J); [apply pt_true, pt_self|assumption]|exists y; split; [apply pt_false, live_part; assumption|exact J]].
      + destruct (top_solutions ord nord cx t x) as [g t'] eqn:E. cbn [fst] in I. apply in_gmap in I as [s' [I ->]]. destruct (IHf x eq_refl t s') as [_ W]; [rewrite E; exact I|]. split; [reflexivity|].
        intros y a L J. inversion L; subst; [destruct J| |]; [exists y; split; [apply pt_true, live_part; assumption|exact J]|refine (within_part _ x s' _ W y a _ J); [apply pt_false, pt_self|assumption]].
  Qed.
End Frame.
