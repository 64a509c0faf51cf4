(** Property theorems about queries (C29, C41, and the query parts of C32, C40 and C43; C68 to
    C71). *)
From Coq Require Import List ZArith QArith Bool String Lia Lqa Permutation.
From Verif Require Import Prelude Dec Status Course Claims Exceptions Op Context CondExpr Predicate Limit Apply Assertion LimitLoad Query.
From Verif Require Import ListFacts TranscriptSpec AssertionSpec LimitSpec LimitProofs LimitProps ExceptionsProofs ApplyProofs AssertionProofs AssertionProps QuerySpec QueryProofs.
Import ListNotations.
Local Open Scope string_scope.
Local Open Scope list_scope.
Local Open Scope Q_scope.

(** ** C41 *)
(** The data of a course query: the courses of the transcript that are not excluded and
    pass the "where", and the courses inserted by exception at its path. *)
Theorem query_candidates_exact :
  forall cx l q data ins forced, cx_exc cx = group_exceptions l -> q_source q = QCourses ->
  q_filtered cx q = Ok (data, ins, forced) ->
  exists cs, data = map ICourse cs /\ (forall c, In c cs <-> candidate cx l q c) /\
    (forall k, In k ins <-> inserted_id l q k) /\ (forall k, In k forced <-> forced_id l q k).
Proof. exact filtered_spec. Qed.
Print Assumptions query_candidates_exact.

(** Every solution offers candidates only, and leaves the query as it is. *)
Theorem query_outputs_are_candidates :
  forall ord cx l q s, set_order ord -> coherent (q_limit q) -> cx_exc cx = group_exceptions l ->
  q_source q = QCourses -> q_overridden q = false -> In s (g_items (q_solutions ord cx q)) ->
  exists out, offers l q s out /\ forall c, In c out -> candidate cx l q c.
Proof.
  intros ord cx l q s SO CO EX S O I.
  destruct (q_filtered cx q) as [[[data ins] forced]|e] eqn:F; [|unfold q_solutions in I; rewrite O, F in I; destruct I].
  destruct (filtered_spec _ _ _ _ _ _ EX S F) as [cs [-> [C [IN FO]]]].
  apply (solutions_in _ _ _ _ _ _ _ S O F) in I. destruct I as [out [-> I]]. exists out. split; [apply offers_form; auto|].
  intros c J. apply C. destruct I as [I|[-> _]]; [|destruct J].
  apply selections_in in I. destruct I as [v [V H]]. apply (limited_sub _ _ _ _ _ SO CO V). destruct (q_attempt q); [|subst; exact J].
  destruct H as [combo [Hc ->]]. apply iterate_sound in Hc. eapply complete_with_sub; eauto.
Qed.
Print Assumptions query_outputs_are_candidates.

(** the forced courses of the context are stored under their own class id *)
Definition keyed (cx : ctx) : Prop := forall k c, dget (cx_forced cx) k = Some c -> c_clbid c = k.
Lemma found_id cx k c : keyed cx -> (find_by_clbid cx k = Some c \/ forced_by_clbid cx k = Ok c) -> c_clbid c = k.
Proof.
  intros K. unfold forced_by_clbid. assert (Z : forall c, find_by_clbid cx k = Some c -> c_clbid c = k).
  { intros c0 H. apply find_some in H. apply String.eqb_eq. tauto. }
  intros [H|H]; [auto|]. destruct (find_by_clbid cx k); [injection H as <-; auto|]. destruct (dget (cx_forced cx) k) eqn:D; [|discriminate]. injection H as <-. auto.
Qed.
(** No excluded course is offered, not even by an exception. *)
Theorem excluded_courses_are_not_offered :
  forall ord cx l q s out, set_order ord -> coherent (q_limit q) -> keyed cx -> cx_exc cx = group_exceptions l ->
  q_source q = QCourses -> q_overridden q = false -> In s (g_items (q_solutions ord cx q)) ->
  q_output s = map ICourse out -> forall c, In c out -> ~ In (c_clbid c) (q_excluded q).
Proof.
  intros ord cx l q s out SO CO K EX S O I E c Ic N.
  destruct (query_outputs_are_candidates ord cx l q s SO CO EX S O I) as [out' [[E' _] H]].
  assert (out' = out) as ->.
  { rewrite E in E'. clear -E'. revert out' E'. induction out as [|x t IH]; intros [|y t'] E'; try discriminate; auto. injection E' as -> E'. f_equal. auto. }
  destruct (H c Ic) as [[_ [H1 _]]|[x [k [f [_ [_ [_ [H1 H2]]]]]]]]; [auto|].
  apply H1. rewrite <- (found_id cx k c K); auto. tauto.
Qed.
Print Assumptions excluded_courses_are_not_offered.

(** C43 for queries. After a block exception at the path of the query, the course is not
    offered; a block exception elsewhere changes nothing. *)
Theorem blocked_course_not_offered_by_query :
  forall ord cx l q p k s out, set_order ord -> coherent (q_limit q) -> keyed cx -> cx_exc cx = group_exceptions l ->
  q_source q = QCourses -> q_overridden q = false -> p = q_path q ->
  In s (g_items (q_solutions ord cx (q_block q p k))) -> q_output s = map ICourse out -> ~ In k (map c_clbid out).
Proof.
  intros ord cx l q p k s out SO CO K EX S O -> I E J. apply in_map_iff in J. destruct J as [c [<- J]].
  unfold q_block in I. assert (PE : path_eqb (q_path q) (q_path q) = true) by (apply path_eqb_iff; reflexivity). rewrite PE in I.
  eapply (excluded_courses_are_not_offered ord cx l (q_exclude q [c_clbid c]) s out); eauto.
  cbn. apply in_or_app. simpl. auto.
Qed.
Print Assumptions blocked_course_not_offered_by_query.
Theorem block_elsewhere_leaves_query : forall q p k, p <> q_path q -> q_block q p k = q.
Proof. intros q p k N. unfold q_block. destruct (path_eqb (q_path q) p) eqn:E; [|reflexivity]. apply path_eqb_iff in E. congruence. Qed.
Print Assumptions block_elsewhere_leaves_query.

(** ** C29 *)
(** What is offered, exactly: per limited transcript, the selections that are tried, each
    completed with the inserted courses; the empty selection if there is none at all. *)
Theorem query_solutions_exact :
  forall ord cx l q cs ins forced s, cx_exc cx = group_exceptions l ->
  q_source q = QCourses -> q_overridden q = false -> q_attempt q = true ->
  (forall a, deciding counts q a -> numeric (as_op a) /\ exists e, (0 <= e)%Z /\ dval (as_expected a) == inject_Z e) ->
  q_filtered cx q = Ok (map ICourse cs, ins, forced) ->
  In s (g_items (q_solutions ord cx q)) ->
  exists out, offers l q s out /\
    ((exists v combo, In v (g_items (limited_transcripts ord (q_limit q) forced cs)) /\ tried q v combo /\ completed l q v combo out) \/
     (out = [] /\ (forall v combo, In v (g_items (limited_transcripts ord (q_limit q) forced cs)) -> ~ tried q v combo))).
Proof.
  intros ord cx l q cs ins forced s EX S O A W F I. destruct (filtered_spec _ _ _ _ _ _ EX S F) as [_ [_ [_ [IN FO]]]].
  apply (solutions_in _ _ _ _ _ _ _ S O F) in I. destruct I as [out [-> I]]. exists out. split; [apply offers_form; auto|].
  destruct I as [I|[-> E]].
  - left. apply selections_in in I. rewrite A in I. destruct I as [v [V [combo [C ->]]]]. exists v, combo. split; auto.
    split; [apply iterate_spec; auto|]. rewrite (completed_iff l q ins forced); auto.
  - right. split; auto. intros v combo V T. assert (H := selections_in_conv ord q cs ins forced v V). rewrite A in H.
    specialize (H W combo T). rewrite E in H. destruct H.
Qed.
Print Assumptions query_solutions_exact.
Theorem tried_selections_are_offered :
  forall ord cx l q cs ins forced v combo out, cx_exc cx = group_exceptions l ->
  q_source q = QCourses -> q_overridden q = false -> q_attempt q = true ->
  (forall a, deciding counts q a -> numeric (as_op a) /\ exists e, (0 <= e)%Z /\ dval (as_expected a) == inject_Z e) ->
  q_filtered cx q = Ok (map ICourse cs, ins, forced) ->
  In v (g_items (limited_transcripts ord (q_limit q) forced cs)) -> tried q v combo -> completed l q v combo out ->
  exists s, In s (g_items (q_solutions ord cx q)) /\ offers l q s out.
Proof.
  intros ord cx l q cs ins forced v combo out EX S O A W F V T C. destruct (filtered_spec _ _ _ _ _ _ EX S F) as [_ [_ [_ [IN FO]]]].
  rewrite (completed_iff l q ins forced) in C by auto. subst out.
  assert (H := selections_in_conv ord q cs ins forced v V). rewrite A in H. specialize (H W combo T).
  eexists. split; [apply (solutions_in _ _ _ _ _ _ _ S O F); eexists; split; [reflexivity|left; exact H]|]. apply offers_form; auto.
Qed.
Print Assumptions tried_selections_are_offered.

(** Hence: a selection whose size satisfies the deciding count is offered ... *)
Theorem sufficient_counts_are_offered :
  forall ord cx l q cs ins forced v combo out a e, cx_exc cx = group_exceptions l ->
  q_source q = QCourses -> q_overridden q = false -> q_attempt q = true ->
  q_filtered cx q = Ok (map ICourse cs, ins, forced) ->
  In v (g_items (limited_transcripts ord (q_limit q) forced cs)) ->
  deciding counts q a -> numeric (as_op a) -> as_at_most a = false -> (0 <= e)%Z -> dval (as_expected a) == inject_Z e ->
  subseq combo v -> size_meets (as_op a) (Z.of_nat (List.length combo)) e -> completed l q v combo out ->
  exists s, In s (g_items (q_solutions ord cx q)) /\ offers l q s out.
Proof.
  intros ord cx l q cs ins forced v combo out a e EX S O A F V D N AM He E SS M C.
  eapply tried_selections_are_offered; eauto.
  - intros a' D'. rewrite (deciding_unique _ _ _ _ D' D). split; auto. exists e. auto.
  - left. exists a, e. split; [exact D|]. split; [exact E|]. split; [exact SS|]. assert (G := subseq_length _ _ SS). unfold size_tried, size_meets, meets in *.
    destruct (as_op a); try (destruct N; congruence); try (split; [lia|exact M]).
    + right. split; [lia|exact M]. + right. split; auto. right. split; [lia|exact M]. + rewrite inject_Z_injective in M. lia.
Qed.
Print Assumptions sufficient_counts_are_offered.
(** ... a selection with enough credits is, when no assertion counts ... *)
Theorem sufficient_credits_are_offered :
  forall ord cx l q cs ins forced v combo out a, cx_exc cx = group_exceptions l ->
  q_source q = QCourses -> q_overridden q = false -> q_attempt q = true ->
  q_filtered cx q = Ok (map ICourse cs, ins, forced) ->
  In v (g_items (limited_transcripts ord (q_limit q) forced cs)) -> (forall c, In c v -> 0 <= dval (c_credits c)) ->
  none_of counts q -> deciding sums q a -> subseq combo v -> combo <> [] -> dval (as_expected a) <= credits_of combo ->
  completed l q v combo out ->
  exists s, In s (g_items (q_solutions ord cx q)) /\ offers l q s out.
Proof.
  intros ord cx l q cs ins forced v combo out a EX S O A F V POS NC D SS NE M C.
  eapply tried_selections_are_offered; eauto.
  - intros a' D'. apply deciding_asserted in D'. destruct (NC a' (proj1 D') (proj2 D')).
  - right. left. split; auto. exists a. split; auto. right. repeat split; auto.
    eapply Qle_trans; [exact M|]. clear -SS POS. unfold credits_of.
    assert (H : forall s w : list course, subseq s w -> (forall c, In c w -> 0 <= dval (c_credits c)) -> Qsum (map credits s) <= Qsum (map credits w)); [|apply H; auto].
    assert (P : forall w : list course, (forall c, In c w -> 0 <= dval (c_credits c)) -> 0 <= Qsum (map credits w)).
    { induction w as [|x t IH]; intro H; cbn [map Qsum fold_right]; [apply Qle_refl|].
      assert (0 <= Qsum (map credits t)) by (apply IH; intros; apply H; simpl; auto). assert (0 <= dval (c_credits x)) by (apply H; simpl; auto).
      unfold credits, Qsum in *. lra. }
    induction 1 as [|x s w H IH|x s w H IH]; intro POS'; cbn [map Qsum fold_right].
    + apply Qle_refl.
    + assert (Qsum (map credits s) <= Qsum (map credits w)) by (apply IH; intros; apply POS'; simpl; auto). unfold Qsum in *. lra.
    + assert (Qsum (map credits s) <= Qsum (map credits w)) by (apply IH; intros; apply POS'; simpl; auto).
      assert (0 <= dval (c_credits x)) by (apply POS'; simpl; auto). unfold credits, Qsum in *. lra.
Qed.
Print Assumptions sufficient_credits_are_offered.
(** ... and every non-empty selection is, when no assertion counts courses or sums credits. *)
Theorem all_selections_are_offered :
  forall ord cx l q cs ins forced v combo out, cx_exc cx = group_exceptions l ->
  q_source q = QCourses -> q_overridden q = false -> q_attempt q = true ->
  q_filtered cx q = Ok (map ICourse cs, ins, forced) ->
  In v (g_items (limited_transcripts ord (q_limit q) forced cs)) ->
  none_of counts q -> none_of sums q -> subseq combo v -> combo <> [] -> completed l q v combo out ->
  exists s, In s (g_items (q_solutions ord cx q)) /\ offers l q s out.
Proof.
  intros ord cx l q cs ins forced v combo out EX S O A F V NC NS SS NE C.
  eapply tried_selections_are_offered; eauto.
  - intros a' D'. apply deciding_asserted in D'. destruct (NC a' (proj1 D') (proj2 D')).
  - right. right. auto.
Qed.
Print Assumptions all_selections_are_offered.
(** A query that claims nothing offers each limited transcript as a whole. *)
Theorem unclaiming_query_offers_everything :
  forall ord cx l q cs ins forced, cx_exc cx = group_exceptions l ->
  q_source q = QCourses -> q_overridden q = false -> q_attempt q = false ->
  q_filtered cx q = Ok (map ICourse cs, ins, forced) ->
  (forall v, In v (g_items (limited_transcripts ord (q_limit q) forced cs)) ->
     exists s, In s (g_items (q_solutions ord cx q)) /\ offers l q s v) /\
  (forall s, In s (g_items (q_solutions ord cx q)) -> exists v, offers l q s v /\
     (In v (g_items (limited_transcripts ord (q_limit q) forced cs)) \/
      v = [] /\ g_items (limited_transcripts ord (q_limit q) forced cs) = [])).
Proof.
  intros ord cx l q cs ins forced EX S O A F. destruct (filtered_spec _ _ _ _ _ _ EX S F) as [_ [_ [_ [IN FO]]]].
  assert (C := fun v V => selections_in_conv ord q cs ins forced v V). rewrite A in C. split.
  - intros v V. eexists. split; [apply (solutions_in _ _ _ _ _ _ _ S O F); eexists; split; [reflexivity|left; exact (C v V I)]|]. apply offers_form; auto.
  - intros s J. apply (solutions_in _ _ _ _ _ _ _ S O F) in J. destruct J as [out [-> J]]. exists out. split; [apply offers_form; auto|].
    destruct J as [J|[-> E]]; [left; apply selections_in in J; rewrite A in J; destruct J as [v [V ->]]; exact V|right; split; auto].
    destruct (g_items (limited_transcripts ord (q_limit q) forced cs)) as [|v t] eqn:L; auto. exfalso. assert (H := C v (or_introl eq_refl) I). rewrite E in H. destruct H.
Qed.
Print Assumptions unclaiming_query_offers_everything.

(** *** What is not true *)
Definition q_of (asserts : list any_assertion) : query :=
  mkQuery ["$"; ".query"] false QCourses DtCourse asserts [] None false true true false [] [] [] [] [] [].
Definition three := [a_course "1" "A" "20001" 1 false false false; a_course "2" "B" "20001" 1 false false false; a_course "3" "C" "20003" 4 false false false].
Definition three_ctx := mkCtx three three three [] [] (group_exceptions []) [] [] [] no_proficiencies.
Definition ident (l : list course) := l.

(** With several assertions the enumeration can miss every selection that satisfies them
    all: "six credits" and "at most two terms" is decided by the terms, which are counted as
    courses. Here all three courses lie in two terms and have six credits, but only
    selections of at most two courses are tried. *)
Definition six_in_two := q_of [APlain (plain KSumCredits OGte 6 false); APlain (plain KTerms OLte 2 false)].
Theorem satisfying_selection_is_offered_refuted :
  (exists r, q_audit three_ctx [] (q_solution six_in_two (map ICourse three) [] []) = Ok r /\ q_status (fst r) = Done) /\
  (forall s, In s (g_items (q_solutions ident three_ctx six_in_two)) ->
     exists r, q_audit three_ctx [] s = Ok r /\ ~ In (q_status (fst r)) passing_statuses).
Proof.
  split.
  - eexists. split; vm_compute; reflexivity.
  - assert (H : forallb (fun s => match q_audit three_ctx [] s with
        | Ok r => negb (inS (q_status (fst r)) passing_statuses) | Err _ => false end) (g_items (q_solutions ident three_ctx six_in_two)) = true) by (vm_compute; reflexivity).
    intros s I. rewrite forallb_forall in H. specialize (H s I). destruct (q_audit three_ctx [] s) as [r|]; [|discriminate].
    exists r. split; auto. apply inS_no. destruct (inS _ _); [discriminate|reflexivity].
Qed.
Print Assumptions satisfying_selection_is_offered_refuted.

(** An inserted course is lost when no size is tried: "more than one course" over the one
    inserted course tries only selections of two. *)
Definition forced_insert := [mkExc ["$"; ".query"] (AInsert "1" true)].
Definition forced_ctx := mkCtx [List.hd (mk_simple "" "" "") three] [] [] [] [] (group_exceptions forced_insert) [] [] [] no_proficiencies.
Definition no_subject (asserts : list any_assertion) : query :=
  mkQuery ["$"; ".query"] false QCourses DtCourse asserts [] (Some (of_subject "NONE")) false true true false [] [] [] [] [] [].
Theorem inserted_course_is_offered_refuted :
  exists l q cx c, cx_exc cx = group_exceptions l /\ q_source q = QCourses /\ inserted_into cx l q c /\ forced_id l q (c_clbid c) /\
    forall s, In s (g_items (q_solutions ident cx q)) -> q_output s = [].
Proof.
  exists forced_insert, (no_subject [APlain (plain KCourses OGt 1 false)]), forced_ctx, (List.hd (mk_simple "" "" "") three).
  split; [reflexivity|]. split; [reflexivity|]. split.
  - exists (mkExc ["$"; ".query"] (AInsert "1" true)), "1", true. repeat split; simpl; auto.
  - split.
    + exists (mkExc ["$"; ".query"] (AInsert "1" true)). repeat split; simpl; auto.
    + intros s I. vm_compute in I. destruct I as [<-|[]]. reflexivity.
Qed.
Print Assumptions inserted_course_is_offered_refuted.
(** Otherwise every inserted course that the limits let through is offered. *)
Theorem inserted_courses_are_offered_partial :
  forall ord cx l q cs ins forced s, cx_exc cx = group_exceptions l -> q_source q = QCourses -> q_overridden q = false ->
  q_filtered cx q = Ok (map ICourse cs, ins, forced) -> In s (g_items (q_solutions ord cx q)) ->
  q_output s = [] \/
  exists v out, In v (g_items (limited_transcripts ord (q_limit q) forced cs)) /\ q_output s = map ICourse out /\
    forall c, In c v -> inserted_id l q (c_clbid c) -> In (c_clbid c) (map c_clbid out).
Proof.
  intros ord cx l q cs ins forced s EX S O F I. destruct (filtered_spec _ _ _ _ _ _ EX S F) as [_ [_ [_ [IN FO]]]].
  apply (solutions_in _ _ _ _ _ _ _ S O F) in I. destruct I as [out [-> I]]. destruct I as [I|[-> _]]; [right|left; reflexivity].
  apply selections_in in I. destruct I as [v [V H]]. exists v, out. split; auto. split; [reflexivity|]. intros c Ic J.
  destruct (q_attempt q); [|subst; apply in_map; exact Ic]. destruct H as [combo [_ ->]]. apply complete_with_inserted; auto. apply IN. exact J.
Qed.
Print Assumptions inserted_courses_are_offered_partial.
(** Force-inserted courses pass the limits. *)
Theorem forced_courses_pass_limits :
  forall ord ls forced cs v c, set_order ord -> coherent ls -> In v (g_items (limited_transcripts ord ls forced cs)) ->
  In c cs -> In (c_clbid c) forced -> In c v.
Proof.
  intros ord ls forced cs v c SO CO V Ic J. destruct ls as [|l0 ls]; [destruct V as [<-|[]]; auto|].
  destruct (limits_only_remove_limited_courses ord (l0 :: ls) forced cs v SO CO ltac:(discriminate) V) as [_ [_ [_ [H _]]]]. apply H; auto.
Qed.
Print Assumptions forced_courses_pass_limits.

(** ** C40 for queries *)
Theorem query_always_yields : forall ord cx q, g_exn (q_solutions ord cx q) = None -> g_items (q_solutions ord cx q) <> [].
Proof.
  intros ord cx q H. unfold q_solutions in *. destruct (q_overridden q); [discriminate|].
  destruct (q_filtered cx q) as [[[data ins] forced]|]; [|discriminate]. destruct (q_source q); try discriminate.
  destruct (mapr as_course data); [|discriminate]. destruct (gflat _ _) as [[|x t] [e|]]; cbn in *; discriminate.
Qed.
Print Assumptions query_always_yields.

(** ** C68 *)
Theorem estimate_bounds_solutions :
  forall ord cx q n, q_source q = QCourses -> q_overridden q = false -> get_waive (cx_exc cx) (q_path q) = None ->
  q_estimate ord cx q = Ok n -> (Z.of_nat (List.length (g_items (q_solutions ord cx q))) <= n)%Z.
Proof. intros. eapply estimate_bounds; eauto. Qed.
Print Assumptions estimate_bounds_solutions.
(** It is exact when no assertion sums credits and the deciding count is a "$gte" or an
    "$eq". *)
Theorem estimate_is_exact :
  forall ord cx q n, q_source q = QCourses -> q_overridden q = false -> q_attempt q = true -> get_waive (cx_exc cx) (q_path q) = None ->
  none_of sums q ->
  (forall a, deciding counts q a -> (as_op a = OGte \/ as_op a = OEq) /\ exists e, (0 <= e)%Z /\ dval (as_expected a) == inject_Z e) ->
  q_estimate ord cx q = Ok n -> Z.of_nat (List.length (g_items (q_solutions ord cx q))) = n.
Proof.
  intros ord cx q n S O A W NS D H. destruct (q_filtered cx q) as [r|e] eqn:F; [|unfold q_estimate in H; rewrite W, F in H; discriminate].
  destruct (filtered_courses _ _ _ S F) as [cs [ins [forced ->]]]. eapply estimate_exact; eauto.
  intros v _. split; auto. intros a Da k I. destruct (D a Da) as [OP [e [He E]]].
  assert (N : numeric (as_op a)) by (split; destruct OP as [->| ->]; discriminate).
  destruct (sizes_fit_for_gte_and_eq a e (Z.of_nat (List.length v)) E OP ltac:(lia)) as [_ U]. split; [|apply U; exact I].
  exact (sizes_nonneg a e (Z.of_nat (List.length v)) k E N He ltac:(lia) I).
Qed.
Print Assumptions estimate_is_exact.
(** In general it is not: the sizes that do not exist count one each, sums are estimated as
    if every selection had enough credits. *)
Theorem estimate_is_exact_refuted :
  q_estimate ident three_ctx (q_of [APlain (plain KCourses OLte 9 false)]) = Ok 14%Z /\
  List.length (g_items (q_solutions ident three_ctx (q_of [APlain (plain KCourses OLte 9 false)]))) = 8%nat /\
  q_estimate ident three_ctx (q_of [APlain (plain KSumCredits OGte 6 false)]) = Ok 7%Z /\
  List.length (g_items (q_solutions ident three_ctx (q_of [APlain (plain KSumCredits OGte 6 false)]))) = 1%nat.
Proof. vm_compute. repeat split. Qed.
Print Assumptions estimate_is_exact_refuted.

(** ** C69 *)
(** An audit of a claiming query attempts one claim per offered course, in order, at the
    path of the query; it reports the granted ones and the denied ones separately, and the
    assertions see only the courses that were granted. *)
Theorem claiming_query_audit :
  forall cx t q r t' cs, q_source q = QCourses -> q_attempt q = true -> q_overridden q = false -> q_output q = map ICourse cs ->
  q_audit cx t q = Ok (r, t') ->
  exists outs granted,
    run_claims (cx_multi cx) t (map (fun c => mkAttempt c (q_path q) (q_allow q || instr (c_clbid c) (q_forced q))) cs) = Ok (outs, t') /\
    q_claims r = filter (fun cl => negb (cl_failed cl)) outs /\ q_failures r = filter cl_failed outs /\
    granted = map cl_course (q_claims r) /\
    (mapr (audit_any cx (map ICourse granted)) (q_asserts q) = Ok (q_asserts r) \/
     (granted = [] /\ q_asserts r = q_asserts q /\
      (exists a, In a (q_asserts q) /\ any_is_lt a = true) /\ (exists a, In a (q_asserts q) /\ any_is_lt a = false))) /\
    q_path r = q_path q /\ q_overridden r = false /\ q_output r = q_output q.
Proof.
  intros cx t q r t' cs S A O E H. unfold q_audit in H. rewrite O, S, E, as_courses_map in H. cbn [bind] in H.
  unfold collect_courses in H. rewrite A in H.
  destruct (claim_each (cx_multi cx) t q cs) as [[[[items ok] bad] t1]|] eqn:CE; cbn [bind] in H; [|discriminate].
  destruct (claim_each_runs _ _ _ _ _ _ _ _ CE) as [outs [R [-> [-> ->]]]]. cbn [qsource_eqb andb] in H.
  set (granted := map cl_course (filter (fun cl => negb (cl_failed cl)) outs)) in *.
  destruct (match map ICourse granted with [] => true | _ :: _ => false end && (existsb any_is_lt (q_asserts q) && negb (forallb any_is_lt (q_asserts q)))) eqn:SK.
  - cbn [bind] in H. injection H as <- <-. exists outs, granted. unfold q_result. cbn [q_claims q_failures q_asserts q_path q_overridden q_output].
    repeat split; auto. right. apply andb_true_iff in SK. destruct SK as [G SK]. apply andb_true_iff in SK. destruct SK as [S1 S2].
    split; [destruct granted; [reflexivity|discriminate]|]. split; auto. split.
    + apply existsb_exists in S1. exact S1.
    + apply negb_true_iff in S2. clear -S2. induction (q_asserts q) as [|a l IH]; [discriminate|]. cbn [forallb] in S2.
      destruct (any_is_lt a) eqn:X; [|exists a; simpl; auto]. cbn [andb] in S2. destruct (IH S2) as [y [I Y]]. exists y. simpl. auto.
  - destruct (mapr (audit_any cx (map ICourse granted)) (q_asserts q)) as [asserts|] eqn:M; cbn [bind] in H; [|discriminate].
    injection H as <- <-. exists outs, granted. unfold q_result. cbn [q_claims q_failures q_asserts q_path q_overridden q_output].
    repeat split; auto.
Qed.
Print Assumptions claiming_query_audit.
(** A query that does not claim leaves the table alone and shows every course to the
    assertions; it reports the courses as claims only if asked to record them. *)
Theorem unclaiming_query_audit :
  forall cx t q r t' cs, q_source q = QCourses -> q_attempt q = false -> q_overridden q = false -> q_output q = map ICourse cs ->
  q_audit cx t q = Ok (r, t') ->
  t' = t /\ q_failures r = [] /\
  q_claims r = (if q_record q then map (fun c => mkClaim c (q_path q) false) cs else []) /\
  (mapr (audit_any cx (map ICourse cs)) (q_asserts q) = Ok (q_asserts r) \/
   (cs = [] /\ q_asserts r = q_asserts q /\ exists a, In a (q_asserts q) /\ any_is_lt a = true)).
Proof.
  intros cx t q r t' cs S A O E H. unfold q_audit in H. rewrite O, S, E, as_courses_map in H. cbn [bind] in H.
  assert (CC : collect_courses (cx_multi cx) t q cs = Ok (cs, if q_record q then map (fun c => mkClaim c (q_path q) false) cs else [], [], t)).
  { unfold collect_courses. rewrite A. destruct (q_record q); [rewrite claim_all_runs|]; reflexivity. }
  rewrite CC in H. cbn [bind qsource_eqb andb] in H.
  destruct (match map ICourse cs with [] => true | _ :: _ => false end && (existsb any_is_lt (q_asserts q) && negb (forallb any_is_lt (q_asserts q)))) eqn:SK.
  - cbn [bind] in H. injection H as <- <-. unfold q_result. cbn [q_claims q_failures q_asserts]. repeat split; auto. right.
    apply andb_true_iff in SK. destruct SK as [G SK]. apply andb_true_iff in SK. destruct SK as [S1 _]. apply existsb_exists in S1.
    split; auto. destruct cs; [reflexivity|discriminate].
  - destruct (mapr (audit_any cx (map ICourse cs)) (q_asserts q)) as [asserts|] eqn:M; cbn [bind] in H; [|discriminate].
    injection H as <- <-. unfold q_result. cbn [q_claims q_failures q_asserts]. repeat split; auto.
Qed.
Print Assumptions unclaiming_query_audit.
(** A "claimed" query measures the courses claimed so far (that pass its filter) and claims
    nothing itself. *)
Theorem claimed_query_audit :
  forall cx t q r t', q_source q = QClaimed -> q_overridden q = false -> q_audit cx t q = Ok (r, t') ->
  t' = t /\ q_failures r = [] /\
  exists items inserted, mapr (audit_any cx (map ICourse (items ++ inserted))) (q_asserts q) = Ok (q_asserts r) /\
    (forall c, In c items <-> (exists k cls, In (k, cls) t /\ find_by_clbid cx k = Some c) /\
                              passes_where (q_where q) (ICourse c) /\ ~ In (c_clbid c) (q_excluded q)) /\
    Forall2 (fun k c => forced_by_clbid cx k = Ok c) (q_inserted q) inserted /\
    q_claims r = (if q_record q then map (fun c => mkClaim c (q_path q) false) (items ++ inserted) else []).
Proof.
  intros cx t q r t' S O H. unfold q_audit in H. rewrite O, S in H. unfold collect_claimed in H.
  destruct (all_claimed cx t) as [all|] eqn:AC; cbn [bind] in H; [|discriminate].
  destruct (match q_where q with Some _ => _ | None => _ end) as [wh|] eqn:W in H; cbn [bind] in H; [|discriminate].
  set (items := filter (fun c => negb (instr (c_clbid c) (q_excluded q))) wh) in *.
  destruct (mapr (forced_by_clbid cx) (q_inserted q)) as [more|] eqn:MO; cbn [bind] in H; [|discriminate].
  rewrite claim_all_runs in H. cbn [bind qsource_eqb andb] in H.
  destruct (mapr (audit_any cx (map ICourse (items ++ more))) (q_asserts q)) as [asserts|] eqn:M; cbn [bind] in H; [|discriminate].
  injection H as <- <-. unfold q_result. cbn [q_claims q_failures q_asserts]. split; auto. split; auto. exists items, more. split; auto.
  split; [|split; [|reflexivity]].
  - assert (ALL : forall c, In c all <-> exists k cls, In (k, cls) t /\ find_by_clbid cx k = Some c).
    { unfold all_claimed in AC. apply PredicateProofs.mapr_ok in AC. intro c. split.
      - intro I. destruct (PredicateProofs.F2_in_r _ _ _ _ AC I) as [[k cls] [J E]]. exists k, cls. split; auto. cbn in E. destruct (find_by_clbid cx k); [|discriminate]. injection E as ->. reflexivity.
      - intros [k [cls [J E]]]. destruct (PredicateProofs.F2_in_l _ _ _ _ AC J) as [c' [I E']]. cbn in E'. rewrite E in E'. injection E' as <-. exact I. }
    intro c. unfold items. rewrite filter_In, negb_true_iff, instr_no, <- ALL. unfold passes_where. destruct (q_where q) as [w|].
    + apply filter_res_items in W. destruct W as [-> T]. rewrite filter_In. destruct (apply_pred (ICourse c) w) as [b|]; [|intuition discriminate].
      split; [intros [[? ->] ?]; auto|]. intros [? [E ?]]. injection E as ->. auto.
    + injection W as ->. tauto.
  - apply PredicateProofs.mapr_ok in MO. exact MO.
Qed.
Print Assumptions claimed_query_audit.
(** Areas, performances and recitals are not claimed. *)
Theorem other_query_audit :
  forall cx t q r t', q_source q <> QCourses -> q_source q <> QClaimed -> q_overridden q = false -> q_audit cx t q = Ok (r, t') ->
  t' = t /\ q_claims r = [] /\ q_failures r = [] /\ mapr (audit_any cx (q_output q)) (q_asserts q) = Ok (q_asserts r).
Proof.
  intros cx t q r t' N1 N2 O H. unfold q_audit in H. rewrite O in H. destruct (q_source q); try congruence; cbn [bind qsource_eqb andb] in H;
    (destruct (mapr (audit_any cx (q_output q)) (q_asserts q)) as [asserts|]; cbn [bind] in H; [|discriminate]; injection H as <- <-; auto).
Qed.
Print Assumptions other_query_audit.
(** A waived query claims nothing and is waived with full rank. *)
Theorem waived_query_audit :
  forall cx t q, q_overridden q = true ->
  exists r, q_audit cx t q = Ok (r, t) /\ q_claims r = [] /\ q_failures r = [] /\ q_status r = Waived /\ q_rank r == q_max_rank r.
Proof. intros cx t q O. unfold q_audit. rewrite O. eexists. split; [reflexivity|]. repeat split. Qed.
Print Assumptions waived_query_audit.

(** ** C70 *)
(** The status of a query is the conjunction of the statuses of its assertions. *)
Theorem query_status_is_conjunction :
  forall q s, q_overridden q = false -> (q_status q = s <-> conjunction (map any_status (q_asserts q)) s).
Proof.
  intros q s O. unfold q_status. rewrite O. split; [intros <-; apply combine_ok|apply conjunction_unique].
Qed.
Print Assumptions query_status_is_conjunction.
(** In particular: it is passing exactly when all of them are, complete exactly when all of
    them are complete. *)
Theorem query_passes_iff_all_pass :
  forall q, q_overridden q = false ->
  (passing (q_status q) <-> forall a, In a (q_asserts q) -> passing (any_status a)) /\
  (complete (q_status q) <-> forall a, In a (q_asserts q) -> complete (any_status a)) /\
  (q_status q = FailedInvariant <-> exists a, In a (q_asserts q) /\ any_status a = FailedInvariant).
Proof.
  intros q O. unfold q_status. rewrite O. set (ss := map any_status (q_asserts q)).
  assert (AL : forall P : status -> Prop, (forall a, In a (q_asserts q) -> P (any_status a)) <-> forall x, In x ss -> P x).
  { intro P. unfold ss. split; [intros H x I; apply in_map_iff in I; destruct I as [a [<- I]]; auto|]. intros H a I. apply H, in_map. exact I. }
  rewrite !AL. assert (C := combine_ok ss). set (s := combine_statuses ss) in *.
  split; [|split].
  - split.
    + intros P x I. destruct P as [[E|E]|[E|E]]; rewrite E in C; cbn [conjunction] in C.
      * left. apply C. exact I.
      * left. right. apply C. exact I.
      * destruct C as [C _]. destruct (C x I); [left|right]; auto.
      * apply C. exact I.
    + intro H. destruct s; cbn [conjunction] in C.
      * destruct C as [_ [[x [I N]] _]]. destruct N. left. auto.
      * contradiction.
      * exfalso. destruct C as [_ [[_ I]|[I _]]]; specialize (H _ I); unfold passing, complete in H; intuition discriminate.
      * right. auto.
      * right. auto.
      * left. left. reflexivity.
      * left. right. reflexivity.
      * exfalso. specialize (H _ C). unfold passing, complete in H; intuition discriminate.
  - split.
    + intros P x I. destruct P as [E|E]; rewrite E in C; cbn [conjunction] in C; [apply C; exact I|right; apply C; exact I].
    + intro H. assert (D : forall y, y <> Done -> y <> Waived -> ~ complete y) by (intros y N1 N2 [?|?]; contradiction).
      destruct s; cbn [conjunction] in C; try (left; reflexivity); try (right; reflexivity); exfalso.
      * destruct C as [_ [[x [I N]] _]]. apply N. left. left. auto.
      * exact C.
      * destruct C as [_ [[_ I]|[I _]]]; eapply D; eauto; discriminate.
      * destruct C as [_ I]. eapply D; eauto; discriminate.
      * destruct C as [_ I]. eapply D; eauto; discriminate.
      * eapply D; eauto; discriminate.
  - split.
    + intro E. rewrite E in C. cbn [conjunction] in C. apply in_map_iff in C. destruct C as [a [? ?]]. eauto.
    + intros [a [I E]]. assert (F : In FailedInvariant ss) by (apply in_map_iff; eauto). symmetry. unfold s. symmetry. apply conjunction_unique. exact F.
Qed.
Print Assumptions query_passes_iff_all_pass.

(** C32 for queries. *)
Theorem query_rank_bounded : forall q, q_rank q <= q_max_rank q.
Proof.
  intro q. unfold q_rank, q_max_rank. destruct (q_overridden q); [apply Qle_refl|].
  induction (q_asserts q) as [|a l IH]; cbn [map Qsum fold_right]; [apply Qle_refl|].
  assert (A := any_rank_le a). unfold Qsum in *. unfold any_max_rank at 1. lra.
Qed.
Print Assumptions query_rank_bounded.

(** ** C71 *)
(** A loaded query reads the source it names, claims unless told otherwise, allows claimed
    courses only if told so (or if it reads the claimed ones), is waived exactly when an
    override is filed at its path, and has one assertion per entry, each loaded at its own
    numbered path. *)
Lemma source_names s q : source_of s = Ok q <-> s = source_name q.
Proof.
  unfold source_of. split.
  - repeat match goal with |- context [String.eqb s ?x] => destruct (String.eqb_spec s x) as [->|] end; intro H; try discriminate; injection H as <-; reflexivity.
  - intros ->. destruct q; reflexivity.
Qed.
Lemma source_items s : type_of_source s = items_of s.
Proof. destruct s; reflexivity. Qed.
Theorem loaded_query_exact :
  forall cx l c p r q, cx_exc cx = group_exceptions l -> load_query cx c p r = Ok q ->
  q_path q = p ++ [".query"] /\
  (q_overridden q = true <-> ~ none_at l (q_path q) waive_kind) /\
  rq_from r = source_name (q_source q) /\ q_type q = items_of (q_source q) /\
  load_limits cx c (rq_limit r) = Ok (q_limit q) /\ q_failed_too q = rq_failed_too r /\
  (q_allow q = true <-> q_source q = QClaimed \/ rq_allow r = true) /\
  (q_attempt q = true <-> rq_claim r = None \/ rq_claim r = Some RcTrue) /\
  (q_record q = true <-> rq_claim r = None \/ rq_claim r = Some RcTrue \/ rq_claim r = Some RcRecord) /\
  match rq_where r, q_where q with
  | None, None => True
  | Some w, Some w' => load_predicate cx c (q_type q) w = Ok w'
  | _, _ => False
  end /\
  (exists entries, (rq_assert r = None /\ rq_all r = Some entries \/ exists a, rq_assert r = Some a /\ rq_all r = None /\ entries = [RwPlain a]) /\
     q_asserts q <> [] /\ List.length entries = List.length (q_asserts q) /\
     forall i e a, nth_error entries i = Some e -> nth_error (q_asserts q) i = Some a ->
       load_any cx c (q_type q) (q_path q ++ [".assertions"; "[" ++ str_of_Z (Z.of_nat i) ++ "]"]%string) e = Ok a) /\
  q_output q = [] /\ q_claims q = [] /\ q_failures q = [] /\ q_inserted q = [] /\ q_forced q = [] /\ q_excluded q = [].
Proof.
  intros cx l c p r q EX H. unfold load_query in H. destruct (source_of (rq_from r)) as [src|] eqn:S; cbn [bind] in H; [|discriminate].
  destruct (match rq_where r with None => _ | Some _ => _ end) as [w|] eqn:W in H; cbn [bind] in H; [|discriminate].
  destruct (load_limits cx c (rq_limit r)) as [limits|] eqn:LM; cbn [bind] in H; [|discriminate].
  destruct (rq_limits_key r); [discriminate|].
  assert (LA : forall es i as_, load_all cx c (type_of_source src) (p ++ [".query"]) i es = Ok as_ ->
    List.length es = List.length as_ /\ forall k e a, nth_error es k = Some e -> nth_error as_ k = Some a ->
      load_any cx c (type_of_source src) ((p ++ [".query"]) ++ [".assertions"; "[" ++ str_of_Z (i + Z.of_nat k) ++ "]"]%string) e = Ok a).
  { induction es as [|e es IH]; intros i as_ L; cbn [load_all] in L.
    - injection L as <-. split; [reflexivity|]. intros [|k] e a N; discriminate.
    - destruct (load_any cx c (type_of_source src) _ e) as [a|] eqn:LE; cbn [bind] in L; [|discriminate].
      destruct (load_all cx c (type_of_source src) (p ++ [".query"]) (i + 1)%Z es) as [rest|] eqn:LR; cbn [bind] in L; [|discriminate].
      injection L as <-. destruct (IH _ _ LR) as [E N]. split; [simpl; congruence|]. intros [|k] e' a' N1 N2; cbn [nth_error] in *.
      + injection N1 as <-. injection N2 as <-. rewrite Z.add_0_r. exact LE.
      + replace (i + Z.of_nat (Datatypes.S k))%Z with (i + 1 + Z.of_nat k)%Z by lia. apply N; auto. }
  destruct (match rq_assert r with Some _ => _ | None => _ end) as [asserts|] eqn:A in H; cbn [bind] in H; [|discriminate].
  destruct asserts as [|a0 asserts]; [discriminate|].
  destruct (match rq_assert r, rq_all r with Some _, Some _ => true | _, _ => false end) eqn:BOTH.
  { destruct (rq_assert r), (rq_all r); discriminate. }
  assert (H' : (if rq_bad r then Err AssertErr else
      Ok (mkQuery (p ++ [".query"]) (match get_waive (cx_exc cx) (p ++ [".query"]) with Some _ => true | None => false end) src (type_of_source src) (a0 :: asserts)
            limits w (match src with QClaimed => true | _ => rq_allow r end)
            (match (match rq_claim r with Some x => x | None => RcTrue end) with RcTrue => true | _ => false end)
            (match (match rq_claim r with Some x => x | None => RcTrue end) with RcTrue | RcRecord => true | _ => false end)
            (rq_failed_too r) [] [] [] [] [] [])) = Ok q) by (destruct (rq_assert r), (rq_all r); try discriminate; exact H).
  clear H. destruct (rq_bad r); [discriminate|]. injection H' as <-. cbn.
  split; [reflexivity|]. split.
  { rewrite EX. assert (WL := waive_lookup l (p ++ [".query"])). destruct (get_waive (group_exceptions l) (p ++ [".query"])) as [x|].
    - split; auto. intros _ N. destruct WL as [pre [post [-> [P [K _]]]]]. apply (N x); auto. apply in_or_app. simpl. auto.
    - split; [discriminate|]. intro N. destruct (N WL). }
  split; [apply source_names; exact S|]. split; [apply source_items|]. split; [reflexivity|]. split; [reflexivity|].
  split; [destruct src; intuition congruence|].
  split; [destruct (rq_claim r) as [[]|]; intuition congruence|].
  split; [destruct (rq_claim r) as [[]|]; intuition congruence|].
  split.
  { destruct (rq_where r) as [x|]; [|injection W as <-; exact I]. destruct (load_predicate cx c (type_of_source src) x); cbn [bind] in W; [|discriminate]. injection W as <-. reflexivity. }
  split; [|repeat split; reflexivity].
  destruct (rq_assert r) as [a|] eqn:RA; [|destruct (rq_all r) as [es|] eqn:RL; [|discriminate]].
  - destruct (rq_all r) eqn:RL; [discriminate|]. exists [RwPlain a]. split; [right; exists a; auto|]. split; [discriminate|]. apply LA in A. exact A.
  - exists es. split; [left; auto|]. split; [discriminate|]. apply LA in A. exact A.
Qed.
Print Assumptions loaded_query_exact.

(** ** Examples *)
Definition two_of := q_of [APlain (plain KCourses OGte 2 false)].
Example query_example :
  map (fun s => map (fun x => match x with ICourse c => c_clbid c | _ => "" end) (q_output s)) (g_items (q_solutions ident three_ctx two_of)) =
    [["1"; "2"]; ["1"; "3"]; ["2"; "3"]; ["1"; "2"; "3"]] /\
  set_order ident /\ coherent (q_limit two_of) /\ keyed three_ctx /\
  q_filtered three_ctx two_of = Ok (map ICourse three, [], []) /\
  deciding counts two_of (plain KCourses OGte 2 false) /\
  q_estimate ident three_ctx two_of = Ok 4%Z /\
  match q_audit three_ctx [] (q_solution two_of (map ICourse [List.hd (mk_simple "" "" "") three]) [] []) with
  | Ok (r, t) => q_status r = NeedsMoreItems /\ map (fun cl => c_clbid (cl_course cl)) (q_claims r) = ["1"] /\ map fst t = ["1"]
  | Err _ => False
  end.
Proof.
  split; [reflexivity|]. split; [intro s; reflexivity|]. split; [intros l1 l2 [] |]. split; [intros k c H; discriminate|]. split; [reflexivity|].
  split; [split; [left; reflexivity|]; exists [], []; split; [reflexivity|]; split; intros b []|]. split; [reflexivity|].
  vm_compute. repeat split.
Qed.
(** the same course denied to a second query *)
Example query_claim_denied_example :
  match q_audit three_ctx [] (q_solution two_of (map ICourse three) [] []) with
  | Ok (_, t) =>
    match q_audit three_ctx t (q_solution (mkQuery ["$"; ".other"] false QCourses DtCourse [APlain (plain KCourses OGte 1 false)] [] None false true true false [] [] [] [] [] []) (map ICourse three) [] []) with
    | Ok (r, t') => q_status r = Empty /\ q_claims r = [] /\ List.length (q_failures r) = 3%nat /\ t' = t
    | Err _ => False
    end
  | Err _ => False
  end.
Proof. vm_compute. repeat split. Qed.
Example claimed_query_example :
  match q_audit three_ctx [] (q_solution two_of (map ICourse three) [] []) with
  | Ok (_, t) =>
    match q_audit three_ctx t (mkQuery ["$"; ".c"] false QClaimed DtCourse [APlain (plain KCourses OGte 1 false)] [] (Some (of_subject "B")) true true true false [] [] [] [] [] []) with
    | Ok (r, t') => q_status r = Done /\ map (fun cl => c_clbid (cl_course cl)) (q_claims r) = ["2"] /\ t' = t
    | Err _ => False
    end
  | Err _ => False
  end.
Proof. vm_compute. repeat split. Qed.
Example load_query_example :
  match load_query (mkCtx [] [] [] [] [] (group_exceptions [mkExc ["$"; ".query"] (AOverride Waived)]) [] [] [] no_proficiencies) (mkConst 2000 8 (inl "Voice") "140") ["$"]
          (mkRawQuery "courses" None None false (Some (mkRawAs None None None [("count(courses)", mkRawValue [(OGte, RInt 2)] [] false false false)])) None false (Some RcRecord) false false) with
  | Ok q => q_overridden q = true /\ q_attempt q = false /\ q_record q = true /\ List.length (q_asserts q) = 1%nat
  | Err _ => False
  end.
Proof. vm_compute. repeat split. Qed.
