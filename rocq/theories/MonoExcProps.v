(** Property theorems about further exceptions: a waiver does not hurt (C177). *)
From Coq Require Import List ZArith QArith Bool String Lia Sorted Permutation.
From Verif Require Import Transcript Prelude Dec Status Course Claims Exceptions Op Context CondExpr Paths Predicate Limit Apply Assertion Query CourseRule Tree Solve Driver Area StudentLoad Run Loader AreaLoad LoaderProps CommonProps.
From Verif Require Import ListFacts TranscriptProofs LimitSpec LimitProofs LimitProps ClaimsSpec ClaimsProofs AssertionSpec PathsSpec PathsProofs PredicateProofs ExceptionsProofs EnumSpec QuerySpec CourseRuleSpec CourseRuleProps TreeSpec TreeProofs TreeStatusProps TreeSolSpec TreeSolProofs TreeSolProps TreeAskSpec TreeAskProps TreeAuditSpec TreeAuditProofs SolveSpec SolveProofs SolveProps AreaSpec AreaProps AreaLoadProps AreaEndProps EstimateProps PlanSpec PlanProofs PlanTop PlanProps MonoSpec MonoQuery MonoProofs MonoTop MonoProps.
Import ListNotations.
Local Open Scope list_scope.

Section More.
  Variables l l' : list exc.
  Hypothesis IN : incl l l'.

  Lemma waived_more p : waived_at l p -> waived_at l' p.
  Proof. intros H N. apply H. intros y I. apply N, IN, I. Qed.
  Lemma under_more p : exception_under l p -> exception_under l' p.
  Proof. intros [x [tl [I E]]]. exists x, tl. auto. Qed.
  Lemma untouched_less p : untouched l' p -> untouched l p.
  Proof. intros U x I. apply U, IN, I. Qed.
  Lemma simple_less q : simple_query l' q -> simple_query l q.
  Proof.
    intros (A & B & C & D & E & F & G & H). repeat (split; [assumption || (apply untouched_less; assumption)|]).
    intros x I. destruct (H x I) as [a [H1 [H2 [H3 H4]]]]. exists a. repeat (split; [assumption|]). apply untouched_less, H4.
  Qed.
  Lemma of_courses_less n : of_courses l' n -> of_courses l n.
  Proof.
    intros OC x P. destruct (OC x P) as [H S]. split; [|exact S]. destruct x; cbn [plain_part] in *; try exact H. apply simple_less, H.
  Qed.
  Lemma query_more_exc ord cx cx' k q ks : set_order ord -> cx_exc cx = group_exceptions l -> cx_exc cx' = group_exceptions l' -> simple_query l' q ->
    subseq (query_courses cx q) (query_courses cx' q) /\ (q_limit q = [] \/ query_courses cx' q = query_courses cx q \/ clear_limits (q_limit q) (query_courses cx' q)) -> (forall c, In c (query_courses cx' q) -> (0 <= dval (c_credits c))%Q) ->
    meets ord cx l (NQuery k q) ks -> meets ord cx' l' (NQuery k q) ks.
  Proof.
    intros SO EX EX' SQ' SS ND ME. assert (SQ := simple_less q SQ').
    assert (N : forall v c, read ord cx' q v -> In c v -> (0 <= dval (c_credits c))%Q) by (intros v c R I; eapply ND, picked_in, read_picked; eauto).
    destruct (simple_met ord cx l q EX SQ k ks ME) as [[QA [v [items [RV [S1 [AC ->]]]]]]|[QA [v [RV [AC ->]]]]]; destruct (read_more ord cx cx' l q v SO SQ SS RV) as [v' [RV' SP]].
    - assert (S2 := subseq_trans _ _ _ S1 SP). apply simple_meets with (v := v'); auto.
      assert (N1 : forall c, In c items -> (0 <= dval (c_credits c))%Q) by (intros c J; apply (N v' c RV'); eapply subseq_in; eauto).
      apply (all_complete_iff cx' l' q _ EX' SQ' N1). apply (all_complete_iff cx l q _ EX SQ N1). exact AC.
    - apply simple_meets_free with (v := v'); auto. apply (all_complete_iff cx' l' q _ EX' SQ' (fun c => N v' c RV')). intros a I.
      assert (N0 : forall c, In c v -> (0 <= dval (c_credits c))%Q) by (intros c J; apply (N v' c RV'); eapply subseq_in; eauto).
      assert (D := proj1 (all_complete_iff cx l q _ EX SQ N0) AC a I). assert (S' := SQ). destruct S' as (_ & _ & _ & _ & _ & _ & _ & A). destruct (A _ I) as [a0 [E [AL _]]]. injection E as <-.
      refine (done_larger a _ _ AL _ (of_kind_sub a _ _ SP) D). intros c J. apply (N v' c RV'). eapply of_kind_in; eauto.
  Qed.
  Lemma promising_exc cx cx' n : more cx cx' -> in_order cx cx' n -> of_courses l' n -> promising cx l n -> promising cx' l' n.
  Proof.
    intros M IO OC P. apply (promising_more cx cx'); auto. clear M IO cx'. induction P as [k r H|k q H|k i items H|k i items x I P IH|k i o H|k i x A P IH|k i t f x IF P IH|k i c].
    - apply pr_course. destruct H as [H|[H|H]]; [left; exact H|right; left; apply under_more, H|right; right; exact H].
    - apply pr_query. destruct H as [H|H]; [left; apply under_more, H|right; exact H].
    - apply pr_count_exc, under_more, H.
    - eapply pr_count; [exact I|]. apply IH. eapply of_courses_item; eauto.
    - apply pr_req_exc, under_more, H.
    - apply pr_req; [exact A|]. apply IH. eapply of_courses_req; eauto.
    - eapply pr_cond; [exact IF|]. apply IH. eapply of_courses_cond; eauto.
    - apply pr_prof.
  Qed.
End More.

Lemma choose_each (R : node -> list string -> Prop) (chosen : node -> bool) items : NoDup (map path_of items) ->
  (forall c, In c items -> chosen c = true -> exists ks, R c ks) -> exists a : node -> list string, forall c, In c items -> chosen c = true -> R c (a c).
Proof.
  intros ND H. assert (X : exists m, Forall2 (fun c ks => chosen c = true -> R c ks) items m).
  { clear ND. induction items as [|c items IH]; [exists []; constructor|]. destruct IH as [m F]; [intros; apply H; simpl; auto|].
    destruct (chosen c) eqn:E; [destruct (H c (or_introl eq_refl) E) as [ks K]; exists (ks :: m)|exists ([] :: m)]; constructor; auto; congruence. }
  destruct X as [m F]. destruct (f2_function [] _ _ _ ND F) as [f [_ G]]. exists f. exact G.
Qed.
Lemma subseq_flat {A B} (f g : A -> list B) xs : (forall x, In x xs -> subseq (f x) (g x)) -> subseq (flat_map f xs) (flat_map g xs).
Proof. induction xs as [|x xs IH]; intro H; cbn [flat_map]; [constructor|]. apply subseq_app; [apply H; simpl; auto|apply IH; intros; apply H; simpl; auto]. Qed.

(** What can be met can still be met, with no more classes used up. *)
Lemma meets_exc ord cx cx' l l' n ks : set_order ord -> incl l l' -> more cx cx' -> cx_exc cx = group_exceptions l -> cx_exc cx' = group_exceptions l' -> of_courses l' n -> in_order cx cx' n -> no_debts cx' n -> orderly n ->
  meets ord cx l n ks -> exists ks', meets ord cx' l' n ks' /\ subseq ks' ks.
Proof.
  intros SO IN M EX EX' OC IO DE OR ME. revert OC IO DE OR.
  assert (WD : forall p, ~ waived_at l' p -> ~ waived_at l p) by (intros p H W; apply H; eapply waived_more; eauto).
  assert (DEC : forall p, waived_at l' p \/ ~ waived_at l' p) by (intro p; destruct (waived cx' p) eqn:E; [left; apply (waived_ok cx' l' p EX'), E|right; apply (waived_no cx' l' p EX'), E]).
  induction ME as [k r c AW W FI AC FP|k r c forced AW W INS|k r W|k q out QS QO QA MS NE AC|k q cs ins forced v QS QO QA QF IV NE AC
      |k q data N1 N2 QO QF AC|k i items W|k i items chosen a n m W NA PR ME IH ST TN FT TM CM M1|k i o W|k i x ks W NAU ME IH|k i t f x ks IF ME IH
      |k i c W|k i W PS|k i k' r x rest s W PS FS OK]; intros OC IO DE OR; try (destruct (OC _ (pt_self _)) as [[] _]; fail).
  - destruct (DEC (r_path r)) as [W'|W']; [exists []; split; [apply me_course_waived; auto|apply subseq_nil_l]|].
    eexists. split; [|apply subseq_refl]. apply (me_course ord cx' l' k r c); auto. eapply finds_more; eauto.
  - destruct (DEC (r_path r)) as [W'|W']; [exists []; split; [apply me_course_waived; auto|apply subseq_nil_l]|].
    eexists. split; [|apply subseq_refl]. apply (me_inserted ord cx' l' k r c forced); auto. destruct INS as [x [k' [H1 [H2 [H3 [H4 H5]]]]]]. exists x, k'. split; [apply IN, H1|]. split; [exact H2|]. split; [exact H3|]. split; [apply M; exact H4|exact H5].
  - exists []. split; [|constructor]. apply me_course_waived. destruct W as [W|W]; [auto|right; eapply waived_more; eauto].
  - eexists. split; [|apply subseq_refl]. refine (query_more_exc l l' IN ord cx cx' k q _ SO EX EX' (proj1 (OC _ (pt_self _))) (IO k q (pt_self _)) (fun c => DE k q c (pt_self _)) _). apply me_query; assumption.
  - eexists. split; [|apply subseq_refl]. refine (query_more_exc l l' IN ord cx cx' k q _ SO EX EX' (proj1 (OC _ (pt_self _))) (IO k q (pt_self _)) (fun c => DE k q c (pt_self _)) _). eapply me_query_free; eassumption.
  - exfalso. apply N1. apply (proj1 (OC _ (pt_self _))).
  - exists []. split; [|constructor]. apply me_count_waived. eapply waived_more; eauto.
  - destruct (DEC (n_path i)) as [W'|W']; [exists []; split; [apply me_count_waived; auto|apply subseq_nil_l]|].
    assert (OCc : forall c, In c items -> of_courses l' c) by (intros c I; eapply of_courses_item; eauto).
    assert (ORc : forall c, In c items -> orderly c) by (intros c I; eapply orderly_item; eauto).
    assert (SEc : forall c, In c items -> status_of c = Empty) by (intros c I; apply (OCc c I), pt_self).
    assert (SI : siblings items) by (apply (proj2 (proj2 OR) k i); constructor).
    assert (TM' : tally (fun c => chosen c = true) items m).
    { refine (tally_imp _ _ items _ m TM). intros c I. rewrite (SEc c I). split; [intros [H|[H|H]]; [exact H|discriminate|discriminate]|auto]. }
    assert (ML : m = List.length (filter chosen items)) by (eapply tally_fun; [exact TM'|apply PlanTop.tally_filter; tauto]).
    set (n' := List.length (filter (has_potential cx') items)).
    assert (TN' : tally (promising cx' l') items n').
    { apply PlanTop.tally_filter. intros c I. destruct (courses_answer cx' l' c (OCc c I) (proj1 (ORc c I))) as [b E].
      assert (PE := potential_exact cx' l' c b EX' (proj1 (ORc c I)) E). rewrite potential_iff, E, <- PE. split; congruence. }
    assert (PR' : forall c, In c items -> chosen c = true -> promising cx' l' c) by (intros c I E; eapply promising_exc; eauto; eapply in_order_item; eauto).
    destruct (choose_each (fun c ks' => meets ord cx' l' c ks' /\ subseq ks' (a c)) chosen items (proj1 SI)) as [a' A'].
    { intros c I E. apply IH; auto; [eapply in_order_item; eauto|eapply no_debts_item; eauto]. }
    exists (flat_map a' (filter chosen items)). split; [|apply subseq_flat; intros c I; apply filter_In in I; apply A'; apply I].
    apply (me_count ord cx' l' k i items chosen a' n' m); auto; [intros c I E; apply A'; auto|].
    assert (m <= n')%nat by (eapply tally_at_least; [|exact TM'|exact TN']; auto).
    left. rewrite <- ML in *. split; [exact CM|]. split; [assumption|]. intro AM. destruct FT as [[_ [_ H']]|[H' H'']]; [auto|lia].
  - exists []. split; [|constructor]. apply me_req_waived. eapply waived_more; eauto.
  - destruct (DEC (e_path i)) as [W'|W']; [exists []; split; [apply me_req_waived; auto|apply subseq_nil_l]|].
    destruct IH as [ks' [ME' S']]; [eapply of_courses_req; eauto|eapply in_order_req; eauto|eapply no_debts_req; eauto|eapply orderly_req; eauto|].
    exists ks'. split; [|exact S']. apply me_req; auto.
  - destruct IH as [ks' [ME' S']]; [eapply of_courses_cond; eauto|eapply in_order_cond; eauto|eapply no_debts_cond; eauto|eapply orderly_cond; eauto|].
    exists ks'. split; [|exact S']. eapply me_cond; eauto.
Qed.

(** ** C177 *)

(** A tree that is found to be met is found to be met with further exceptions, too: rules waived,
    and classes inserted at course rules. *)
Theorem further_exceptions_do_not_hurt :
  forall ord cx cx' l l' n t t' merge best best' t1 t1', set_order ord -> cx_exc cx = group_exceptions l -> cx_exc cx' = group_exceptions l' -> cx_multi cx = [] -> cx_multi cx' = [] ->
  incl l l' -> more cx cx' -> in_order cx cx' n -> no_debts cx' n -> of_courses l' n -> orderly n -> plain_rule cx l n -> plain_rule cx' l' n ->
  find_best_solution ord cx t n merge = Ok (best, t1) -> find_best_solution ord cx' t' n merge = Ok (best', t1') ->
  (exists r, best = Some r /\ complete (status_of r)) -> exists r, best' = Some r /\ complete (status_of r).
Proof.
  intros ord cx cx' l l' n t t' merge best best' t1 t1' SO EX EX' MC MC' IN M IO DE' OC OR PL PL' F F' H. assert (DE := no_debts_before _ _ _ IO DE'). assert (OC0 := of_courses_less l l' IN n OC).
  apply (the_search_is_exact ord cx l n t merge best t1 SO EX MC OC0 OR PL DE F) in H. destruct H as [ks [ME ND]].
  apply (the_search_is_exact ord cx' l' n t' merge best' t1' SO EX' MC' OC OR PL' DE' F').
  destruct (meets_exc ord cx cx' l l' n ks SO IN M EX EX' OC IO DE' OR ME) as [ks' [ME' S]]. exists ks'. split; [exact ME'|]. eapply subseq_NoDup; eauto.
Qed.
Print Assumptions further_exceptions_do_not_hurt.

(** [es'] has further exceptions, none of which forces a class *)
Definition further (es es' : list exc) : Prop := incl es es' /\ forall x k, In x es' -> ex_act x = AInsert k true -> exists y, In y es /\ ex_act y = AInsert k true.
Lemma forced_in es k : In k (forced_clbids es) <-> exists y, In y es /\ ex_act y = AInsert k true.
Proof.
  unfold forced_clbids. rewrite in_flat_map. split; intros [y [I H]]; exists y; (split; [exact I|]).
  - destruct (ex_act y) as [k' [|]| | | | |]; cbn in H; try contradiction. destruct H as [<-|[]]. reflexivity.
  - rewrite H. simpl. auto.
Qed.
Lemma forced_same es es' : further es es' -> forall k, In k (forced_clbids es') <-> In k (forced_clbids es).
Proof.
  intros [IN FO] k. rewrite !forced_in. split; intros [y [I H]]; [eapply FO; eauto|]. exists y. auto.
Qed.
Lemma existsb_same (F F' : list string) : (forall k, In k F' <-> In k F) -> forall k, existsb (String.eqb k) F' = existsb (String.eqb k) F.
Proof.
  intros H k. destruct (existsb (String.eqb k) F) eqn:E.
  - apply existsb_exists in E. destruct E as [x [I E]]. apply existsb_exists. exists x. split; [apply H, I|exact E].
  - destruct (existsb (String.eqb k) F') eqn:E'; [|reflexivity]. apply existsb_exists in E'. destruct E' as [x [I X]]. rewrite <- E. symmetry. apply existsb_exists. exists x. split; [apply H, I|exact X].
Qed.
Lemma transcripts_same ord u st es es' : further es es' -> transcripts ord u st es' = transcripts ord u st es.
Proof.
  intro FU. unfold transcripts, limited_transcripts. destruct (u_limit u); [reflexivity|].
  rewrite (filter_ext _ _ (existsb_same _ _ (forced_same _ _ FU))). reflexivity.
Qed.
Lemma forced_courses_same es es' cs : further es es' -> forced_courses es' cs = forced_courses es cs.
Proof.
  intro FU. unfold forced_courses. generalize (@nil (string * course)). induction cs as [|c cs IH]; intro d; cbn [fold_left]; [reflexivity|].
  unfold smem at 2 4. rewrite (existsb_same _ _ (forced_same _ _ FU)). apply IH.
Qed.
(** An area of courses and simple queries that is not a major stays passed when rules are
    waived, whatever its limits. *)
Theorem further_waivers_do_not_hurt_an_area :
  forall ord nord u st es es' i items, (forall x, Permutation (nord x) x) -> set_order ord -> u_kind u <> "major"%string -> course_area u es' i items ->
  further es es' ->
  (forall lt, In lt (g_items (transcripts ord u st es)) -> no_debts (limited_ctx u st es lt) (u_result u) /\
    fair (limited_ctx u st es lt) es items /\ fair (limited_ctx u st es' lt) es' items) ->
  g_exn (area_solutions ord nord u st es) = None -> g_exn (area_solutions ord nord u st es') = None ->
  passed ord nord u st es -> passed ord nord u st es'.
Proof.
  intros ord nord u st es es' i items NO SO NM CA' FU FA GE GE' P. assert (IN := proj1 FU).
  assert (CA : course_area u es i items).
  { destruct CA' as [UR [OR [OC [MC [W CNT]]]]]. repeat (split; [assumption || (eapply of_courses_less; eassumption)|]). split; [|exact CNT]. intro H. apply W. eapply waived_more; eauto. }
  assert (P1 : can_be_passed ord u st es) by (apply (passed_if_it_can_be ord nord u st es i items NO SO NM CA); auto; intros lt IL; destruct (FA lt IL) as [H1 [H2 H3]]; auto).
  apply (passed_if_it_can_be ord nord u st es' i items NO SO NM CA'); [|exact GE'|].
  { intros lt IL. rewrite (transcripts_same _ _ _ _ _ FU) in IL. destruct (FA lt IL) as [H1 [H2 H3]]. split; [exact H3|]. exact H1. }
  clear CA. destruct CA' as [UR [OR [OC [MC [W CNT]]]]]. destruct P1 as [i0 [items0 [lt [UR0 [_ [IL [_ AM]]]]]]]. rewrite UR in UR0. injection UR0 as <- <-.
  destruct (FA lt IL) as [DE [_ F']]. exists i, items, lt. split; [exact UR|]. split; [exact OR|]. split; [rewrite (transcripts_same _ _ _ _ _ FU); exact IL|]. cbv zeta. split; [exact F'|].
  assert (M : more (limited_ctx u st es lt) (limited_ctx u st es' lt)).
  { split; [auto|]. split; [auto|]. intros k c. unfold forced_by_clbid, find_by_clbid, limited_ctx, with_transcript. cbn [cx_transcript cx_forced]. rewrite (forced_courses_same _ _ _ FU). auto. }
  assert (IO : in_order (limited_ctx u st es lt) (limited_ctx u st es' lt) (u_result u)) by (intros k q _; split; [apply subseq_refl|right; left; reflexivity]).
  assert (DE' : no_debts (limited_ctx u st es' lt) (u_result u)) by exact DE.
  rewrite UR in OR, OC, IO, DE'. destruct AM as [_ [NA [_ [NE [a [ME ND]]]]]]. split; [exact W|]. split; [exact NA|]. split; [exact CNT|]. split; [exact NE|].
  assert (SI : siblings items) by (apply (proj2 (proj2 OR) KRule i); constructor).
  destruct (choose_each (fun c ks' => meets ord (limited_ctx u st es' lt) es' c ks' /\ subseq ks' (a c)) (fun _ => true) items (proj1 SI)) as [a' A'].
  { intros c I _. destruct (ME c I) as [_ [_ MT]]. apply (meets_exc ord (limited_ctx u st es lt) _ es es' c (a c)); auto; [eapply of_courses_item; eauto|eapply in_order_item; eauto|eapply no_debts_item; eauto|eapply orderly_item; eauto]. }
  exists a'. split; [|eapply subseq_NoDup; [|exact ND]; apply subseq_flat; intros c I; apply A'; auto].
  intros c I. destruct (ME c I) as [PR _]. assert (OCc := of_courses_item _ _ _ _ _ OC I).
  split; [apply (promising_exc es es' IN (limited_ctx u st es lt)); auto; eapply in_order_item; eauto|].
  split; [apply courses_listable; auto; [eapply orderly_item; eauto|apply F', I]|]. apply A'; auto.
Qed.
Print Assumptions further_waivers_do_not_hurt_an_area.

(** ** Samples *)
Definition waivers_only (l : list exc) : Prop := forall x, In x l -> exists s, ex_act x = AOverride s.
Lemma waived_courses l n : all_parts plain_check n = true -> of_courses l n.
Proof.
  intros C x P. destruct (checked n C) as [OC _]. destruct (OC x P) as [H S]. split; [|exact S]. destruct x as [|k q| | | |]; cbn [plain_part] in *; try exact H. exfalso. exact (no_queries n C k q P).
Qed.
Lemma matching_waived cx l n x : waivers_only l -> all_parts plain_check n = true -> matching cx l n x -> exists c, x = ICourse c /\ In c (cx_transcript cx).
Proof.
  intros WO C M. assert (OC := waived_courses l n C). assert (NQ := no_queries n C). clear C.
  induction M as [k r c H|k q x H|k i items y x I M IH|k i y x M IH|k i t f y x IF M IH|k i k' r c H].
  - exists c. split; [reflexivity|]. destruct H as [[e [k' [f [I [_ [A _]]]]]]|[_ [F _]]]; [destruct (WO e I); congruence|]. destruct F as [[k' [_ [_ F]]]|[_ [I _]]]; [|exact I].
    unfold find_by_clbid, lookup_clbid in F. apply find_some in F. apply in_rev, F.
  - exfalso. exact (NQ k q (pt_self _)).
  - apply IH; [eapply of_courses_item; eauto|]. intros k' q P. apply (NQ k' q). eapply pt_count; eauto.
  - apply IH; [eapply of_courses_req; eauto|]. intros k' q P. apply (NQ k' q). apply pt_req. exact P.
  - apply IH; [eapply of_courses_cond; eauto|]. intros k' q P. apply (NQ k' q). destruct IF as [_|y' _ ->]; [apply pt_true|apply pt_false]; exact P.
  - destruct (OC _ (pt_self _)) as [[] _].
Qed.
Lemma waived_fair cx l items : waivers_only l -> cx_exc cx = group_exceptions l -> forallb (all_parts plain_check) items = true ->
  (forall c d, In c (cx_transcript cx) -> In d (cx_transcript cx) -> c_clbid c = c_clbid d -> c = d) -> fair cx l items.
Proof.
  intros WO EX C ID. assert (C' := proj1 (forallb_forall _ _) C). assert (CK := fun c I => checked c (C' c I)). split; [|split].
  - intros c I. split; [apply (CK c I)|]. split.
    + intros r R. split; [|intros x k f J _ A; destruct (WO x J); congruence].
      destruct R as [[k P]|[k [i [k' P]]]]; apply (check_part c) in P; auto; split_check P; [|discriminate]. repeat match goal with H : (_ && _)%bool = true |- _ => apply andb_prop in H; destruct H end. apply negb_true_iff; assumption.
    + intros k q P. exfalso. exact (no_queries c (C' c I) k q P).
  - intros c d [I _] _ _ D. destruct (CK c I) as [_ [_ [_ [_ H]]]]. congruence.
  - intros c d cs ds x y Ic Id Mc Md Ix Iy E. destruct (CK c Ic) as [_ [_ [Y1 _]]]. destruct (CK d Id) as [_ [_ [Y2 _]]].
    apply (matches_exact cx l c cs EX Y1 Mc) in Ix. apply (matches_exact cx l d ds EX Y2 Md) in Iy.
    destruct (matching_waived cx l c _ WO (C' c Ic) Ix) as [x' [Ex Jx]]. destruct (matching_waived cx l d _ WO (C' d Id) Iy) as [y' [Ey Jy]]. injection Ex as <-. injection Ey as <-. auto.
Qed.
Lemma none_complete ord nord u st es :
  forallb (fun z => match area_audit ord u z with Ok (v, _) => negb (inS (area_status v) WAIVED_AND_DONE) | Err _ => true end) (g_items (area_solutions ord nord u st es)) = true -> ~ passed ord nord u st es.
Proof. intros H [z [v [t [I [A C]]]]]. rewrite forallb_forall in H. specialize (H z I). rewrite A in H. apply complete_iff in C. rewrite C in H. discriminate. Qed.

(** Both A 1 and B 1 are asked for, each worth three credits; A 1 is waived. *)
Open Scope string_scope.
Definition both_area (kind : string) : aspec :=
  mkAspec (Some "Sample") (Some kind) (Some "B.A.") (Some "100") [] (Some (d_all [d_course "A 1"; d_course "B 1"])) None None [] false.
Definition both_taken : student := enrolled [pointer AkMajor "100"]
  [CommonProps.taken "1" "A" (dec_of_Z 3) GA GoGrade false; CommonProps.taken "2" "B" (dec_of_Z 3) GA GoGrade false; CommonProps.taken "3" "G" (dec_of_Z 30) GA GoGrade false].
Definition waive_a : list exc := [mkExc ["$"; ".count"; "[0]"; "*A 1"] (AOverride Waived)].
Lemma both_hypotheses kind : kind = "major" \/ kind = "concentration" ->
  exists u i items, load_area sample_const [] both_taken [] false (both_area kind) = Ok u /\ load_area sample_const [] both_taken waive_a false (both_area kind) = Ok u /\
    u_kind u = kind /\ course_area u waive_a i items /\ further [] waive_a /\
    (forall lt, In lt (g_items (transcripts same u both_taken [])) -> no_debts (limited_ctx u both_taken [] lt) (u_result u) /\
      fair (limited_ctx u both_taken [] lt) [] items /\ fair (limited_ctx u both_taken waive_a lt) waive_a items) /\
    g_exn (area_solutions same keep u both_taken []) = None /\ g_exn (area_solutions same keep u both_taken waive_a) = None /\ passed same keep u both_taken [].
Proof.
  intro K. destruct (load_area sample_const [] both_taken [] false (both_area kind)) as [u|] eqn:L; [|destruct K as [-> | ->]; vm_compute in L; discriminate].
  assert (X : exists i items, u_result u = NCount KRule i items /\ n_path i = ["$"; ".count"] /\ u_kind u = kind /\ u_limit u = [] /\ u_multi u = [] /\ n_count i = Z.of_nat (List.length items) /\ all_parts plain_check (u_result u) = true /\
    (forall k i items, part_of (u_result u) (NCount k i items) -> siblings items) /\ load_area sample_const [] both_taken waive_a false (both_area kind) = Ok u /\
    g_exn (area_solutions same keep u both_taken []) = None /\ g_exn (area_solutions same keep u both_taken waive_a) = None /\ passed same keep u both_taken []).
  { destruct K as [-> | ->]; vm_compute in L; injection L as <-; eexists _, _;
      (split; [reflexivity|]; split; [reflexivity|]; split; [reflexivity|]; split; [reflexivity|]; split; [reflexivity|]; split; [reflexivity|]; split; [vm_compute; reflexivity|];
       split; [|split; [vm_compute; reflexivity|]; split; [vm_compute; reflexivity|]; split; [vm_compute; reflexivity|]; apply found_complete; vm_compute; reflexivity]);
      intros k i items P; cbn [u_result] in P; parts; (split; [repeat constructor; cbn; intuition discriminate|repeat (apply Forall_cons || apply Forall_nil); repeat first [left; exists 0%nat; vm_compute; reflexivity|left; exists 1%nat; vm_compute; reflexivity|right; intros t D; discriminate]]). }
  destruct X as [i [items [UR [NP [UK [UL [UM [CNT [C [SI [L' [G [G' PA]]]]]]]]]]]]]. exists u, i, items. split; [reflexivity|]. split; [exact L'|]. split; [exact UK|].
  destruct (checked _ C) as [_ [RT [Y _]]].
  assert (CI : forallb (all_parts plain_check) items = true) by (rewrite UR in C; cbn [all_parts] in C; apply andb_prop in C; apply C).
  assert (ID : forall c d, In c (t_courses both_taken) -> In d (t_courses both_taken) -> c_clbid c = c_clbid d -> c = d).
  { intros c d I J E. cbn [t_courses both_taken enrolled In] in I, J. repeat (destruct I as [<-|I]; [repeat (destruct J as [<-|J]; [first [reflexivity|discriminate E]|]); destruct J|]). destruct I. }
  assert (WO : waivers_only waive_a) by (intros x [<-|[]]; eexists; reflexivity).
  split.
  { split; [exact UR|]. split; [split; [exact Y|split; [exact RT|exact SI]]|]. split; [apply waived_courses, C|]. split; [exact UM|]. split; [|exact CNT].
    intro H. apply H. intros y [<-|[]] [E _]. rewrite NP in E. discriminate E. }
  split; [split; [intros x []|intros x k [<-|[]] A; discriminate A]|]. split; [|auto].
  intros lt I. unfold transcripts in I. rewrite UL in I. destruct I as [<-|[]]. split; [apply (checked_order (limited_ctx u both_taken [] []) _ _ C)|].
  split; apply waived_fair; auto; intros x [].
Qed.
(** the concentration stays passed *)
Example further_waivers_example :
  statuses (both_area "concentration") both_taken [] = [Some (Done, [Done; Done])] /\
  statuses (both_area "concentration") both_taken waive_a = [Some (Done, [Waived; Done])] /\
  exists u i items, u_kind u <> "major" /\ course_area u waive_a i items /\ further [] waive_a /\
    (forall lt, In lt (g_items (transcripts same u both_taken [])) -> no_debts (limited_ctx u both_taken [] lt) (u_result u) /\
      fair (limited_ctx u both_taken [] lt) [] items /\ fair (limited_ctx u both_taken waive_a lt) waive_a items) /\
    g_exn (area_solutions same keep u both_taken []) = None /\ g_exn (area_solutions same keep u both_taken waive_a) = None /\ passed same keep u both_taken [].
Proof.
  split; [vm_compute; reflexivity|]. split; [vm_compute; reflexivity|]. destruct (both_hypotheses "concentration" (or_intror eq_refl)) as [u [i [items [_ [_ [K H]]]]]].
  exists u, i, items. split; [rewrite K; discriminate|exact H].
Qed.
(** The major does not: a waived rule uses no class, so that fewer than six credits count
    toward the major, and the common requirement "Credits at a C or higher" is not met. *)
Theorem further_waivers_never_hurt_refuted : exists ord nord u st es es' i items, set_order ord /\ (forall x, Permutation (nord x) x) /\ course_area u es' i items /\ further es es' /\ waivers_only es' /\
  (exists a, load_area sample_const [] st es false a = Ok u /\ load_area sample_const [] st es' false a = Ok u) /\
  (forall lt, In lt (g_items (transcripts ord u st es)) -> no_debts (limited_ctx u st es lt) (u_result u) /\
    fair (limited_ctx u st es lt) es items /\ fair (limited_ctx u st es' lt) es' items) /\
  g_exn (area_solutions ord nord u st es) = None /\ g_exn (area_solutions ord nord u st es') = None /\
  passed ord nord u st es /\ ~ passed ord nord u st es'.
Proof.
  destruct (both_hypotheses "major" (or_introl eq_refl)) as [u [i [items [L [L' [K [CA [FU [FA [G [G' P]]]]]]]]]]].
  exists same, keep, u, both_taken, [], waive_a, i, items. split; [intro; reflexivity|]. split; [intro; apply Permutation_refl|]. split; [exact CA|]. split; [exact FU|]. split; [intros x [<-|[]]; eexists; reflexivity|].
  split; [exists (both_area "major"); auto|]. split; [exact FA|]. split; [exact G|]. split; [exact G'|]. split; [exact P|].
  apply none_complete. vm_compute in L. injection L as <-. vm_compute. reflexivity.
Qed.
Print Assumptions further_waivers_never_hurt_refuted.
(** the common requirements are what fails *)
Example waiver_in_a_major :
  statuses (both_area "major") both_taken [] = [Some (Done, [Done; Done; Done])] /\
  statuses (both_area "major") both_taken waive_a = [Some (NeedsMoreItems, [Waived; Done; NeedsMoreItems])].
Proof. split; vm_compute; reflexivity. Qed.
(** A tree that meets the hypotheses of [further_exceptions_do_not_hurt]. With A 1 and C 1
    only the rule is not met, with B 1 as well it is, and with one of the children waived it is either
    way. *)
Definition waive_y : list exc := [mkExc (path_of y_child) (AOverride Waived)].
Definition all_three : ctx := limited_ctx (one_rule "concentration" clash []) (took AreaProps.three) waive_y AreaProps.three.
Definition only_two : ctx := limited_ctx (one_rule "concentration" clash []) (took [mk_simple "100" "A" "1"; mk_simple "300" "C" "1"]) waive_y [mk_simple "100" "A" "1"; mk_simple "300" "C" "1"].
Example further_exceptions_example :
  cx_exc clash_ctx = group_exceptions [] /\ cx_exc all_three = group_exceptions waive_y /\ cx_multi clash_ctx = [] /\ cx_multi all_three = [] /\ incl [] waive_y /\
  more clash_ctx all_three /\ in_order clash_ctx all_three clash /\ no_debts all_three clash /\ of_courses waive_y clash /\ orderly clash /\ plain_rule clash_ctx [] clash /\ plain_rule all_three waive_y clash /\
  map (fun cx => match find_best_solution same_order cx [] clash false with Ok (Some r, _) => Some (status_of r) | _ => None end) [lacks_b; clash_ctx; only_two; all_three] = [Some NeedsMoreItems; Some Done; Some Done; Some Done].
Proof.
  assert (C : all_parts plain_check clash = true) by (vm_compute; reflexivity).
  assert (PL : forall cx l, waivers_only l -> plain_rule cx l clash).
  { intros cx l WO. split; [|intros k q P; apply (check_part clash) in P; auto; split_check P; discriminate]. intros r R. split; [|intros x k f I _ A; destruct (WO x I); congruence].
    destruct R as [[k P]|[k [i [k' P]]]]; apply (check_part clash) in P; auto; split_check P; [|discriminate]. repeat match goal with H : (_ && _)%bool = true |- _ => apply andb_prop in H; destruct H end. apply negb_true_iff; assumption. }
  repeat (split; [reflexivity|]). split; [intros x []|]. split; [split; [auto|]; split; auto|]. split; [apply (checked_order clash_ctx all_three _ C)|]. split; [apply (checked_order clash_ctx all_three _ C)|].
  split; [apply waived_courses, C|]. split; [exact clash_orderly|]. split; [apply PL; intros x []|]. split; [apply PL; intros x [<-|[]]; eexists; reflexivity|]. vm_compute. reflexivity.
Qed.
