(** Property theorems about taking more classes in an area with limits (C155). *)
From Coq Require Import List ZArith QArith Bool String Lia Sorted Permutation.
From Verif Require Import Transcript Prelude Dec Status Course Claims Exceptions Op Context CondExpr Paths Predicate Limit Apply Assertion Query CourseRule Tree Solve Driver Area StudentLoad Run Loader AreaLoad LoaderProps CommonProps.
From Verif Require Import ListFacts TranscriptProofs LimitSpec LimitProofs LimitProps LimitLoad LimitLoadProps LimitApartProps ClaimsSpec ClaimsProofs AssertionSpec PathsSpec PathsProofs PredicateProofs ExceptionsProofs EnumSpec QuerySpec CourseRuleSpec CourseRuleProps TreeSpec TreeProofs TreeStatusProps TreeSolSpec TreeSolProofs TreeSolProps TreeAskSpec TreeAskProps TreeAuditSpec TreeAuditProofs SolveSpec SolveProofs SolveProps AreaSpec AreaProps AreaLoadProps AreaEndProps EstimateProps PlanSpec PlanProofs PlanTop PlanProps MonoSpec MonoQuery MonoProofs MonoTop MonoProps.
Import ListNotations.
Local Open Scope list_scope.

(** Each selection of the first student's classes is within one of the second's. *)
Lemma a_selection_grows ord u st st' es lt : set_order ord -> limits_apart (forced_clbids es) (u_limit u) (t_courses st') -> more_classes st st' ->
  In lt (g_items (transcripts ord u st es)) -> exists lt', In lt' (g_items (transcripts ord u st' es)) /\ subseq lt lt'.
Proof.
  intros SO LA' MO I. assert (LA := fewer_apart _ _ _ _ (proj1 MO) LA'). destruct MO as [IN ID]. unfold transcripts in *. assert (CO := distinct_coherent _ (la_distinct _ _ _ LA)). assert (NE := la_some _ _ _ LA).
  destruct (limits_only_remove_limited_courses ord _ _ _ lt SO CO NE I) as [N [SS [SUB _]]].
  destruct (tried_selections_hold ord _ _ _ lt SO LA I) as [_ _ BC BR _].
  destruct (completed_selection _ _ _ lt LA' N (fun c K => IN c (SUB c K)) BC BR) as [SE [N' IN']].
  destruct (selections_are_tried ord _ _ _ _ SO LA' N' SE) as [lt' [J E]]. exists lt'. split; [exact J|].
  destruct (limits_only_remove_limited_courses ord _ _ _ lt' SO CO NE J) as [N2 [SS' [SUB' _]]].
  apply sorted_part_in_order; auto. intros c K. apply E, IN', K.
Qed.
Lemma forced_named es k c : forall l d, dget (fold_left (fun d c => if smem (c_clbid c) (forced_clbids es) then dset d (c_clbid c) c else d) l d) k = Some c ->
  dget d k = Some c \/ In k (forced_clbids es).
Proof.
  induction l as [|x l IH]; intros d D; cbn [fold_left] in D; [auto|]. apply IH in D. destruct D as [D|D]; [|auto].
  destruct (smem (c_clbid x) (forced_clbids es)) eqn:M; [|auto].
  destruct (String.eqb_spec (c_clbid x) k) as [<-|N]; [right; apply smem_in; exact M|]. rewrite PlanProofs.dget_dset_other in D by congruence. auto.
Qed.
Lemma forced_kept ord u st es lt c k : set_order ord -> limits_apart (forced_clbids es) (u_limit u) (t_courses st) -> In lt (g_items (transcripts ord u st es)) ->
  dget (forced_courses es (t_courses st)) k = Some c -> In c lt /\ c_clbid c = k.
Proof.
  intros SO LA I D. assert (NE := la_some _ _ _ LA). assert (DI := la_distinct _ _ _ LA). destruct (limits_only_remove_limited_courses ord _ _ _ lt SO (distinct_coherent _ DI) NE I) as [_ [_ [_ [FO _]]]].
  unfold forced_courses in D.
  destruct (forced_sound es k c (t_courses st) [] ltac:(intros ? ? X; discriminate X) (t_courses st) (fun x H => H) D) as [E J]. split; [|exact E].
  apply FO; [exact J|]. unfold forced. rewrite E. destruct (forced_named es k c _ _ D) as [X|X]; [discriminate X|exact X].
Qed.
Lemma more_selected u st st' es lt lt' : (forall c, In c lt -> In c lt') -> (forall c, In c lt' -> In c (t_courses st')) -> more_classes st st' ->
  (forall k c, dget (forced_courses es (t_courses st)) k = Some c -> In c lt /\ c_clbid c = k) ->
  more (limited_ctx u st es lt) (limited_ctx u st' es lt').
Proof.
  intros IN SUB [_ ID] FK.
  assert (LK : forall k c, lookup_clbid lt k = Some c -> lookup_clbid lt' k = Some c).
  { intros k c H. unfold lookup_clbid in *. apply find_some in H. destruct H as [I E]. apply in_rev in I. apply String.eqb_eq in E.
    destruct (find (fun c0 => String.eqb (c_clbid c0) k) (rev lt')) as [d|] eqn:F.
    - apply find_some in F. destruct F as [J E']. apply in_rev in J. apply String.eqb_eq in E'. f_equal. apply ID; auto. congruence.
    - assert (X := find_none _ _ F c (proj1 (in_rev _ _) (IN c I))). cbn in X. rewrite E, String.eqb_refl in X. discriminate. }
  split; [exact IN|]. split; [exact LK|]. intros k c H. unfold forced_by_clbid, find_by_clbid, limited_ctx, with_transcript in *. cbn [cx_transcript cx_forced] in *.
  destruct (lookup_clbid lt k) as [d|] eqn:E; [injection H as <-; rewrite (LK _ _ E); reflexivity|].
  destruct (dget (forced_courses es (t_courses st)) k) as [d|] eqn:D; [|discriminate]. exfalso. destruct (FK k d D) as [I E1].
  unfold lookup_clbid in E. assert (X := find_none _ _ E d (proj1 (in_rev _ _) I)). cbn in X. rewrite E1, String.eqb_refl in X. discriminate.
Qed.
(** no class takes credits away *)
Definition pays (st : student) : Prop := forall c, In c (t_courses st) \/ In c (t_failed st) -> (0 <= dval (c_credits c))%Q.
(** With limits the area stays passed as well, if no class under a credit limit is under another
    limit and each of them is worth something: whatever selection of the classes
    passed it, some selection of the further ones does. *)
Theorem more_classes_do_not_hurt_under_limits :
  forall ord nord u st st' es i items, (forall x, Permutation (nord x) x) -> set_order ord -> u_kind u <> "major"%string -> course_area u es i items ->
  limits_apart (forced_clbids es) (u_limit u) (t_courses st') -> clear_queries (limited_ctx u st' es (t_courses st')) (u_result u) -> more_classes st st' -> subseq (t_failed st) (t_failed st') -> pays st' ->
  (forall lt, In lt (g_items (transcripts ord u st es)) -> fair (limited_ctx u st es lt) es items) ->
  (forall lt, In lt (g_items (transcripts ord u st' es)) -> fair (limited_ctx u st' es lt) es items) ->
  g_exn (area_solutions ord nord u st es) = None -> g_exn (area_solutions ord nord u st' es) = None ->
  passed ord nord u st es -> passed ord nord u st' es.
Proof.
  intros ord nord u st st' es i items NO SO NM CA CL' CQ MO SF PY FA FA' GE GE' P.
  assert (CL : limits_apart (forced_clbids es) (u_limit u) (t_courses st)) by (exact (fewer_apart _ _ _ _ (proj1 MO) CL')).
  assert (SUB : forall s lt, limits_apart (forced_clbids es) (u_limit u) (t_courses s) -> In lt (g_items (transcripts ord u s es)) -> forall c, In c lt -> In c (t_courses s)).
  { intros s lt LA I. apply (limits_only_remove_limited_courses ord _ _ _ lt SO (distinct_coherent _ (la_distinct _ _ _ LA)) (la_some _ _ _ LA) I). }
  assert (DE : forall lt, In lt (g_items (transcripts ord u st es)) -> no_debts (limited_ctx u st es lt) (u_result u)).
  { intros lt IL k q c _ I. apply PY. unfold query_courses in I. destruct (q_failed_too q); cbn [limited_ctx with_transcript cx_failed cx_transcript] in I;
      [right; eapply subseq_in; [exact SF|exact I]|left; apply (proj1 MO); eapply SUB; eassumption]. }
  assert (DE' : forall lt, In lt (g_items (transcripts ord u st' es)) -> no_debts (limited_ctx u st' es lt) (u_result u)).
  { intros lt IL k q c _ I. apply PY. unfold query_courses in I. destruct (q_failed_too q); cbn [limited_ctx with_transcript cx_failed cx_transcript] in I;
      [right; exact I|left; eapply SUB; eassumption]. }
  assert (P1 : can_be_passed ord u st es) by (apply (passed_if_it_can_be ord nord u st es i items NO SO NM CA); auto).
  apply (passed_if_it_can_be ord nord u st' es i items NO SO NM CA); [auto|exact GE'|].
  destruct CA as [UR [OR [OC [MC [W CNT]]]]]. destruct P1 as [i0 [items0 [lt [UR0 [_ [IL [_ AM]]]]]]]. rewrite UR in UR0. injection UR0 as <- <-.
  destruct (a_selection_grows ord u st st' es lt SO CL' MO IL) as [lt' [IL' SS]].
  exists i, items, lt'. split; [exact UR|]. split; [exact OR|]. split; [exact IL'|]. cbv zeta. split; [apply FA', IL'|].
  assert (M : more (limited_ctx u st es lt) (limited_ctx u st' es lt')).
  { apply more_selected; auto; [intros c I; eapply subseq_in; eassumption|apply (SUB st' lt' CL' IL')|]. intros k c. apply (forced_kept ord u st es lt c k SO CL IL). }
  assert (IO : in_order (limited_ctx u st es lt) (limited_ctx u st' es lt') (u_result u))
    by (intros k q PQ; split; [unfold query_courses; destruct (q_failed_too q); assumption|]; destruct (CQ k q PQ) as [H|H]; [auto|right; right; eapply limits_filter; [|exact H]];
        intros c; unfold query_courses; destruct (q_failed_too q); cbn [limited_ctx with_transcript cx_transcript cx_failed]; [auto|apply (SUB st' lt' CL' IL')]).
  specialize (DE' lt' IL'). specialize (FA' lt' IL').
  rewrite UR in OR, OC, IO, DE'. destruct AM as [_ [NA [_ [NE [a [ME ND]]]]]]. split; [exact W|]. split; [exact NA|]. split; [exact CNT|]. split; [exact NE|].
  exists a. split; [|exact ND]. intros c I. destruct (ME c I) as [PR [_ MT]]. assert (OCc := of_courses_item _ _ _ _ _ OC I). assert (IOc := in_order_item _ _ _ _ _ _ IO I). assert (DEc := no_debts_item _ _ _ _ _ DE' I). assert (Y := proj1 (orderly_item _ _ _ _ OR I)).
  split; [eapply promising_more; eauto|]. split; [apply courses_listable; auto; apply FA', I|]. apply (meets_more ord (limited_ctx u st es lt)); auto.
Qed.
Print Assumptions more_classes_do_not_hurt_under_limits.

(** At most one of A 1 and B 1 counts, and at most ten credits of F. With B 1 the area is passed; with A 1 as well it is not
    that both count, but it is still passed. *)
Open Scope string_scope.
Definition limited_pick : aspec :=
  mkAspec (Some "Sample") (Some "concentration") (Some "B.A.") (Some "100") [] (Some (d_all [d_any [d_course "A 1"; d_course "B 1"]; d_course "C 1"; d_course "D 1"])) None
    (Some [mkRawLimit (Some (LStr "1 course")) None None (Some (WKeys [("subject", mkClause [(OIn, VT [SStr "A"; SStr "B"])] None)])) None false;
      mkRawLimit (Some (LStr "10 credits")) None None (Some (WKeys [("subject", mkClause [(OEq, VS (SStr "F"))] None)])) None false]) [] false.
Definition tried (s : student) (u : study) : list (list string) := map (map c_clbid) (g_items (transcripts same u s [])).
Lemma limited_pick_loaded : exists u i items, load_area sample_const [] student_five [] false limited_pick = Ok u /\ load_area sample_const [] student_six [] false limited_pick = Ok u /\
  u_kind u = "concentration" /\ course_area u [] i items /\ limits_apart [] (u_limit u) (t_courses student_six) /\ forallb (all_parts plain_check) items = true /\
  tried student_five u = [["3"; "4"; "5"; "6"]; ["2"; "3"; "4"; "5"; "6"]] /\
  tried student_six u = [["3"; "4"; "5"; "6"]; ["1"; "3"; "4"; "5"; "6"]; ["2"; "3"; "4"; "5"; "6"]] /\
  g_exn (area_solutions same keep u student_five []) = None /\ g_exn (area_solutions same keep u student_six []) = None.
Proof.
  destruct (load_area sample_const [] student_five [] false limited_pick) as [u|] eqn:L; [|vm_compute in L; discriminate].
  vm_compute in L. injection L as <-. eexists _, _, _. split; [reflexivity|]. split; [vm_compute; reflexivity|]. split; [reflexivity|]. split; [split; [reflexivity|]|].
  { match goal with |- orderly ?x /\ _ => assert (C : all_parts plain_check x = true) by (vm_compute; reflexivity); destruct (checked _ C) as [OC [RT [Y [UN _]]]] end.
    split; [split; [exact Y|split; [exact RT|]]|].
    - intros k i items P. cbn [u_result] in P. parts; (split; [repeat constructor; cbn; intuition discriminate|repeat (apply Forall_cons || apply Forall_nil); repeat first [left; exists 0%nat; vm_compute; reflexivity|left; exists 1%nat; vm_compute; reflexivity|left; exists 2%nat; vm_compute; reflexivity|right; intros t D; discriminate]]).
    - split; [exact OC|]. split; [reflexivity|]. split; [apply no_waiver|reflexivity]. }
  split.
  { constructor.
    - discriminate.
    - repeat constructor; simpl; intuition congruence.
    - intros l [<-|[<-|[]]]; [left; split; [reflexivity|exists 1%nat; reflexivity]|right; split; [reflexivity|vm_compute; discriminate]].
    - intros l c [<-|[<-|[]]] I _; cbn [t_courses student_six enrolled picked_five In] in I; repeat (destruct I as [<-|I]; [eexists; vm_compute; reflexivity|]); destruct I.
    - intros l l' c [<-|[<-|[]]] [<-|[<-|[]]] W [I [_ M]] [_ [_ M']]; try reflexivity; try discriminate. cbn [t_courses student_six enrolled picked_five In] in I. repeat (destruct I as [<-|I]; [vm_compute in M, M'; discriminate|]). destruct I.
    - intros l c [<-|[<-|[]]] W [I [_ M]]; try discriminate. cbn [t_courses student_six enrolled picked_five In] in I. repeat (destruct I as [<-|I]; [vm_compute; reflexivity|]). destruct I. }
  split; [vm_compute; reflexivity|]. split; [vm_compute; reflexivity|]. split; [vm_compute; reflexivity|]. split; vm_compute; reflexivity.
Qed.
Example limited_more_classes_example :
  statuses limited_pick student_five [] = [Some (NeedsMoreItems, [Empty; Done; Done]); Some (Done, [Done; Done; Done])] /\
  statuses limited_pick student_six [] = [Some (NeedsMoreItems, [Empty; Done; Done]); Some (Done, [Done; Done; Done]); Some (Done, [Done; Done; Done])] /\
  exists u i items, load_area sample_const [] student_six [] false limited_pick = Ok u /\ u_kind u <> "major" /\ course_area u [] i items /\ limits_apart [] (u_limit u) (t_courses student_six) /\
    clear_queries (limited_ctx u student_six [] (t_courses student_six)) (u_result u) /\ more_classes student_five student_six /\ subseq (t_failed student_five) (t_failed student_six) /\ pays student_six /\
    (forall lt, In lt (g_items (transcripts same u student_five [])) -> fair (limited_ctx u student_five [] lt) [] items) /\
    (forall lt, In lt (g_items (transcripts same u student_six [])) -> fair (limited_ctx u student_six [] lt) [] items) /\
    g_exn (area_solutions same keep u student_five []) = None /\ g_exn (area_solutions same keep u student_six []) = None /\
    passed same keep u student_five [].
Proof.
  split; [vm_compute; reflexivity|]. split; [vm_compute; reflexivity|]. destruct limited_pick_loaded as [u [i [items [L5 [L6 [K [CA [CL [C [_ [_ [G5 G6]]]]]]]]]]]].
  exists u, i, items. split; [exact L6|]. split; [rewrite K; discriminate|]. split; [exact CA|]. split; [exact CL|]. split.
  { intros k q P. exfalso. rewrite (proj1 CA) in P. inversion P; subst. match goal with IX : In ?x items, PX : part_of ?x _ |- _ => exact (no_queries x (proj1 (forallb_forall _ _) C x IX) k q PX) end. }
  split; [exact six_classes|]. split; [apply ss_drop; repeat apply ss_keep; apply ss_nil|]. split; [|split; [|split; [|split; [exact G5|split; [exact G6|]]]]].
  - intros c H. assert (I : In c (t_courses student_six)) by (destruct H; assumption). clear H. cbn [t_courses student_six enrolled picked_five In] in I. repeat (destruct I as [<-|I]; [vm_compute; discriminate|]). destruct I.
  - intros lt I. apply checked_fair; [reflexivity|exact C|]. assert (NE := la_some _ _ _ CL). assert (DI := la_distinct _ _ _ CL). assert (SUB := limits_only_remove_limited_courses same _ _ _ lt (fun l => Permutation_refl l) (distinct_coherent _ DI) NE I).
    intros c d Ic Id. apply (proj2 six_classes); apply (proj1 six_classes); apply SUB; assumption.
  - intros lt I. apply checked_fair; [reflexivity|exact C|]. assert (NE := la_some _ _ _ CL). assert (DI := la_distinct _ _ _ CL). assert (SUB := limits_only_remove_limited_courses same _ _ _ lt (fun l => Permutation_refl l) (distinct_coherent _ DI) NE I).
    intros c d Ic Id. apply (proj2 six_classes); apply SUB; assumption.
  - apply found_complete. vm_compute in L5. injection L5 as <-. vm_compute. reflexivity.
Qed.

(** A class worth no credits can hurt: at most one credit of A and B counts. The student has
    taken A 1 and passes; then they take B 1, a laboratory without credits, and there is no
    selection left to try, so that the area has no result at all. *)
Definition credit_pick : aspec :=
  mkAspec (Some "Sample") (Some "concentration") (Some "B.A.") (Some "100") [] (Some (d_all [d_course "A 1"; d_course "C 1"])) None
    (Some [mkRawLimit (Some (LStr "1 credit")) None None (Some (WKeys [("subject", mkClause [(OIn, VT [SStr "A"; SStr "B"])] None)])) None false]) [] false.
Definition with_credit : list course := [CommonProps.taken "1" "A" (dec_of_Z 1) GA GoGrade false; CommonProps.taken "3" "C" (dec_of_Z 1) GA GoGrade false].
Definition laboratory : course := CommonProps.taken "2" "B" (dec_of_Z 0) GA GoGrade false.
Definition before_lab : student := enrolled [pointer AkMajor "100"] with_credit.
Definition after_lab : student := enrolled [pointer AkMajor "100"] (with_credit ++ [laboratory]).
Theorem more_classes_never_hurt_under_limits_refuted : exists ord nord a st st' u i items, set_order ord /\ (forall x, Permutation (nord x) x) /\
  load_area sample_const [] st [] false a = Ok u /\ load_area sample_const [] st' [] false a = Ok u /\
  u_kind u <> "major" /\ course_area u [] i items /\ distinct (u_limit u) /\ more_classes st st' /\ subseq (t_failed st) (t_failed st') /\ pays st' /\
  passed ord nord u st [] /\ area_solutions ord nord u st' [] = gnil.
Proof.
  destruct (load_area sample_const [] before_lab [] false credit_pick) as [u|] eqn:L; [|vm_compute in L; discriminate].
  exists same, keep, credit_pick, before_lab, after_lab, u. assert (L0 := L). vm_compute in L. injection L as <-. eexists _, _.
  split; [intro; reflexivity|]. split; [intro; apply Permutation_refl|]. split; [exact L0|]. split; [vm_compute; reflexivity|]. split; [discriminate|]. split; [split; [reflexivity|]|].
  { match goal with |- orderly ?x /\ _ => assert (C : all_parts plain_check x = true) by (vm_compute; reflexivity); destruct (checked _ C) as [OC [RT [Y [UN _]]]] end.
    split; [split; [exact Y|split; [exact RT|]]|].
    - intros k i items P. cbn [u_result] in P. parts; (split; [repeat constructor; cbn; intuition discriminate|repeat (apply Forall_cons || apply Forall_nil); repeat first [left; exists 0%nat; vm_compute; reflexivity|left; exists 1%nat; vm_compute; reflexivity|left; exists 2%nat; vm_compute; reflexivity|right; intros t D; discriminate]]).
    - split; [exact OC|]. split; [reflexivity|]. split; [apply no_waiver|reflexivity]. }
  split; [repeat constructor; simpl; intuition congruence|]. split.
  { split; [intros c I; apply in_or_app; auto|]. intros c d I J E. cbn [t_courses after_lab enrolled with_credit app In] in I, J.
    repeat (destruct I as [<-|I]; [repeat (destruct J as [<-|J]; [first [reflexivity|discriminate E]|]); destruct J|]). destruct I. }
  split; [apply ss_keep, ss_keep, ss_drop, ss_nil|]. split.
  { intros c H. assert (I : In c (t_courses after_lab)) by (destruct H; assumption). clear H. cbn [t_courses after_lab enrolled with_credit app In] in I. repeat (destruct I as [<-|I]; [vm_compute; discriminate|]). destruct I. }
  split; [apply found_complete; vm_compute; reflexivity|vm_compute; reflexivity].
Qed.
Print Assumptions more_classes_never_hurt_under_limits_refuted.
