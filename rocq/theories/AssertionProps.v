(** Property theorems about assertions (C26, C27, C28, C30, C31, C67). *)
From Coq Require Import List ZArith QArith Bool String Lia Lqa Permutation.
From Verif Require Import Prelude Dec Status Course Exceptions Op Context CondExpr Predicate Apply Assertion.
From Verif Require Import ListFacts TranscriptSpec CondExprSpec CondExprProofs PredicateSpec PredicateProofs AssertionSpec
  LimitProofs ExceptionsProofs ApplyProofs AssertionProofs.
Import ListNotations.
Local Open Scope string_scope.
Local Open Scope list_scope.
Local Open Scope Q_scope.

(** ** C27 *)
(** Every course key computes the quantity it is named after, and says which courses it
    came from. *)
Theorem keys_measure_quantities :
  forall k cs r, apply_courses k cs cs = Ok r ->
  measures k cs (ap_value r) /\ forall c, In c (ap_courses r) <-> contributes k cs c.
Proof. exact apply_spec. Qed.
Print Assumptions keys_measure_quantities.

(** ... and that is a number, not a choice: [measures] is single-valued. *)
Theorem quantity_is_determined :
  forall k cs q q', measures k cs q -> measures k cs q' -> q == q'.
Proof. exact measures_fun. Qed.
Print Assumptions quantity_is_determined.

(** Every course key is computed for every list of courses. *)
Theorem every_key_is_computed :
  forall k cs, (exists r, apply_courses k cs cs = Ok r) <-> In k course_actions.
Proof. intros k cs. split; [intros [r H]; eapply apply_action; eauto|apply apply_total]. Qed.
Print Assumptions every_key_is_computed.

(** The order of the courses does not matter (except for the two most-common keys). *)
Theorem quantities_ignore_order :
  forall k a b ra rb, k <> KTermsMostCommon -> k <> KTermsMostCommonName -> Permutation a b ->
  apply_courses k a a = Ok ra -> apply_courses k b b = Ok rb -> ap_value ra == ap_value rb.
Proof.
  intros k a b ra rb K1 K2 P A B. apply apply_spec in A, B. apply (measures_fun k b); [|tauto].
  apply (measures_perm k a b); try tauto. intros [T|T]; contradiction.
Qed.
Print Assumptions quantities_ignore_order.

(** a course with chosen identity, term, credits and progress *)
Definition a_course (clbid crsid term : string) (credits : Z) (ip this future : bool) : course :=
  let m := mk_simple clbid crsid "101" in
  {| c_clbid := clbid; c_attributes := []; c_credits := mkDec (credits * 100) (-2); c_crsid := crsid; c_course_type := CtSemester;
     c_gereqs := []; c_gpa_points := c_gpa_points m; c_grade_code := GB; c_grade_option := GoGrade;
     c_grade_points := c_grade_points m; c_institution := "STOLAF"; c_in_gpa := true; c_in_progress := ip;
     c_ip_this_term := this; c_ip_in_future := future; c_incomplete := false; c_repeat := false; c_stolaf := true;
     c_lab := false; c_covid := false; c_level := 100; c_name := crsid; c_number := "101"; c_schedid := None;
     c_section := None; c_sub_type := StNormal; c_subject := crsid; c_su_grade := None; c_term := "1";
     c_transcript_code := TcEmpty; c_year := 2000; c_yearterm := term; c_identity := String.append crsid " 101"; c_chbi := None |}.

(** With a tie for the most common course, the order of the courses decides: course "X"
    was taken twice in one term, "Y" twice in two terms. *)
Theorem most_common_ignores_order_refuted :
  exists a b ra rb, Permutation a b /\ apply_courses KTermsMostCommon a a = Ok ra /\
    apply_courses KTermsMostCommon b b = Ok rb /\ ap_value ra == 1 /\ ap_value rb == 2.
Proof.
  set (x1 := a_course "1" "X" "20001" 1 false false false). set (x2 := a_course "2" "X" "20001" 1 false false false).
  set (y1 := a_course "3" "Y" "20001" 1 false false false). set (y2 := a_course "4" "Y" "20003" 1 false false false).
  exists ([x1; x2] ++ [y1; y2]), ([y1; y2] ++ [x1; x2]). do 2 eexists. split; [apply Permutation_app_comm|].
  split; [reflexivity|]. split; [reflexivity|]. split; reflexivity.
Qed.
Print Assumptions most_common_ignores_order_refuted.

Lemma how_many_le {A} (P : A -> Prop) (f : course -> A) cs q : (forall x, P x -> exists c, In c cs /\ f c = x) ->
  how_many P q -> 0 <= q /\ q <= inject_Z (Z.of_nat (List.length cs)).
Proof.
  intros H [l [N [I E]]]. rewrite E. split.
  - change 0 with (inject_Z 0). rewrite <- Zle_Qle. lia.
  - rewrite <- Zle_Qle. rewrite <- (map_length f cs). apply inj_le. apply NoDup_incl_length; auto.
    intros x Hx. apply I in Hx. destruct (H x Hx) as [c [A1 A2]]. apply in_map_iff. exists c. auto.
Qed.
(** Counts are between 0 and the number of courses. *)
Theorem counts_are_bounded :
  forall k cs r, In k [KCourses; KDistinctCourses; KTerms; KYears; KSubjects] -> apply_courses k cs cs = Ok r ->
  0 <= ap_value r /\ ap_value r <= inject_Z (Z.of_nat (List.length cs)).
Proof.
  intros k cs r K H. apply apply_spec in H. destruct H as [M _].
  simpl in K. destruct K as [<-|[<-|[<-|[<-|[<-|[]]]]]]; cbn [measures] in M.
  - apply (how_many_le _ (fun c => c) cs _) in M; auto. intros x I. exists x. auto.
  - apply (how_many_le _ c_crsid cs _) in M; auto.
  - apply (how_many_le _ c_yearterm cs _) in M; auto.
  - apply (how_many_le _ c_year cs _) in M; auto.
  - apply (how_many_le _ split_subject cs _) in M; auto. intros x [c [I D]]. exists c. split; auto. apply split_subject_iff; auto.
Qed.
Print Assumptions counts_are_bounded.

Example quantities_example :
  let a := a_course "1" "X" "20001" 1 false false false in let b := a_course "2" "Y" "20001" 2 true true false in
  (exists r, apply_courses KCourses [a; b; a] [a; b; a] = Ok r /\ ap_value r == 2) /\
  (exists r, apply_courses KTerms [a; b; a] [a; b; a] = Ok r /\ ap_value r == 1) /\
  (exists r, apply_courses KSumCredits [a; b] [a; b] = Ok r /\ ap_value r == 3) /\
  (exists r, apply_courses KSumSingleSubject [a; b] [a; b] = Ok r /\ ap_value r == 2 /\ ap_courses r = [b]) /\
  measures KSumCredits [a; b] 3.
Proof.
  cbv zeta. repeat split; try (eexists; split; [reflexivity|]; reflexivity).
  eexists. split; [reflexivity|]. split; reflexivity.
Qed.

(** ** C26 *)
(** For every course key: the status passes exactly when the comparison holds on all given
    courses; otherwise it tells an invariant broken, something there, or nothing there. *)
Theorem passing_iff_comparison_holds :
  forall a cs s r, evaluate_with_courses a cs = Ok (s, r) ->
  measures (as_key a) cs (ap_value r) /\
  (In s passing_statuses <-> meets (as_op a) (ap_value r) (dval (as_expected a))) /\
  (~ meets (as_op a) (ap_value r) (dval (as_expected a)) -> short_status (as_op a) (ap_value r) (dval (as_expected a)) s).
Proof.
  intros a cs s r H. destruct (eval_courses_cases _ _ _ _ H) as [_ [[M _] D]]. split; auto. destruct D as [[N ->]|[Y [again [_ [_ [S1 S2]]]]]].
  - split; [|intros _; apply unmet_spec]. split; [intro F; exfalso; eapply unmet_not_passing; eauto|tauto].
  - split; [|tauto]. split; auto. intros _.
    destruct (as_ip_pass a) eqn:T; [rewrite S1; auto; simpl; tauto|]. destruct again; [rewrite S1; auto; simpl; tauto|].
    destruct (S2 eq_refl eq_refl) as [_ [[-> _]|[-> _]]]; simpl; tauto.
Qed.
Print Assumptions passing_iff_comparison_holds.

(** Apart from the two most-common keys: it is done exactly when, besides, the finished
    courses alone suffice or in-progress courses count as passed; otherwise it is pending,
    for a future term when a contributing course is in one. *)
Theorem done_iff_finished_courses_suffice :
  forall a cs s r, as_key a <> KTermsMostCommon -> as_key a <> KTermsMostCommonName ->
  (as_key a = KSumSingleSubject -> forall c, In c cs -> 0 <= dval (c_credits c)) ->
  evaluate_with_courses a cs = Ok (s, r) ->
  meets (as_op a) (ap_value r) (dval (as_expected a)) ->
  (s = Done <-> as_ip_pass a = true \/
                exists w, measures (as_key a) (finished cs) w /\ meets (as_op a) w (dval (as_expected a))) /\
  (s = PendingRegistered <-> s <> Done /\ exists c, contributes (as_key a) cs c /\ c_ip_in_future c = true) /\
  (s = PendingCurrent <-> s <> Done /\ forall c, contributes (as_key a) cs c -> c_ip_in_future c = false) /\
  (s <> Done -> exists c, contributes (as_key a) cs c /\ c_in_progress c = true).
Proof.
  intros a cs s r K1 K2 NN H Y. assert (T : ~ twice_read (as_key a)) by (intros [F|F]; contradiction).
  destruct (eval_courses_cases _ _ _ _ H) as [E [[M C] D]]. destruct D as [[N _]|[_ [again [A1 [A2 [S1 S2]]]]]]; [contradiction|].
  assert (AG : again = true <-> exists w, measures (as_key a) (finished cs) w /\ meets (as_op a) w (dval (as_expected a))).
  { destruct (existsb c_in_progress (ap_courses r)) eqn:IP.
    - apply (exists_iff _ _ _ C) in IP. destruct (A1 IP) as [r' [E' B]]. rewrite B.
      destruct (apply_total (as_key a) (finished cs) (finished cs) (apply_action _ _ _ _ E)) as [r2 E2].
      assert (V := second_irrelevant _ _ _ _ _ _ T E' E2). destruct (apply_spec _ _ _ E2) as [M2 _]. split.
      + intro MT. exists (ap_value r2). rewrite V in MT. auto.
      + intros [w [Mw MT]]. rewrite V. eapply meets_ext; [|reflexivity|exact MT]. eapply measures_fun; eauto.
    - assert (IP' := proj1 (exists_no _ _ _ C) IP). split; [|intros _; apply A2, IP']. intros _.
      exists (ap_value r). split; auto. apply measures_finished; auto. }
  rewrite <- AG. destruct (as_ip_pass a) eqn:TP.
  - rewrite S1; auto. repeat split; auto; intros; try discriminate; intuition congruence.
  - destruct again.
    + rewrite S1; auto. repeat split; auto; intros; try discriminate; intuition congruence.
    + destruct (S2 eq_refl eq_refl) as [IP [[-> [c [Cc F]]]|[-> NF]]].
      * split; [intuition discriminate|]. split; [|split; [|auto]].
        -- split; [intros _; split; [discriminate|eauto]|auto].
        -- split; [discriminate|]. intros [_ G]. rewrite (G c Cc) in F. discriminate.
      * split; [intuition discriminate|]. split; [|split; [|auto]].
        -- split; [discriminate|]. intros [_ [c [Cc F]]]. rewrite (NF c Cc) in F. discriminate.
        -- split; [intros _; split; [discriminate|auto]|auto].
Qed.
Print Assumptions done_iff_finished_courses_suffice.

(** The evaluation succeeds. *)
Theorem evaluation_succeeds :
  forall a cs, In (as_key a) course_actions -> numeric (as_op a) ->
  (forall c, In c cs -> c_in_progress c = true -> c_ip_this_term c = true \/ c_ip_in_future c = true \/ c_incomplete c = true) ->
  exists s r, evaluate_with_courses a cs = Ok (s, r).
Proof. exact eval_courses_total. Qed.
Print Assumptions evaluation_succeeds.

Definition plain (k : akey) (op : operator) (e : Z) (ip_pass : bool) : assertion :=
  mkAs ["$"; ".assert"] Empty DtCourse None k op (mkDec e 0) None [] false None None ip_pass false false None None None None.

(** The two most-common keys read the finished courses through a generator that is already
    used up: two finished terms of the course suffice, the status is still pending. *)
Theorem most_common_done_refuted :
  exists a cs s r w, as_key a = KTermsMostCommon /\ evaluate_with_courses a cs = Ok (s, r) /\
    meets (as_op a) (ap_value r) (dval (as_expected a)) /\
    measures (as_key a) (finished cs) w /\ meets (as_op a) w (dval (as_expected a)) /\ s = PendingCurrent.
Proof.
  set (cs := [a_course "1" "X" "20001" 1 false false false; a_course "2" "X" "20003" 1 false false false; a_course "3" "X" "20011" 1 true true false]).
  assert (F : exists r, apply_courses KTermsMostCommon (finished cs) (finished cs) = Ok r /\ ap_value r = 2) by (eexists; split; reflexivity).
  destruct F as [r' [F V]].
  exists (plain KTermsMostCommon OGte 2 false), cs. do 2 eexists. exists 2. split; [reflexivity|]. split; [reflexivity|].
  split; [discriminate|]. split; [|split; [discriminate|reflexivity]].
  change (as_key (plain KTermsMostCommon OGte 2 false)) with KTermsMostCommon. rewrite <- V. apply (apply_spec _ _ _ F).
Qed.
Print Assumptions most_common_done_refuted.

Example assertion_status_example :
  let cs := [a_course "1" "X" "20001" 1 false false false; a_course "2" "Y" "20003" 1 true true false] in
  let status_of k op e t cs := match evaluate_with_courses (plain k op e t) cs with Ok (s, _) => Some s | Err _ => None end in
  status_of KCourses OGte 1%Z false cs = Some Done /\ status_of KCourses OGte 2%Z false cs = Some PendingCurrent /\
  status_of KCourses OGte 2%Z true cs = Some Done /\ status_of KCourses OGte 3%Z false cs = Some NeedsMoreItems /\
  status_of KSumCredits OLt 2%Z false cs = Some FailedInvariant /\
  status_of KSumCredits OGte 2%Z false [a_course "1" "X" "20001" 2 true false true] = Some PendingRegistered.
Proof. cbv zeta. repeat split. Qed.

(** ** C67 *)
(** Auditing a course assertion: the courses measured are the given ones that pass the
    "where", and the inserted ones, without the blocked ones; what is recorded is the
    quantity, the courses and the status for exactly those; the definition is kept. *)
Theorem audited_assertion_measures :
  forall cx l data a r, cx_exc cx = group_exceptions l -> as_overridden a = false -> as_type a = DtCourse ->
  audit_assertion cx (map ICourse data) a = Ok r ->
  exists cs,
    (forall c, In c cs -> (In c data /\ passes_where (as_where a) (ICourse c)) \/ added cx l (as_path a) c) /\
    (forall c, (In c data /\ passes_where (as_where a) (ICourse c)) \/ added cx l (as_path a) c -> ~ blocked cx l (as_path a) c -> In c cs) /\
    (NoDup data -> (forall c, added cx l (as_path a) c -> ~ In c data) ->
       inserts_distinct cx l (as_path a) ->
       NoDup cs /\ forall c, blocked cx l (as_path a) c -> ~ In c cs) /\
    (exists calc, evaluate_with_courses a cs = Ok (as_state r, calc) /\ as_resolved r = Some (ap_value calc) /\
       as_clbids r = Some (map c_clbid (ap_courses calc))) /\
    (exists ins, as_inserted r = Some ins /\ forall k, In k ins <-> exists c, added cx l (as_path a) c /\ c_clbid c = k) /\
    as_path r = as_path a /\ as_type r = as_type a /\ as_where r = as_where a /\ as_key r = as_key a /\ as_op r = as_op a /\
    as_expected r = as_expected a /\ as_at_most r = as_at_most a /\ as_ip_pass r = as_ip_pass a /\ as_overridden r = false /\
    as_evaluated r = true.
Proof.
  intros cx l data a r EX O T H. destruct (audit_assertion_inv cx l _ a r EX O H) as [fl [kept [s [calc [FE [B [E ->]]]]]]].
  unfold evaluate_items in E. rewrite T in E. destruct (mapr as_course kept) as [cs|] eqn:MC; cbn [bind] in E; [|discriminate].
  apply as_courses in MC. subst kept. exists cs.
  assert (FI : forall c, In (ICourse c) fl <-> In c data /\ passes_where (as_where a) (ICourse c)).
  { intro c. subst fl. rewrite filter_In. unfold passes_where. assert (IM : In (ICourse c) (map ICourse data) <-> In c data).
    { rewrite in_map_iff. split; [intros [c' [Q I]]; injection Q as ->; auto|eauto]. }
    rewrite IM. destruct (as_where a) as [w|]; [|tauto]. destruct (apply_pred (ICourse c) w) as [b|]; [|intuition discriminate].
    split; intros [I W]; split; auto; congruence. }
  assert (IC : forall c L, In (ICourse c) (map ICourse L) <-> In c L).
  { intros c L. rewrite in_map_iff. split; [intros [c' [Q I]]; injection Q as ->; auto|eauto]. }
  destruct (block_items_spec _ _ _ _ B) as [B1 [B2 B3]].
  assert (INS := fun c => inserts_added cx l (as_path a) c). rewrite EX in *.
  repeat split; try assumption.
  - intros c I. apply IC in I. apply B1 in I. rewrite in_app_iff, FI, IC, INS in I. exact I.
  - intros c I NB. apply IC. apply B2. { rewrite in_app_iff, FI, IC, INS. exact I. }
    intros e c0 Ie F Q. injection Q as <-. apply NB. apply blocks_blocked. eauto.
  - assert (ND : NoDup (fl ++ map ICourse (inserted_list cx (get_inserts (group_exceptions l) (as_path a))))).
    { apply NoDup_app.
      - subst fl. apply NoDup_filter. apply FinFun.Injective_map_NoDup; auto. intros x y Q. injection Q as ->. auto.
      - apply FinFun.Injective_map_NoDup; [intros x y Q; injection Q as ->; auto|]. apply inserted_NoDup; auto.
      - intros x I1 I2. apply in_map_iff in I2. destruct I2 as [c [<- I2]]. apply INS in I2. apply FI in I1. apply (H1 c); tauto. }
    destruct (B3 ND) as [N _]. apply (NoDup_map_inv _ _ N).
  - assert (ND : NoDup (fl ++ map ICourse (inserted_list cx (get_inserts (group_exceptions l) (as_path a))))).
    { apply NoDup_app.
      - subst fl. apply NoDup_filter. apply FinFun.Injective_map_NoDup; auto. intros x y Q. injection Q as ->. auto.
      - apply FinFun.Injective_map_NoDup; [intros x y Q; injection Q as ->; auto|]. apply inserted_NoDup; auto.
      - intros x I1 I2. apply in_map_iff in I2. destruct I2 as [c0 [<- I2]]. apply INS in I2. apply FI in I1. apply (H1 c0); tauto. }
    destruct (B3 ND) as [_ N]. intros c Bl I. apply blocks_blocked in Bl. destruct Bl as [e [Ie F]]. apply (N e c Ie F). apply IC. exact I.
  - exists calc. auto.
  - eexists. split; [reflexivity|]. intro k. rewrite in_map_iff. split; intros [c [A1 A2]].
    + exists c. apply INS in A2. auto.
    + exists c. split; auto. apply INS. auto.
Qed.
Print Assumptions audited_assertion_measures.

(** Assertions over areas and music data: done exactly when the comparison holds. *)
Theorem other_items_done_iff_comparison_holds :
  forall a data s r, as_type a <> DtCourse -> evaluate_items a data = Ok (s, r) ->
  (s = Done <-> meets (as_op a) (ap_value r) (dval (as_expected a))) /\
  (s <> Done -> short_status (as_op a) (ap_value r) (dval (as_expected a)) s) /\
  (as_type a = DtArea -> exists areas, data = map IArea areas /\
     how_many (fun code => exists x, In x areas /\ a_code x = code) (ap_value r)) /\
  (as_type a <> DtArea -> as_key a = KItems -> how_many (fun x => In x data) (ap_value r)).
Proof.
  intros a data s r T H.
  assert (P : forall x, evaluate_plain a x = Ok (s, r) -> x = Ok r /\ (s = Done <-> meets (as_op a) (ap_value r) (dval (as_expected a))) /\
    (s <> Done -> short_status (as_op a) (ap_value r) (dval (as_expected a)) s)).
  { intros x E. unfold evaluate_plain in E. destruct x as [calc|]; cbn [bind] in E; [|discriminate].
    destruct (compare_num _ _ _) as [b|] eqn:B; cbn [bind] in E; [|discriminate]. apply compare_num_spec in B. injection E as <- <-.
    split; auto. destruct b.
    - split; [|congruence]. tauto.
    - split; [|intros _; apply unmet_spec]. split.
      + intro F. exfalso. apply (unmet_not_passing (as_op a) (ap_value calc) (dval (as_expected a))). rewrite F. simpl. tauto.
      + intro F. apply B in F. discriminate. }
  unfold evaluate_items in H. destruct (as_type a) eqn:TA; [congruence| | |].
  - destruct (mapr as_area data) as [areas|] eqn:M; cbn [bind] in H; [|discriminate].
    assert (D : data = map IArea areas).
    { clear - M. revert areas M. induction data as [|x t IH]; intros areas M; cbn [mapr] in M; [injection M as <-; reflexivity|].
      destruct x; cbn [as_area bind] in M; try discriminate. destruct (mapr as_area t); cbn [bind] in M; [|discriminate]. injection M as <-. simpl. f_equal. auto. }
    destruct (P _ H) as [E [P1 P2]]. repeat split; try tauto; try congruence. intros _. exists areas. split; auto.
    unfold apply_areas in E. destruct (as_key a); try discriminate. injection E as <-. unfold counted. cbn [ap_value]. rewrite map_length.
    apply how_many_list; [apply dedup_NoDup; apply string_eqb_iff|]. intro x. rewrite (in_dedup String.eqb string_eqb_iff), in_map_iff. firstorder.
  - destruct (P _ H) as [E [P1 P2]]. repeat split; try tauto; try congruence. intros _ K. rewrite K in E. injection E as <-. cbn [ap_value].
    apply how_many_list; [apply dedup_NoDup, item_eqb_iff|]. intro x. apply (in_dedup item_eqb item_eqb_iff).
  - destruct (P _ H) as [E [P1 P2]]. repeat split; try tauto; try congruence. intros _ K. rewrite K in E. injection E as <-. cbn [ap_value].
    apply how_many_list; [apply dedup_NoDup, item_eqb_iff|]. intro x. apply (in_dedup item_eqb item_eqb_iff).
Qed.
Print Assumptions other_items_done_iff_comparison_holds.

(** ** C28 *)
(** Every size between 0 and the number of candidates that satisfies the comparison is
    tried, unless the assertion is cut off with at_most. *)
Theorem useful_sizes_are_tried :
  forall a e n k, dval (as_expected a) == inject_Z e -> numeric (as_op a) -> as_at_most a = false ->
  (0 <= k <= n)%Z -> size_meets (as_op a) k e ->
  In k (g_items (input_size_range a n)) /\ g_exn (input_size_range a n) = None.
Proof.
  intros a e n k E N AM K M. destruct (sizes_exact a e n k E N) as [X I]. split; auto. apply I.
  unfold size_meets, meets in M. destruct (as_op a); try (destruct N; congruence).
  - rewrite <- Zlt_Qlt in M. lia. - rewrite <- Zle_Qle in M. lia. - rewrite <- Zlt_Qlt in M. lia.
  - rewrite AM. rewrite <- Zle_Qle in M. lia.
  - rewrite inject_Z_injective in M. lia.
  - rewrite inject_Z_injective in M. lia.
Qed.
Print Assumptions useful_sizes_are_tried.

(** The exact set of sizes. *)
Theorem sizes_tried_are_exactly :
  forall a e n k, dval (as_expected a) == inject_Z e -> numeric (as_op a) -> (0 <= n)%Z -> (0 <= e)%Z ->
  (In k (g_items (input_size_range a n)) <->
   match as_op a with
   | OLt | OLte => (0 <= k)%Z /\ size_meets (as_op a) k e
   | ONeq => (0 <= k)%Z /\ size_meets ONeq k e /\ (k < e \/ k <= n)%Z
   | OEq => k = Z.min n e
   | OGt => ((n < e)%Z /\ k = n) \/ (n = e /\ k = e + 1)%Z \/ ((0 <= k <= n)%Z /\ size_meets OGt k e)
   | OGte => (as_at_most a = true /\ k = Z.min n e) \/
             (as_at_most a = false /\ (((n < e)%Z /\ k = n) \/ ((0 <= k <= n)%Z /\ size_meets OGte k e)))
   | OIn | ONin => False
   end).
Proof.
  intros a e n k E N Hn He. destruct (sizes_exact a e n k E N) as [X I]. rewrite I. unfold size_meets, meets.
  destruct (as_op a); try tauto.
  - rewrite <- Zlt_Qlt. lia. - rewrite <- Zle_Qle. lia. - rewrite <- Zlt_Qlt. lia.
  - rewrite <- Zle_Qle. destruct (as_at_most a); intuition (try discriminate; try lia).
  - rewrite inject_Z_injective. lia.
Qed.
Print Assumptions sizes_tried_are_exactly.

(** With $gte and $eq no tried size exceeds the number of candidates and some size is
    tried. *)
Theorem sizes_fit_for_gte_and_eq :
  forall a e n, dval (as_expected a) == inject_Z e -> as_op a = OGte \/ as_op a = OEq -> (0 <= n)%Z ->
  (exists k, In k (g_items (input_size_range a n))) /\ forall k, In k (g_items (input_size_range a n)) -> (k <= n)%Z.
Proof.
  intros a e n E O Hn. assert (N : numeric (as_op a)) by (split; destruct O as [->| ->]; discriminate). split.
  - exists (if (n <? e)%Z then n else e). apply (sizes_exact a e n _ E N).
    destruct O as [->| ->]; [destruct (as_at_most a)|]; destruct (Z.ltb_spec n e); lia.
  - intros k I. apply (sizes_exact a e n _ E N) in I.
    destruct O as [O|O]; rewrite O in I; [destruct (as_at_most a)|]; lia.
Qed.
Print Assumptions sizes_fit_for_gte_and_eq.

(** The general claim fails: $gt n over n candidates tries only a size that does not
    exist, $lt tries sizes beyond the candidates, $lt 0 tries none. *)
Theorem sizes_fit_refuted :
  g_items (input_size_range (plain KCourses OGt 3 false) 3) = [4%Z] /\
  g_items (input_size_range (plain KCourses OLt 4 false) 1) = [0; 1; 2; 3]%Z /\
  g_items (input_size_range (plain KCourses OLt 0 false) 3) = [].
Proof. repeat split. Qed.
Print Assumptions sizes_fit_refuted.

(** A threshold that is not a whole number stops the search. *)
Theorem fractional_threshold_fails :
  forall a n, (forall z, ~ dval (as_expected a) == inject_Z z) ->
  g_items (input_size_range a n) = [] /\ g_exn (input_size_range a n) = Some TypeErr.
Proof.
  intros a n H. unfold input_size_range. destruct (Qeqb _ _) eqn:E; [|split; reflexivity]. apply TranscriptProofs.Qeqb_iff in E. exfalso. eapply H; eauto.
Qed.
Print Assumptions fractional_threshold_fails.

Example sizes_example :
  g_items (input_size_range (plain KCourses OGte 2 false) 4) = [2; 3; 4]%Z /\ size_meets OGte 3 2 /\
  g_items (input_size_range (plain KCourses OGte 2 false) 1) = [1]%Z /\
  g_items (input_size_range (plain KCourses OEq 2 false) 4) = [2]%Z /\
  (forall z, ~ dval (mkDec 25 (-1)) == inject_Z z).
Proof. repeat split; try discriminate. intros z H. unfold Qeq in H. simpl in H. lia. Qed.

(** ** C30 *)
Definition number_of_value (x : exc) (d : dec) : Prop := ex_act x = AValue d.

Theorem threshold_is_as_changed :
  forall cx l c m p r a, cx_exc cx = group_exceptions l ->
  (forall name v x act, In (name, v) (rw_assert r) -> In (x, act) (av_changes v) -> static_ok x) ->
  load_single_assertion cx c m p r = Ok a ->
  exists v raw q,
    rw_assert r = [(akey_name (as_key a), v)] /\ In (as_key a) (actions_of m) /\
    av_ops v = [(as_op a, raw)] /\ numeric (as_op a) /\ written c raw q /\
    (none_at l (p ++ [".assert"]) value_kind -> adjusted cx (av_changes v) q (dval (as_expected a))) /\
    (forall x d, first_at l (p ++ [".assert"]) value_kind x -> ex_act x = AValue d -> as_expected a = d) /\
    (none_at l (p ++ [".assert"]) waive_kind -> as_overridden a = false /\ as_state a = Empty) /\
    (forall x, first_at l (p ++ [".assert"]) waive_kind x ->
       as_overridden a = true /\ as_state a = Waived /\ forall cx' data, audit_assertion cx' data a = Ok a) /\
    as_path a = p ++ [".assert"] /\ as_type a = m /\ as_at_most a = av_at_most v /\ as_ip_pass a = av_ip_pass v /\
    as_evaluated a = false /\ as_resolved a = None /\
    match rw_where r, as_where a with
    | None, None => True
    | Some w, Some q => load_predicate cx c m w = Ok q
    | _, _ => False
    end.
Proof.
  intros cx l c m p r a EX S H.
  assert (ND : NoDup (map fst (cx_exc cx))) by (rewrite EX; apply (groups_ok l)).
  unfold load_single_assertion in H.
  destruct (match rw_where r with Some _ => _ | None => _ end) as [w|] eqn:W in H; cbn [bind] in H; [|discriminate].
  assert (WW : match rw_where r, w with None, None => True | Some w, Some q => load_predicate cx c m w = Ok q | _, _ => False end).
  { destruct (rw_where r) as [x|]; [|injection W as <-; exact I]. destruct (load_predicate cx c m x); cbn [bind] in W; [|discriminate]. injection W as <-. reflexivity. }
  destruct (rw_assert r) as [|[name v] [|? ?]] eqn:RA; try discriminate.
  destruct (find _ (actions_of m)) as [key|] eqn:F; [|discriminate]. apply find_some in F. destruct F as [IK EK]. apply String.eqb_eq in EK.
  destruct (av_ops v) as [|[op raw] [|? ?]] eqn:OPS; try discriminate.
  assert (NUM : numeric op /\ exists changes eo, mapr (load_change cx) (av_changes v) = Ok changes /\ load_as_expected c raw = Ok eo /\ av_bad v = false /\
     a = mkAs (p ++ [".assert"]) (if match get_waive (cx_exc cx) (p ++ [".assert"]) with Some _ => true | None => false end then Waived else Empty) m w key op
        (match get_value (cx_exc cx) (p ++ [".assert"]) with
         | Some x => match ex_act x with AValue d => d | _ => fold_left apply_change changes (fst eo) end
         | None => fold_left apply_change changes (fst eo) end)
        (if same_as_original (match get_value (cx_exc cx) (p ++ [".assert"]) with
         | Some x => match ex_act x with AValue d => d | _ => fold_left apply_change changes (fst eo) end
         | None => fold_left apply_change changes (fst eo) end) (snd eo) then None else Some (snd eo))
        changes (av_at_most v) (rw_message r) (rw_label r) (av_ip_pass v) false
        (match get_waive (cx_exc cx) (p ++ [".assert"]) with Some _ => true | None => false end) None None None None).
  { destruct op; try discriminate; (split; [split; discriminate|]);
    (destruct (mapr (load_change cx) (av_changes v)) as [changes|]; cbn [bind] in H; [|discriminate];
     destruct (load_as_expected c raw) as [eo|]; cbn [bind] in H; [|discriminate];
     destruct (av_bad v); [discriminate|]; injection H as <-; exists changes, eo; auto). }
  destruct NUM as [NUM [changes [[e0 o] [M [LE [_ ->]]]]]]. cbn [fst snd as_key as_op as_expected as_overridden as_state as_path as_type as_at_most as_ip_pass as_evaluated as_resolved as_where].
  destruct (load_expected_spec _ _ _ _ LE) as [q [WR E0]].
  exists v, raw, q. rewrite EX. assert (V := value_lookup l (p ++ [".assert"])). assert (WV := waive_lookup l (p ++ [".assert"])).
  assert (UV : forall kind x y, first_at l (p ++ [".assert"]) kind x -> first_at l (p ++ [".assert"]) kind y -> x = y).
  { intros kind x y [p1 [q1 [E1 [P1 [K1 N1]]]]] [p2 [q2 [E2 [P2 [K2 N2]]]]]. rewrite E1 in E2.
    destruct (two_splits _ _ _ _ _ _ E2) as [I|[I|I]]; auto; [exfalso; apply (N2 x I); auto|exfalso; apply (N1 y I); auto]. }
  assert (NV : forall kind x, first_at l (p ++ [".assert"]) kind x -> none_at l (p ++ [".assert"]) kind -> False).
  { intros kind x [p1 [q1 [E1 [P1 [K1 N1]]]]] NO. apply (NO x); auto. rewrite E1. apply in_or_app. simpl. auto. }
  split; [rewrite EK; reflexivity|]. split; auto. split; auto. split; auto. split; auto. split; [|split; [|split; [|split]]].
  - intro NO. destruct (get_value (group_exceptions l) (p ++ [".assert"])) as [x|]; [exfalso; eapply NV; eauto|].
    eapply adjusted_ext; [exact E0|]. apply changes_spec; auto. intros x act I. eapply S; [left; reflexivity|eauto].
  - intros x d FX A. destruct (get_value (group_exceptions l) (p ++ [".assert"])) as [y|]; [|exfalso; eapply NV; eauto].
    rewrite (UV _ _ _ V FX), A. reflexivity.
  - intro NO. destruct (get_waive (group_exceptions l) (p ++ [".assert"])) as [x|]; [exfalso; eapply NV; eauto|auto].
  - intros x FX. destruct (get_waive (group_exceptions l) (p ++ [".assert"])) as [y|]; [|exfalso; eapply NV; eauto].
    repeat split.
  - repeat split; auto.
Qed.
Print Assumptions threshold_is_as_changed.

Example threshold_example :
  let cx := with_transcript empty_ctx [mk_simple "1" "CSCI" "121"] [] [] [] in
  let k := mkConst 2000 8 (inl "Voice") "140" in
  let yes := XFun FHasCourse "CSCI 121" in let no := XFun FHasCourse "MATH 120" in
  let v := mkRawValue [(OGte, RStr "10")] [(yes, [(Some VSubtract, SStr "1.5")]); (no, [(Some VSet, SInt 0)]); (yes, [(Some VAdd, SInt 3)])] false false false in
  let r := mkRawAs None None None [("count(courses)", v)] in
  match load_single_assertion cx k DtCourse ["$"] r with
  | Ok a => dval (as_expected a) == 23 # 2 /\ as_state a = Empty
  | Err _ => False
  end /\
  match load_single_assertion (mkCtx [] [] [] [] [] (group_exceptions [mkExc ["$"; ".assert"] (AOverride Waived); mkExc ["$"; ".assert"] (AValue (mkDec 4 0))]) [] [] [] no_proficiencies) k DtCourse ["$"] r with
  | Ok a => dval (as_expected a) == 4 /\ as_state a = Waived
  | Err _ => False
  end.
Proof. cbv zeta. split; split; reflexivity. Qed.

(** ** C31 *)
(** A "$if" whose condition is false and that has no alternative counts as an unmet
    assertion: status empty, rank 0, whatever the data. *)
Theorem if_without_alternative_counts_as_unmet :
  forall cx p c t data, e_result c = Some false ->
  exists r, audit_any cx data (AIf p c t None) = Ok r /\ any_status r = Empty /\ any_rank r == 0 /\
            ~ In (any_status r) passing_statuses.
Proof.
  intros cx p c t data E. exists (AIf p c t None). cbn [audit_any]. rewrite (evaluate_fixed cx c false E). cbn [bind]. rewrite E.
  split; [reflexivity|]. cbn [any_status any_rank]. rewrite E. repeat split. simpl. intuition discriminate.
Qed.
Print Assumptions if_without_alternative_counts_as_unmet.

(** A "$when" whose condition is false of the selected courses counts as met: status done,
    full rank. *)
Theorem when_false_counts_as_met :
  forall cx p x d t data, dyn_ok x -> load_dyn x = Ok d -> ~ dyn_true data x -> d_result d = None ->
  exists r, audit_any cx (map ICourse data) (AWhen p d t) = Ok r /\ any_status r = Done /\ any_rank r == 1.
Proof.
  intros cx p x d t data OK L NT DR. destruct (dyn_spec data x OK) as [d' [e [b [L' [E [R [B _]]]]]]].
  rewrite L in L'. injection L' as <-. exists (AWhen p d t). cbn [audit_any]. rewrite as_courses_map. cbn [bind]. rewrite E. cbn [bind]. rewrite R.
  destruct b; [exfalso; apply NT, B; reflexivity|]. split; [reflexivity|]. cbn [any_status any_rank]. rewrite DR. split; reflexivity.
Qed.
Print Assumptions when_false_counts_as_met.

(** a freshly loaded "$when" condition has no result *)
Theorem loaded_dynamic_condition_is_open : forall x d, load_dyn x = Ok d -> d_result d = None.
Proof.
  intros x d H. destruct x; cbn [load_dyn] in H; try discriminate;
    try (injection H as <-; reflexivity);
    match type of H with bind ?e _ = _ => destruct e; cbn [bind] in H; [|discriminate] end; injection H as <-; reflexivity.
Qed.
Print Assumptions loaded_dynamic_condition_is_open.

Definition neutral_claim : Prop :=
  forall cx data p c t r, e_result c = Some false -> audit_any cx data (AIf p c t None) = Ok r ->
  In (any_status r) passing_statuses.
Theorem conditional_assertion_neutral_refuted : ~ neutral_claim.
Proof.
  intro H. set (c := EFun FHasCourse "X 1" (Some false)).
  destruct (if_without_alternative_counts_as_unmet empty_ctx [] c (plain KCourses OGte 1 false) [] eq_refl) as [r [A [_ [_ N]]]].
  apply N. eapply H; eauto. reflexivity.
Qed.
Print Assumptions conditional_assertion_neutral_refuted.

Example conditional_assertion_example :
  dyn_ok (XDyn FQueryHasCourseWithAttribute "x") /\ ~ dyn_true [mk_simple "1" "A" "1"] (XDyn FQueryHasCourseWithAttribute "x") /\ load_dyn (XDyn FQueryHasCourseWithAttribute "x") = Ok (DFun FQueryHasCourseWithAttribute "x" None).
Proof.
  split; [exact I|]. split; [|reflexivity]. intros [c [[<-|[]] [S I]]]. exact I.
Qed.
