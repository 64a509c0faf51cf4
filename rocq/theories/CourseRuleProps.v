(** Property theorems about course rules (C42, C44, the course parts of C32, C34, C35, C40 and
    C43; C72 to C75). *)
From Coq Require Import List ZArith QArith Bool Ascii String Lia Lqa.
From Verif Require Import Prelude Dec Status Course Claims Exceptions Op Grades Predicate Context Limit Assertion Query CourseRule.
From Verif Require Import ListFacts OpProofs ClaimsSpec ClaimsProofs ClaimsProps ExceptionsProofs ExceptionsProps AssertionSpec AssertionProofs AssertionProps QuerySpec QueryProofs QueryProps LimitProofs CourseRuleSpec CourseRuleProofs.
Import ListNotations.
Local Open Scope string_scope.
Local Open Scope list_scope.
Local Open Scope Q_scope.

(** ** C42 *)
(** The solutions of a course rule: a waived rule has one solution without a course;
    otherwise there is one solution per inserted course and per course found that meets the
    rule's conditions, and one without a course if there are none of either. *)
Theorem course_solutions_exact :
  forall cx l r, cx_exc cx = group_exceptions l -> year_has_term r -> g_exn (c_solutions cx r) = None ->
  forall s, In s (g_items (c_solutions cx r)) <->
    if_waived (r_auto_waived r = true \/ waived_at l (r_path r)) (by_waiver r s)
      ((exists c forced, insertion cx l r c forced /\ by_insertion r s c forced) \/
       (exists c, finds cx r c /\ acceptable r c /\ by_match r s c) \/
       (by_nothing r s /\ (forall c f, ~ insertion cx l r c f) /\ (forall c, finds cx r c -> ~ acceptable r c))).
Proof.
  intros cx l r EX Y N s. rewrite c_solutions_form in *. assert (W := waives_iff cx l r EX). unfold if_waived.
  destruct (r_auto_waived r || _)%bool.
  { assert (W' := proj1 W eq_refl). cbn [g_items gret In]. split.
    - intros [<-|[]]. left. split; auto. split; [apply solves_form|]. cbn. rewrite orb_false_r. auto.
    - intros [[_ [H1 [H2 [H3 H4]]]]|[H _]]; [|contradiction]. left. symmetry. apply solution_unique; auto. rewrite orb_false_r. exact H3. }
  assert (W' : ~ (r_auto_waived r = true \/ waived_at l (r_path r))) by (intro H; apply W in H; discriminate).
  assert (OFF : g_exn (offered cx r) = None) by (destruct (offered cx r) as [[|] [|]]; auto).
  assert (M : In s (g_items (offered cx r)) <->
     (exists c forced, insertion cx l r c forced /\ by_insertion r s c forced) \/ (exists c, finds cx r c /\ acceptable r c /\ by_match r s c)).
  { split.
    - intro H. apply (offered_items cx l) in H; auto. destruct H as [[c [f [I ->]]]|[c [F [A ->]]]].
      + left. exists c, f. split; auto. split; [apply solves_form|]. cbn. rewrite orb_true_r. auto.
      + right. exists c. split; auto. split; auto. split; [apply solves_form|]. cbn. rewrite orb_false_r. auto.
    - intro H. apply (offered_conv cx l); auto. destruct H as [[c [f [I [H1 [H2 [H3 H4]]]]]]|[c [F [A [H1 [H2 [H3 H4]]]]]]].
      + left. exists c, f. split; auto. apply solution_unique; auto. rewrite orb_true_r. exact H3.
      + right. exists c. split; auto. split; auto. apply solution_unique; auto. rewrite orb_false_r. exact H3. }
  destruct (offered cx r) as [[|s0 rest] [e|]] eqn:OE; [discriminate| |discriminate|].
  - cbn [g_items gret In] in M |- *. split.
    + intros [<-|[]]. right. split; auto. right. right. split; [split; [apply solves_form|]; cbn; rewrite orb_false_r; auto|]. split.
      * intros c f I. assert (X := offered_conv cx l r (c_solution r (Some c) true f false) EX Y). rewrite OE in X. apply X; auto. left. eauto.
      * intros c F A. assert (X := offered_conv cx l r (c_solution r (Some c) false false false) EX Y). rewrite OE in X. apply X; auto. right. eauto.
    + intros [[H _]|[_ [H|[H|[[H1 [H2 [H3 H4]]] _]]]]]; [contradiction|exfalso; apply M; auto|exfalso; apply M; auto|].
      left. symmetry. apply solution_unique; auto. rewrite orb_false_r. exact H3.
  - rewrite M. split; [intro H; right; split; auto; tauto|]. intros [[H _]|[_ [H|[H|[_ [H1 H2]]]]]]; [contradiction|auto|auto|].
    exfalso. assert (X := offered_items cx l r s0 EX Y). rewrite OE in X. destruct X as [[c [f [I _]]]|[c [F [A _]]]]; [simpl; auto|eapply H1; eauto|eapply H2; eauto].
Qed.
Print Assumptions course_solutions_exact.

(** C42 as it holds: an offered course was inserted by exception at the rule's path, or is
    the course with the rule's class id, or is described by the rule; in the last two cases
    it has the grade and grade option and is not excluded. *)
Theorem offered_course_is_eligible :
  forall cx l r s c, cx_exc cx = group_exceptions l -> year_has_term r -> g_exn (c_solutions cx r) = None ->
  In s (g_items (c_solutions cx r)) -> r_matched s = Some c ->
  (exists forced, insertion cx l r c forced) \/ (finds cx r c /\ acceptable r c).
Proof.
  intros cx l r s c EX Y N I M. apply (course_solutions_exact cx l r EX Y N) in I.
  destruct I as [[_ [S _]]|[_ [[d [f [I [S _]]]]|[[d [F [A [S _]]]]|[[S _] _]]]]]; destruct S as [E _]; rewrite M in E; try discriminate; injection E as <-; eauto.
Qed.
Print Assumptions offered_course_is_eligible.

(** an example rule and course *)
Definition by_id (id : string) : raw_course :=
  mkRawCourse (Some id) None None None None None None None false None None None None false false false false.
Definition by_crsid_section (crsid section : string) : raw_course :=
  mkRawCourse None None None None None None None (Some crsid) false (Some section) None None None false false false false.
Definition c_ctx (cs : list course) (xs : list exc) : ctx :=
  mkCtx cs [] [] [] [] (group_exceptions xs) [] [] [] no_proficiencies.
Definition first_solution (cx : ctx) (r : res crule) : option crule :=
  match r with Ok r => hd_error (g_items (c_solutions cx r)) | Err _ => None end.
Definition hist := mk_simple "100" "HIST" "101".
Example course_offered_example :
  let r := match load_course ["$"] (by_id "HIST 101") with Ok r => r | Err _ => c_solution (c_result (mkCrule [] false None None None None None None None None None None None None false false false false false false [] None None) None false) None false false false end in
  r_path r = ["$"; "*HIST 101"] /\ year_has_term r /\
  g_exn (c_solutions (c_ctx [hist; mk_simple "200" "HIST" "102"] []) r) = None /\
  map r_matched (g_items (c_solutions (c_ctx [hist; mk_simple "200" "HIST" "102"] []) r)) = [Some hist].
Proof. vm_compute. split; [reflexivity|]. split; [intro H; elim H; reflexivity|]. auto. Qed.

(** "The course matches all the rule's fields" is false: the section (and the year, the term
    and the sub-type) are only compared when the rule names a course, so a rule by course
    id and section accepts every section. *)
Definition course_matches_every_field : Prop :=
  forall cx p raw r s c, load_course p raw = Ok r -> In s (g_items (c_solutions cx r)) -> r_matched s = Some c ->
  r_clbid r = None -> get_inserts (cx_exc cx) (r_path r) = [] -> forall sec, r_section r = Some sec -> c_section c = Some sec.
Theorem course_matches_every_field_refuted : ~ course_matches_every_field.
Proof.
  intro H. specialize (H (c_ctx [hist] []) ["$"] (by_crsid_section "crs-HIST101" "B")).
  destruct (load_course ["$"] (by_crsid_section "crs-HIST101" "B")) as [r|] eqn:L; [|discriminate].
  vm_compute in L. injection L as <-.
  assert (X := H _ (c_solution (mkCrule ["$"; "*crsid:crs-HIST101B"] false None None (Some "crs-HIST101") None None None None None None None (Some "B") None false false false false false false [] None None) (Some hist) false false false) hist eq_refl).
  discriminate (X ltac:(vm_compute; auto) eq_refl eq_refl eq_refl "B" eq_refl).
Qed.
Print Assumptions course_matches_every_field_refuted.
(** Likewise a sub-type letter other than E, L, F and D is silently ignored. *)
Theorem unknown_sub_type_is_ignored :
  forall r s, r_sub_type r = Some s -> (forall t, ~ letter s t) -> f_sub_type (rule_filter r) = None.
Proof.
  intros r s E N. unfold rule_filter. cbn [f_sub_type]. rewrite E. cbn [or_empty]. destruct (sub_type_lookup s) as [t|] eqn:L; auto.
  apply letter_iff in L. destruct (N t L).
Qed.
Print Assumptions unknown_sub_type_is_ignored.

(** ** C43 *)
Theorem blocked_course_not_offered_by_course_rule :
  forall cx l r k s c, cx_exc cx = group_exceptions l -> year_has_term r ->
  In s (g_items (c_solutions cx (c_block r (r_path r) k))) -> r_matched s = Some c -> c_clbid c <> k.
Proof.
  intros cx l r k s c EX Y I M. set (b := c_block r (r_path r) k) in *.
  assert (B : In k (r_excluded b)).
  { unfold b, c_block. assert (P : path_eqb (r_path r) (r_path r) = true) by (apply path_eqb_iff; reflexivity). rewrite P. cbn. apply in_app_iff. simpl. auto. }
  assert (YB : year_has_term b) by (unfold b, c_block; destruct (path_eqb _ _); exact Y).
  rewrite c_solutions_form in I. destruct (r_auto_waived b || _)%bool; [destruct I as [<-|[]]; discriminate M|].
  assert (J : In s (g_items (offered cx b)) \/ s = c_solution b None false false false).
  { destruct (offered cx b) as [[|] [|]]; cbn [g_items gret In] in *; intuition. }
  destruct J as [J| ->]; [|discriminate M]. apply (offered_items cx l) in J; auto.
  destruct J as [[d [f [IN ->]]]|[d [_ [A ->]]]]; cbn in M; injection M as <-.
  - destruct IN as [x [k' [_ [_ [_ [_ N]]]]]]. intros E. rewrite E in N. contradiction.
  - destruct A as [N _]. intros E. rewrite E in N. contradiction.
Qed.
Print Assumptions blocked_course_not_offered_by_course_rule.
Theorem block_elsewhere_leaves_course_rule : forall r p k, p <> r_path r -> c_block r p k = r.
Proof. intros r p k N. unfold c_block. apply not_eq_sym, path_eqb_neq in N. rewrite N. reflexivity. Qed.
Print Assumptions block_elsewhere_leaves_course_rule.

(** ** C40 *)
(** A course rule yields something, or raises: an insertion names a class that does not
    exist, or a year is given without a term. *)
Theorem course_rule_yields_or_raises :
  forall cx l r, cx_exc cx = group_exceptions l ->
  match g_exn (c_solutions cx r) with
  | None => g_items (c_solutions cx r) <> []
  | Some e => (e = MissingClbid /\ exists x k f, In x l /\ ex_path x = r_path r /\ ex_act x = AInsert k f /\ forced_by_clbid cx k = Err MissingClbid) \/
              (e = AssertErr /\ ~ year_has_term r)
  end.
Proof.
  intros cx l r EX. rewrite c_solutions_form. destruct (r_auto_waived r || _)%bool; [discriminate|].
  destruct (offered cx r) as [[|s t] [e|]] eqn:OE; cbn [gret g_exn g_items]; try discriminate.
  all: unfold offered, gapp in OE; destruct (g_exn (c_inserts _ _ _)) as [e'|] eqn:X.
  - rewrite OE in X. cbn in X. injection X as <-. left. assert (X : g_exn (c_inserts cx r (get_inserts (cx_exc cx) (r_path r))) = Some e) by (rewrite OE; reflexivity).
    apply inserts_exn in X. destruct X as [-> [x [I F]]]. split; auto. rewrite EX in I. apply inserts_at in I. destruct I as [I [P [k [f A]]]].
    exists x, k, f. unfold exc_clbid in F. rewrite A in F. auto.
  - injection OE as _ E. right. eapply found_exn; eauto.
  - rewrite OE in X. cbn in X. injection X as <-. left. assert (X : g_exn (c_inserts cx r (get_inserts (cx_exc cx) (r_path r))) = Some e) by (rewrite OE; reflexivity).
    apply inserts_exn in X. destruct X as [-> [x [I F]]]. split; auto. rewrite EX in I. apply inserts_at in I. destruct I as [I [P [k [f A]]]].
    exists x, k, f. unfold exc_clbid in F. rewrite A in F. auto.
  - injection OE as _ E. right. eapply found_exn; eauto.
Qed.
Print Assumptions course_rule_yields_or_raises.

(** ** C72: auditing one course *)
(** An audit makes one claim for the chosen course at the rule's path, shared if the rule
    allows claimed courses or the course was forced, and reports it; without a course, or
    waived, it makes none. The exclusive claims are those of [run_claims]. *)
Theorem course_audit_exact :
  forall mc cx r0 t s r t', In s (g_items (c_solutions cx r0)) -> c_audit mc t s = Ok (r, t') ->
  r_path r = r_path s /\ r_overridden r = r_overridden s /\ r_inserted r = r_inserted s /\ r_optional r = r_optional s /\
  match (if r_overridden s then None else r_matched s) with
  | None => t' = t /\ r_claim r = None
  | Some c => exists cl, run_claims mc t [mkAttempt c (r_path s) (r_forced s || r_allow s)] = Ok ([cl], t') /\ r_claim r = Some cl
  end.
Proof.
  intros mc cx r0 t s r t' I H.
  assert (FC : r_from_claimed s = false).
  { rewrite c_solutions_form in I. assert (NO : forall c i f o, r_from_claimed (c_solution r0 c i f o) = false) by reflexivity.
    destruct (r_auto_waived r0 || _)%bool; [destruct I as [<-|[]]; apply NO|].
    assert (J : In s (g_items (offered cx r0)) \/ s = c_solution r0 None false false false).
    { destruct (offered cx r0) as [[|] [|]]; cbn [g_items gret In] in *; intuition. }
    destruct J as [J| ->]; [|apply NO]. unfold offered, gapp in J.
    assert (J' : In s (g_items (c_inserts cx r0 (get_inserts (cx_exc cx) (r_path r0)))) \/
      In s (map (fun c => c_solution r0 (Some c) false false false) (filter (fun c => negb (c_skips r0 c)) (g_items (find_courses cx r0))))).
    { destruct (g_exn (c_inserts _ _ _)); [auto|]. cbn [g_items] in J. rewrite in_app_iff in J. exact J. }
    destruct J' as [J'|J'].
    - apply inserts_items in J'. destruct J' as [x [c [_ [_ [_ ->]]]]]. apply NO.
    - apply in_map_iff in J'. destruct J' as [c [<- _]]. apply NO. }
  unfold c_audit in H. rewrite FC in H. cbn [andb] in H.
  destruct (r_overridden s) eqn:O; [injection H as <- <-; cbn; auto 9|].
  destruct (r_matched s) as [c|]; [|injection H as <- <-; cbn; auto 9].
  destruct (make_claim mc t c (r_path s) (r_forced s || r_allow s)) as [[cl t1]|] eqn:MC; cbn [bind] in H; [|discriminate].
  injection H as <- <-. cbn. repeat (split; [reflexivity|]). exists cl. rewrite MC. cbn. auto.
Qed.
Print Assumptions course_audit_exact.

(** ** C44 *)
(** "A from_claimed rule is only satisfied by a course that is already claimed" is false:
    the solution forgets from_claimed, so the check of the audit never happens. *)
Definition from_claimed_needs_a_claim : Prop :=
  forall cx p raw r0 s t r t', load_course p raw = Ok r0 -> r_from_claimed r0 = true ->
  In s (g_items (c_solutions cx r0)) -> c_audit (cx_multi cx) t s = Ok (r, t') -> c_status KRes r = Done ->
  forall c, r_matched s = Some c -> claimed t (c_clbid c).
Theorem from_claimed_needs_a_claim_refuted : ~ from_claimed_needs_a_claim.
Proof.
  intro H.
  pose (raw := mkRawCourse (Some "HIST 101") None None None None None None None false None None None None true false false false).
  specialize (H (c_ctx [hist] []) ["$"] raw).
  destruct (load_course ["$"] raw) as [r0|] eqn:L; [|discriminate]. vm_compute in L. injection L as <-.
  match type of H with forall r0 s t r t', Ok ?x = _ -> _ => pose (r1 := x) end.
  pose (s1 := c_solution r1 (Some hist) false false false).
  specialize (H r1 s1 [] (c_result s1 (Some (mkClaim hist ["$"; "*HIST 101"] false)) false) [] eq_refl eq_refl).
  assert (X := H ltac:(vm_compute; auto) ltac:(vm_compute; auto) ltac:(vm_compute; auto) hist eq_refl). apply X. reflexivity.
Qed.
Print Assumptions from_claimed_needs_a_claim_refuted.
(** What from_claimed does: its claims are shared, so it never takes a course away. *)
Theorem from_claimed_claims_are_shared :
  forall cx p raw r0 s mc t r t', load_course p raw = Ok r0 -> r_from_claimed r0 = true ->
  In s (g_items (c_solutions cx r0)) -> c_audit mc t s = Ok (r, t') -> t' = t /\ forall cl, r_claim r = Some cl -> cl_failed cl = false.
Proof.
  intros cx p raw r0 s mc t r t' L FC I H.
  assert (AL : r_allow r0 = true).
  { unfold load_course in L. destruct (c_path_name raw); cbn [bind] in L; [|discriminate]. destruct (rc_bad raw); [discriminate|].
    destruct (negb _); [discriminate|]. destruct (match rc_grade raw with Some _ => _ | None => _ end); cbn [bind] in L; [|discriminate].
    destruct (if given _ then _ else _); cbn [bind] in L; [|discriminate]. injection L as <-. cbn in *. rewrite FC. apply orb_true_r. }
  assert (AS : r_allow s = r_allow r0).
  { rewrite c_solutions_form in I. assert (NO : forall c i f o, r_allow (c_solution r0 c i f o) = r_allow r0) by reflexivity.
    destruct (r_auto_waived r0 || _)%bool; [destruct I as [<-|[]]; apply NO|].
    assert (J : In s (g_items (offered cx r0)) \/ s = c_solution r0 None false false false).
    { destruct (offered cx r0) as [[|] [|]]; cbn [g_items gret In] in *; intuition. }
    destruct J as [J| ->]; [|apply NO]. unfold offered, gapp in J.
    assert (J' : In s (g_items (c_inserts cx r0 (get_inserts (cx_exc cx) (r_path r0)))) \/
      In s (map (fun c => c_solution r0 (Some c) false false false) (filter (fun c => negb (c_skips r0 c)) (g_items (find_courses cx r0))))).
    { destruct (g_exn (c_inserts _ _ _)); [auto|]. cbn [g_items] in J. rewrite in_app_iff in J. exact J. }
    destruct J' as [J'|J'].
    - apply inserts_items in J'. destruct J' as [x [c [_ [_ [_ ->]]]]]. apply NO.
    - apply in_map_iff in J'. destruct J' as [c [<- _]]. apply NO. }
  destruct (course_audit_exact mc cx r0 t s r t' I H) as [_ [_ [_ [_ E]]]].
  destruct (if r_overridden s then None else r_matched s) as [c|].
  - destruct E as [cl [R C]]. rewrite AS, AL, orb_true_r in R. cbn in R. injection R as <- <-. split; auto. intros cl' E. rewrite C in E. injection E as <-. reflexivity.
  - destruct E as [-> C]. split; auto. intros cl E. congruence.
Qed.
Print Assumptions from_claimed_claims_are_shared.

(** ** C73: status and rank of a course result *)
Theorem course_result_status_exact : forall r s, c_status KRes r = s <-> course_status r s.
Proof.
  assert (D : forall r, course_status r (c_status KRes r)).
  { intro r. unfold c_status, c_waived, c_claims.
    destruct (r_claim r) as [cl|] eqn:C.
    - destruct (cl_failed cl) eqn:F.
      + assert (NE : ~ excused r) by (intros [N _]; apply N; exists cl; auto).
        assert (NU : forall c, ~ uses r c) by (intros c [cl' [E [F' _]]]; rewrite C in E; injection E as <-; congruence).
        cbn. destruct (r_optional r) eqn:O; [apply cs_optional|apply cs_empty]; auto; intros c U; destruct (NU c U).
      + destruct (r_inserted r || r_overridden r)%bool eqn:IO.
        { apply cs_excused. split; [intros [cl' [E F']]; congruence|]. apply orb_true_iff in IO. exact IO. }
        assert (NE : ~ excused r) by (intros [_ [H|H]]; rewrite H in IO; rewrite ?orb_true_r in IO; discriminate).
        assert (U : uses r (cl_course cl)) by (exists cl; auto).
        assert (UU : forall c, uses r c -> c = cl_course cl) by (intros c [cl' [E [_ <-]]]; congruence).
        unfold matched_of. cbn [filter map dedup]. rewrite F. cbn [negb map filter dedup existsb]. set (c := cl_course cl) in *. rewrite !orb_false_r.
        destruct (c_in_progress c) eqn:IP; cbn [andb negb]; [|apply (cs_done r c); auto].
        destruct (c_ip_in_future c) eqn:FU; cbn [andb negb]; rewrite ?andb_false_r, ?andb_true_r.
        { apply (cs_future r c); auto. split; auto. }
        destruct (c_ip_this_term c || c_incomplete c)%bool eqn:CU.
        { apply (cs_current r c); auto. split; auto. split; auto. apply orb_true_iff in CU. exact CU. }
        assert (NX : forall d, uses r d -> c_in_progress d = true /\ ~ current d /\ ~ future d).
        { intros d Ud. rewrite (UU d Ud). split; auto. split; [intros [_ [CC _]]; apply orb_true_iff in CC; congruence|]. intros [_ FF]. congruence. }
        destruct (r_optional r) eqn:O; [apply cs_optional|apply cs_empty]; auto.
    - destruct (r_inserted r || r_overridden r)%bool eqn:IO.
      { apply cs_excused. split; [intros [cl' [E F']]; congruence|]. apply orb_true_iff in IO. exact IO. }
      assert (NE : ~ excused r) by (intros [_ [H|H]]; rewrite H in IO; rewrite ?orb_true_r in IO; discriminate).
      assert (NU : forall c, ~ uses r c) by (intros c [cl' [E _]]; congruence).
      cbn. destruct (r_optional r) eqn:O; [apply cs_optional|apply cs_empty]; auto; intros c U; destruct (NU c U). }
  assert (U : forall r s1 s2, course_status r s1 -> course_status r s2 -> s1 = s2).
  { intros r s1 s2 A B.
    assert (UU : forall c d, uses r c -> uses r d -> c = d) by (intros c d [cl [E [_ <-]]] [cl' [E' [_ <-]]]; congruence).
    destruct A as [A|c A Uc X|c A Uc X|c A Uc X|A X O|A X O], B as [B|d B Ud Z|d B Ud Z|d B Ud Z|B Z O'|B Z O']; try reflexivity; try contradiction; try congruence.
    all: try (assert (c = d) by eauto; subst d).
    all: try (destruct (X d Ud) as [X1 [X2 X3]]).
    all: try (destruct (Z c Uc) as [X1 [X2 X3]]).
    all: unfold current, future in *; intuition congruence. }
  intros r s. split; [intros <-; apply D|]. intro H. eapply U; [apply D|exact H].
Qed.
Print Assumptions course_result_status_exact.
Theorem course_rank_bounded : forall k r, 0 <= c_rank k r <= c_max_rank k r.
Proof. intros k r. unfold c_rank, c_max_rank, status_rank. destruct (r_optional r); [lra|]. destruct (c_status k r); lra. Qed.
Print Assumptions course_rank_bounded.
Example course_status_example :
  let r := c_result (c_solution (mkCrule ["$"] false None None None None None None None None None None None None false false false false false false [] None None) (Some hist) false false false)
             (Some (mkClaim hist ["$"] false)) false in
  c_status KRes r = Done /\ c_rank KRes r = 1 /\ course_status r Done /\ ~ excused r.
Proof.
  cbn zeta. split; [reflexivity|]. split; [reflexivity|]. split.
  - apply (cs_done _ hist); [intros [_ [H|H]]; discriminate H| |reflexivity]. eexists. split; [reflexivity|]. auto.
  - intros [_ [H|H]]; discriminate H.
Qed.

(** ** C74: which courses are reserved for a course rule *)
(** A course is required by a rule when it is the only one the rule can match (insertions
    at its path aside); only then is it withheld from the queries of the area. *)
Theorem required_course_exact :
  forall cx l r cs, cx_exc cx = group_exceptions l -> year_has_term r -> c_required cx r = Ok cs ->
  forall c, In c cs <->
    r_from_claimed r = false /\ cs = [c] /\
    finds cx r c /\ ~ In (c_clbid c) (r_excluded r) /\ (forall x k f, In x l -> ex_path x = r_path r -> ex_act x = AInsert k f -> c_clbid c <> k).
Proof.
  intros cx l r cs EX Y H c. unfold c_required in H. destruct (r_from_claimed r) eqn:FC.
  { injection H as <-. split; [intros []|]. intros [D _]. discriminate. }
  unfold c_matches in H. rewrite FC in H. destruct (gall (find_courses cx r)) as [found|] eqn:G; cbn [bind] in H; [|discriminate].
  assert (FI : found = g_items (find_courses cx r)) by (unfold gall in G; destruct (g_exn _); [discriminate|congruence]).
  set (ins := get_inserts (cx_exc cx) (r_path r)) in *. set (all := c_insert_matches cx r ++ _) in H.
  assert (FO : forall es ms d, In d (fold_left (fun ms x => filter (fun c => negb (String.eqb (c_clbid c) (exc_clbid x))) ms) es ms) <->
     In d ms /\ forall x, In x es -> c_clbid d <> exc_clbid x).
  { induction es as [|x t IH]; intros ms d; cbn [fold_left]; [split; [intro; split; auto; intros x []|tauto]|].
    rewrite IH, filter_In, negb_true_iff, String.eqb_neq. split; [intros [[A B] C]; split; auto; intros y [<-|J]; auto|]. intros [A B]. split; [split; auto; apply B; simpl; auto|]. intros y J. apply B. simpl. auto. }
  set (ms := fold_left _ ins all) in H.
  assert (MS : forall d, In d ms <-> finds cx r d /\ ~ In (c_clbid d) (r_excluded r) /\ (forall x k f, In x l -> ex_path x = r_path r -> ex_act x = AInsert k f -> c_clbid d <> k)).
  { intro d. unfold ms. rewrite FO. unfold all. rewrite in_app_iff, filter_In, negb_true_iff, excludes_no, FI, (found_items cx r d Y).
    assert (NI : (forall x, In x ins -> c_clbid d <> exc_clbid x) <-> (forall x k f, In x l -> ex_path x = r_path r -> ex_act x = AInsert k f -> c_clbid d <> k)).
    { unfold ins. rewrite EX. split.
      - intros A x k f I P E. specialize (A x). unfold exc_clbid in A. rewrite E in A. apply A. apply inserts_at. eauto.
      - intros A x I. apply inserts_at in I. destruct I as [I [P [k [f E]]]]. unfold exc_clbid. rewrite E. eapply A; eauto. }
    rewrite NI. split; [intros [[A|A] B]|tauto].
    - exfalso. unfold c_insert_matches in A. apply in_flat_map in A. destruct A as [x [I A]]. destruct (excludes _ _); [destruct A|].
      destruct (find_by_clbid cx (exc_clbid x)) as [e|] eqn:FB; [|destruct A]. destruct A as [->|[]].
      apply NI in I; [|exact B]. apply I. unfold find_by_clbid, lookup_clbid in FB. apply find_some in FB. destruct FB as [_ FB]. apply String.eqb_eq in FB. exact FB.
    - tauto. }
  injection H as <-. rewrite <- (MS c). destruct ms as [|a [|b t]].
  - split; [intros []|intros [_ [D _]]; discriminate].
  - cbn [In]. split; [intros [->|[]]; auto|]. intros [_ [E I]]. exact I.
  - split; [intros []|intros [_ [D _]]; discriminate].
Qed.
Print Assumptions required_course_exact.

(** ** C75: loading *)
Theorem loaded_course_exact :
  forall p raw r, load_course p raw = Ok r ->
  (exists name, r_path r = p ++ [String "*"%char name]) /\ r_overridden r = false /\ r_auto_waived r = false /\ r_excluded r = [] /\ r_matched r = None /\ r_claim r = None /\
  r_course r = rc_course raw /\ r_clbid r = rc_clbid raw /\ r_crsid r = rc_crsid raw /\ r_ap r = rc_ap raw /\
  r_institution r = rc_institution raw /\ r_name r = rc_name raw /\ r_year r = rc_year raw /\ r_term r = rc_term raw /\
  r_section r = rc_section raw /\ r_sub_type r = rc_sub_type raw /\ r_optional r = rc_optional raw /\ r_inserted r = rc_inserted raw /\
  r_from_claimed r = rc_from_claimed raw /\ (r_allow r = true <-> rc_allow raw = true \/ rc_from_claimed raw = true) /\
  year_has_term r /\
  (rc_grade raw = None -> r_grade r = None) /\
  (forall s, rc_grade raw = Some s -> exists g d, grade_of_value s = Ok g /\ r_grade r = Some d /\
     (grade_points g = Some d \/ grade_points g = None /\ dval d == 0)) /\
  (exists n, n <> "" /\ (rc_course raw = Some n \/ rc_ap raw = Some n \/ rc_name raw = Some n /\ rc_institution raw <> None \/ rc_clbid raw = Some n \/ rc_crsid raw = Some n)).
Proof.
  intros p raw r L. unfold load_course in L.
  destruct (c_path_name raw) as [name|] eqn:PN; cbn [bind] in L; [|discriminate]. destruct (rc_bad raw); [discriminate|].
  destruct (negb _) eqn:ID; [discriminate|]. apply negb_false_iff in ID.
  destruct (match rc_grade raw with Some _ => _ | None => _ end) as [grade|] eqn:GR; cbn [bind] in L; [|discriminate].
  destruct (if given _ then _ else _) as [opt|]; cbn [bind] in L; [|discriminate]. injection L as <-. cbn.
  assert (NM : exists nm, name = String "*"%char nm).
  { unfold c_path_name in PN. destruct (c_label raw) as [lab|]; cbn [bind] in PN; [|discriminate].
    destruct (match rc_year raw with Some _ => _ | None => _ end) as [s1|] eqn:YE; cbn [bind] in PN; [|discriminate].
    assert (S1 : exists x, s1 = String "*"%char x).
    { destruct (rc_year raw); [destruct (rc_term raw); [|discriminate]|]; injection YE as <-; destruct (given (rc_section raw)), (given (rc_sub_type raw)); cbn; eauto. }
    destruct S1 as [x ->]. injection PN as <-. destruct (given (rc_institution raw)), (given (rc_grade raw)); cbn; eauto. }
  split; [destruct NM as [nm ->]; eauto|]. repeat (split; [reflexivity|]). split; [rewrite orb_true_iff; reflexivity|]. split.
  { intros Yr. unfold r_year, r_term in *. unfold c_path_name in PN. destruct (c_label raw); cbn [bind] in PN; [|discriminate].
    destruct (rc_year raw); [|contradiction Yr; reflexivity]. destruct (rc_term raw); [discriminate|discriminate PN]. }
  split; [intro E; rewrite E in GR; congruence|]. split.
  { intros s E. rewrite E in GR. unfold str_to_grade_points in GR. destruct (grade_of_value s) as [g|]; cbn [bind] in GR; [|discriminate]. injection GR as <-.
    destruct (grade_points g) as [d|] eqn:GP; [exists g, d; auto|]. exists g, (mkDec 0 (-2)). split; auto. split; auto. right. split; [exact GP|reflexivity]. }
  rewrite !orb_true_iff, andb_true_iff, !given_iff in ID. destruct ID as [[[[[n [E N]]|[n [E N]]]|[[i [E' N']] [n [E N]]]]|[n [E N]]]|[n [E N]]]; exists n; split; auto.
  right. right. left. split; auto. congruence.
Qed.
Print Assumptions loaded_course_exact.

(** The last component of the path: a star, what names the course, and the parts that are
    given. (Two course rules beside each other with the same name have the same path.) *)
Definition part (pre : string) (o : option string) (post : string) : string :=
  match o with None => "" | Some s => if string_dec s "" then "" else pre ++ s ++ post end.
Definition names (raw : raw_course) (label : string) : Prop :=
  first_given [rc_course raw; rc_ap raw; rc_name raw; rc_clbid raw] label \/
  (none_given [rc_course raw; rc_ap raw; rc_name raw; rc_clbid raw] /\ exists c, rc_crsid raw = Some c /\ label = ("crsid:" ++ c)%string).
Definition dated (raw : raw_course) : string :=
  match rc_year raw, rc_term raw with Some y, Some t => " " ++ str_of_Z y ++ "-" ++ t | _, _ => "" end.
Lemma str_app_nil s : (s ++ "" = s)%string.
Proof. induction s as [|c s IH]; cbn; [reflexivity|rewrite IH; reflexivity]. Qed.
Lemma str_app_assoc a b c : ((a ++ b) ++ c = a ++ (b ++ c))%string.
Proof. induction a as [|x a IH]; cbn; [reflexivity|rewrite IH; reflexivity]. Qed.
Lemma part_iff pre o post : part pre o post = if given o then (pre ++ or_empty o ++ post)%string else "".
Proof. unfold part, given. destruct o as [s|]; [|reflexivity]. destruct (string_dec s "") as [->|N]; [reflexivity|]. apply String.eqb_neq in N. rewrite N. reflexivity. Qed.
Theorem course_path_exact :
  forall p raw r, load_course p raw = Ok r ->
  exists label, names raw label /\
    r_path r = p ++ [("*" ++ label ++ part "" (rc_section raw) "" ++ part "." (rc_sub_type raw) "" ++ dated raw ++
                     part "(institution=" (rc_institution raw) ")" ++ part "(grade >= " (rc_grade raw) ")")%string].
Proof.
  intros p raw r L. unfold load_course in L.
  destruct (c_path_name raw) as [name|] eqn:PN; cbn [bind] in L; [|discriminate]. destruct (rc_bad raw); [discriminate|].
  destruct (negb _); [discriminate|]. destruct (match rc_grade raw with Some _ => _ | None => _ end); cbn [bind] in L; [|discriminate].
  destruct (if given _ then _ else _); cbn [bind] in L; [|discriminate]. injection L as <-. cbn [r_path].
  unfold c_path_name in PN. destruct (c_label raw) as [label|] eqn:LA; cbn [bind] in PN; [|discriminate]. exists label. split.
  - unfold c_label in LA. unfold names. destruct (given (rc_course raw)) eqn:G1.
    { injection LA as <-. apply given_iff in G1. destruct G1 as [k [E N]]. rewrite E. left. cbn. auto. }
    apply given_no in G1. destruct (given (rc_ap raw)) eqn:G2.
    { injection LA as <-. apply given_iff in G2. destruct G2 as [k [E N]]. rewrite E. left. cbn. auto 9. }
    apply given_no in G2. destruct (given (rc_name raw)) eqn:G3.
    { injection LA as <-. apply given_iff in G3. destruct G3 as [k [E N]]. rewrite E. left. cbn. auto 9. }
    apply given_no in G3. destruct (given (rc_clbid raw)) eqn:G4.
    { injection LA as <-. apply given_iff in G4. destruct G4 as [k [E N]]. rewrite E. left. cbn. auto 9. }
    apply given_no in G4. right. split; [unfold none_given; repeat (apply Forall_cons; [assumption|]); apply Forall_nil|]. destruct (rc_crsid raw) as [c|]; [|discriminate]. injection LA as <-. eauto.
  - f_equal. f_equal. rewrite !part_iff. unfold dated.
    destruct (rc_year raw) as [y|]; [destruct (rc_term raw) as [t|]; [|discriminate]|]; cbn [bind] in PN; injection PN as <-;
      destruct (given (rc_section raw)), (given (rc_sub_type raw)), (given (rc_institution raw)), (given (rc_grade raw));
      cbn [append]; rewrite ?str_app_nil; repeat (rewrite str_app_assoc; cbn [append]); rewrite ?str_app_nil; reflexivity.
Qed.
Print Assumptions course_path_exact.

(** ** C76: which course rules have potential *)
Theorem course_potential_exact :
  forall cx l r, cx_exc cx = group_exceptions l -> year_has_term r ->
  exists b, c_potential cx r = Ok b /\
  (b = true <-> r_auto_waived r = true \/ (exists x tl, In x l /\ ex_path x = r_path r ++ tl) \/ exists c, finds cx r c).
Proof.
  intros cx l r EX Y. unfold c_potential. destruct (r_auto_waived r); [exists true; cbn; intuition|]. cbn [orb].
  destruct (has_exception_beneath (cx_exc cx) (r_path r)) eqn:B.
  { exists true. split; auto. split; auto. intros _. right. left. rewrite EX in B. apply beneath_iff in B. exact B. }
  assert (NB : ~ exists x tl, In x l /\ ex_path x = r_path r ++ tl) by (intro H; apply beneath_iff in H; rewrite EX in B; congruence).
  assert (F := fun c => found_items cx r c Y). unfold find_courses in F. destruct (given (r_clbid r)).
  - eexists. split; [reflexivity|]. split.
    + intro H. right. right. destruct (find_by_clbid cx _) as [c|]; [|discriminate]. exists c. apply F. simpl. auto.
    + intros [D|[D|[c I]]]; [discriminate|contradiction|]. apply F in I. destruct (find_by_clbid cx _); [auto|destruct I].
  - destruct (any_res_spec (course_filter (rule_filter r)) (described r) (cx_transcript cx)) as [b [E IFF]]; [intros; apply filter_spec; exact Y|].
    exists b. split; auto. rewrite IFF. split.
    + intros [c [I D]]. right. right. exists c. apply F. apply gfilter_conv; auto.
      * destruct (g_exn (gfilter (course_filter (rule_filter r)) (cx_transcript cx))) as [e|] eqn:X; auto. apply gfilter_exn in X. destruct X as [x [_ X]]. apply filter_err in X. destruct X as [_ X]. contradiction.
      * destruct (filter_spec r c Y) as [b' [E' B']]. rewrite E'. apply B' in D. subst b'. reflexivity.
    + intros [D|[D|[c H]]]; [discriminate|contradiction|]. apply F in H. apply gfilter_items in H. destruct H as [I E']. exists c. split; auto. destruct (filter_spec r c Y) as [b' [E'' B']].
      apply B'. congruence.
Qed.
Print Assumptions course_potential_exact.

