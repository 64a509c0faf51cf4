(** Proofs about the rules common to all majors. *)
From Coq Require Import List ZArith QArith Bool String Lia Lqa.
From Verif Require Import Prelude Dec Status Course Claims Exceptions Op Context CondExpr Predicate Limit Apply Assertion Query CourseRule Tree Solve Transcript Driver Area Loader AreaLoad.
From Verif Require Import ListFacts OpProofs PredicateSpec PredicateProofs TranscriptSpec ExceptionsProofs ApplyProofs AssertionSpec AssertionProofs AssertionProps QuerySpec QueryProofs QueryProps CommonSpec.
Import ListNotations.
Local Open Scope string_scope.
Local Open Scope list_scope.

(** ** No exceptions *)
Definition quiet (cx : ctx) (p : path) : Prop := exc_at (cx_exc cx) p = [].
Lemma quiet_waive cx p : quiet cx p -> get_waive (cx_exc cx) p = None.
Proof. unfold quiet, get_waive. now intros ->. Qed.
Lemma quiet_value cx p : quiet cx p -> get_value (cx_exc cx) p = None.
Proof. unfold quiet, get_value. now intros ->. Qed.
Lemma quiet_inserts cx p : quiet cx p -> get_inserts (cx_exc cx) p = [].
Proof. unfold quiet, get_inserts. now intros ->. Qed.
Lemma quiet_blocks cx p : quiet cx p -> get_blocks (cx_exc cx) p = [].
Proof. unfold quiet, get_blocks. now intros ->. Qed.
Lemma common_quiet cx es s : cx_exc cx = group_exceptions es -> no_common_exceptions es -> quiet cx (["$"; "%Common Requirements"] ++ s).
Proof.
  intros E N. unfold quiet. rewrite E. rewrite (proj1 (proj2 (groups_ok es))).
  destruct (filter _ es) as [|e l] eqn:F; [reflexivity|]. exfalso.
  assert (X : In e (filter (fun e => path_eqb (ex_path e) (["$"; "%Common Requirements"] ++ s)) es)) by (rewrite F; now left).
  apply filter_In in X as [X Y]. apply path_eqb_iff in Y. exact (N e s X Y).
Qed.

(** ** The best solution of a common rule *)
Lemma evaluated_status a cs s r : evaluate_with_courses a cs = Ok (s, r) -> combine_statuses [s] = s.
Proof.
  intro H. destruct (passing_iff_comparison_holds _ _ _ _ H) as (_ & P & N).
  destruct s; try reflexivity; exfalso.
  - assert (X : ~ meets (as_op a) (ap_value r) (dval (as_expected a))) by (intro M; apply P in M; simpl in M; intuition discriminate).
    apply N in X. destruct (as_op a); cbn in X; intuition discriminate.
Qed.
Lemma filter_courses w : forall l, filter_res (fun x => apply_pred x w) (map ICourse l) =
  match filter_res (fun c => apply_pred (ICourse c) w) l with Ok cs => Ok (map ICourse cs) | Err e => Err e end.
Proof.
  induction l as [|c l IH]; [reflexivity|]. cbn. destruct (apply_pred (ICourse c) w) as [b|]; cbn; [|reflexivity].
  rewrite IH. destruct (filter_res _ l); cbn; [|reflexivity]. now destruct b.
Qed.
Lemma common_best ord cx i q a w :
  quiet cx (e_path i) -> quiet cx (q_path q) -> quiet cx (as_path a) ->
  e_audited i = false ->
  q_source q = QCourses -> q_overridden q = false -> q_attempt q = false -> q_limit q = [] -> q_where q = Some w ->
  q_excluded q = [] -> q_failed_too q = false -> q_asserts q = [APlain a] ->
  as_overridden a = false -> as_where a = None -> as_type a = DtCourse ->
  match best_or_fail ord cx (NReq KRule i (Some (NQuery KRule q))) with
  | Ok r => exists cs s calc, filter_res (fun c => apply_pred (ICourse c) w) (cx_transcript cx) = Ok cs /\
      evaluate_with_courses a cs = Ok (s, calc) /\ status_of r = s
  | Err e => filter_res (fun c => apply_pred (ICourse c) w) (cx_transcript cx) = Err e \/
      exists cs, filter_res (fun c => apply_pred (ICourse c) w) (cx_transcript cx) = Ok cs /\ evaluate_with_courses a cs = Err e
  end.
Proof.
  intros Qe Qq Qa AU SO OV AT LI WH EX FT AS AO AW AY.
  assert (F1 : filter (fun c => negb (instr (c_clbid c) (q_excluded q))) (cx_transcript cx) = cx_transcript cx).
  { rewrite EX. clear. induction (cx_transcript cx) as [|c l IH]; cbn; [reflexivity|]. f_equal. exact IH. }
  unfold best_or_fail, find_best_solution.
  destruct (filter_res (fun c => apply_pred (ICourse c) w) (cx_transcript cx)) as [cs|e] eqn:FR.
  - assert (SL : solutions ord cx (NReq KRule i (Some (NQuery KRule q))) = Gen [req_solution i (Some (NQuery KSol (q_solution q (map ICourse cs) [] []))) false] None).
    { cbn [solutions]. unfold waived. rewrite (quiet_waive _ _ Qe). unfold q_solutions. rewrite OV. unfold q_filtered. rewrite WH, SO. unfold q_data. rewrite SO, FT.
      rewrite F1, filter_courses, FR. cbn [bind]. rewrite (quiet_inserts _ _ Qq). cbn [q_insert]. rewrite as_courses_map, LI. cbn [limited_transcripts].
      unfold q_selections. rewrite AT. reflexivity. }
    rewrite SL. cbn [g_items g_exn best_loop audit req_solution e_overridden kind_of].
    set (qs := q_solution q (map ICourse cs) [] []) in *.
    assert (QA : match q_audit cx [] qs with
                 | Ok (q', _) => exists s calc, evaluate_with_courses a cs = Ok (s, calc) /\ q_status q' = s
                 | Err e => evaluate_with_courses a cs = Err e end).
    { unfold q_audit. replace (q_overridden qs) with false by (symmetry; exact OV). replace (q_source qs) with QCourses by (symmetry; exact SO).
      replace (q_asserts qs) with [APlain a] by (symmetry; exact AS).
      cbn [qs q_solution q_output]. rewrite as_courses_map. cbn [bind].
      match goal with |- context [collect_courses ?m ?t ?x cs] => assert (CC : exists ok, collect_courses m t x cs = Ok (cs, ok, [], [])) end.
      { unfold collect_courses, qs. cbn [q_solution q_attempt q_record]. rewrite AT. destruct (q_record q); [rewrite claim_all_runs|]; eexists; reflexivity. }
      destruct CC as [ok CC].
      match goal with |- context [collect_courses ?m ?t ?x cs] => replace (collect_courses m t x cs) with (Ok (cs, ok, [] : list claim, [] : claims)) by (symmetry; exact CC) end.
      cbn [bind qsource_eqb existsb forallb andb].
      assert (SK : (match map ICourse cs with [] => true | _ :: _ => false end && ((any_is_lt (APlain a) || false) && negb (any_is_lt (APlain a) && true)))%bool = false).
      { destruct (any_is_lt (APlain a)); destruct (map ICourse cs); reflexivity. }
      rewrite SK. cbn [mapr audit_any]. unfold audit_assertion. rewrite AO, AW, (quiet_inserts _ _ Qa), (quiet_blocks _ _ Qa). cbn [bind insert_items block_items fst].
      unfold evaluate_items. rewrite AY, as_courses_map. cbn [bind].
      destruct (evaluate_with_courses a cs) as [[s calc]|] eqn:EC; cbn [bind]; [|reflexivity].
      exists s, calc. split; [reflexivity|]. unfold q_status. cbn [q_result q_overridden q_asserts map any_status with_outcome as_state fst]. eapply evaluated_status, EC. }
    destruct (q_audit cx [] qs) as [[q' t']|e]; cbn [bind]; [|right; exists cs; auto].
    destruct QA as (s & calc & EC & ST). cbn [rank_of e_overridden e_audited bind]. rewrite AU. cbn [bind].
    match goal with |- context [boosted ?x ?y] => destruct (boosted x y) as [rk mx] end.
    assert (SS : status_of (NReq KRes (mkReq (e_path i) false (e_name i) (e_audited i) (e_contract i) (e_in_gpa i) (e_disjoint i)) (Some (NQuery KRes q'))) = s).
    { cbn [status_of]. unfold req_status. cbn [e_overridden e_audited andb]. now rewrite AU, ST. }
    rewrite AU in SS. destruct (inS _ _); cbn [bind]; exists cs, s, calc; auto.
  - assert (SL : solutions ord cx (NReq KRule i (Some (NQuery KRule q))) = Gen [] (Some e)).
    { cbn [solutions]. unfold waived. rewrite (quiet_waive _ _ Qe). unfold q_solutions. rewrite OV. unfold q_filtered. rewrite WH, SO. unfold q_data. rewrite SO, FT.
      rewrite F1, filter_courses, FR. reflexivity. }
    rewrite SL. left. reflexivity.
Qed.

(** ** What the clauses ask *)
Definition decides (w : pred) (P : course -> Prop) : Prop := forall c, exists b, apply_pred (ICourse c) w = Ok b /\ (b = true <-> P c).
Lemma decides_and l Ps : Forall2 decides l Ps -> decides (PAnd l) (fun c => Forall (fun P => P c) Ps).
Proof.
  intros H c. cbn. induction H as [|w P l Ps D H (b & E & B)]; cbn; [exists true; split; [reflexivity|]; split; auto|].
  destruct (D c) as (b1 & E1 & B1). rewrite E1. cbn. destruct b1.
  - exists b. split; [exact E|]. rewrite B. split; [intro F; constructor; [now apply B1|exact F]|intro F; inversion F; auto].
  - exists false. split; [reflexivity|]. split; [discriminate|]. intro F. inversion F; subst. now apply B1.
Qed.
Lemma decides_or l Ps : Forall2 decides l Ps -> decides (POr l) (fun c => Exists (fun P => P c) Ps).
Proof.
  intros H c. cbn. induction H as [|w P l Ps D H (b & E & B)]; cbn; [exists false; split; [reflexivity|]; split; [discriminate|intro F; inversion F]|].
  destruct (D c) as (b1 & E1 & B1). rewrite E1. cbn. destruct b1.
  - exists true. split; [reflexivity|]. split; auto. intros _. apply Exists_cons_hd. now apply B1.
  - exists b. split; [exact E|]. rewrite B. split; [intro F; now apply Exists_cons_tl|intro F; inversion F; subst; auto; apply B1 in H1; discriminate].
Qed.
Lemma decides_iff w P Q : decides w P -> (forall c, P c <-> Q c) -> decides w Q.
Proof. intros D E c. destruct (D c) as (b & A & B). exists b. split; [exact A|]. now rewrite B. Qed.
Lemma counted_exists c : exists g, counted_grade c g.
Proof.
  destruct (c_covid c) eqn:C; [|eexists; now apply cg_normal].
  destruct (grade_code_eq_dec (c_grade_code c) G_S) as [S|S]; [|eexists; now apply cg_covid_letter].
  destruct (c_su_grade c) eqn:U; eexists; [eapply cg_covid_su; eauto|now apply cg_covid_s].
Qed.
Lemma counted_once c g h : counted_grade c g -> counted_grade c h -> g = h.
Proof. intros A B. inversion A; subst; inversion B; subst; congruence. Qed.
Definition grade_leaf := mkLeaf "grade" OGte (VS (SGrade GC)) (Some (VS (SGrade GCminus))).
Lemma decides_grade : decides (PLeaf grade_leaf) c_or_better.
Proof.
  intro c. destruct (counted_exists c) as [g G].
  assert (T : counted_threshold c grade_leaf (VS (SGrade (if c_covid c then GCminus else GC)))).
  { destruct (c_covid c) eqn:C; [now apply ct_covid|now apply (ct_normal c grade_leaf)]. }
  assert (E := leaf_compares (ICourse c) grade_leaf _ _ (cp_grade c grade_leaf g _ eq_refl G T)).
  cbn [apply_pred]. rewrite E.
  assert (U : c_or_better c <-> (In g [GAplus; GA; GAminus; GBplus; GB; GBminus; GCplus; GC] \/ (g = GCminus /\ c_covid c = true))).
  { unfold c_or_better. split; [intros (h & H & Y); now rewrite (counted_once c g h G H)|eauto]. }
  destruct (c_covid c); (eexists; split; [reflexivity|]); rewrite U; destruct g; cbn; intuition congruence.
Qed.
Lemma decides_ip : decides (PLeaf (mkLeaf "is_in_progress" OEq (VS (SBool true)) None)) (fun c => c_in_progress c = true).
Proof.
  intro c. cbn [apply_pred]. rewrite (leaf_compares (ICourse c) _ _ _ (cp_course c (mkLeaf "is_in_progress" OEq (VS (SBool true)) None) _ (cf_ip c))).
  exists (c_in_progress c). split; [destruct (c_in_progress c); reflexivity|tauto].
Qed.
Lemma decides_credits_gt : decides (PLeaf (mkLeaf "credits" OGt (VS (SDec (mkDec 0 0))) None)) (fun c => (0 < dval (c_credits c))%Q).
Proof.
  intro c. cbn [apply_pred]. rewrite (leaf_compares (ICourse c) _ _ _ (cp_course c (mkLeaf "credits" OGt (VS (SDec (mkDec 0 0))) None) _ (cf_credits c))).
  cbn [apply_operator l_op l_expected]. unfold op_scalar. cbn -[dval Qcompare]. eexists. split; [reflexivity|].
  change (dval {| dcoef := 0; dexp := 0 |}) with 0%Q. destruct (Qcompare_spec (dval (c_credits c)) 0) as [H|H|H]; split; intro X; try discriminate; try reflexivity; lra.
Qed.
Lemma decides_credits_eq : decides (PLeaf (mkLeaf "credits" OEq (VS (SDec (mkDec 1 0))) None)) full_course.
Proof.
  intro c. cbn [apply_pred]. rewrite (leaf_compares (ICourse c) _ _ _ (cp_course c (mkLeaf "credits" OEq (VS (SDec (mkDec 1 0))) None) _ (cf_credits c))).
  cbn [apply_operator l_op l_expected]. unfold op_scalar. cbn -[dval Qeq_bool]. eexists. split; [reflexivity|].
  unfold full_course. change (dval {| dcoef := 1; dexp := 0 |}) with 1%Q. apply Qeq_bool_iff.
Qed.
Lemma decides_su : decides (PLeaf (mkLeaf "grade_option" OEq (VS (SOpt GoSU)) None)) (fun c => c_grade_option c = GoSU).
Proof.
  intro c. cbn [apply_pred]. rewrite (leaf_compares (ICourse c) _ _ _ (cp_course c (mkLeaf "grade_option" OEq (VS (SOpt GoSU)) None) _ (cf_option c))).
  eexists. split; [reflexivity|]. destruct (c_grade_option c); cbn; intuition congruence.
Qed.
Lemma subject_exists c : exists s, counted_subject c s.
Proof.
  destruct (c_chbi c) as [n|] eqn:C; [|eexists; now apply cs_plain].
  destruct (Z.eq_dec n 125) as [->|A]; [eexists; now apply cs_125|]. destruct (Z.eq_dec n 126) as [->|B]; [eexists; now apply cs_126|].
  eexists. eapply cs_bio; eauto.
Qed.
Lemma subject_once c s t : counted_subject c s -> counted_subject c t -> s = t.
Proof. intros A B. inversion A; subst; inversion B; subst; congruence. Qed.
Lemma decides_subject d : decides (PLeaf (mkLeaf "subject" ONeq (VS (SStr d)) None)) (fun c => forall s, counted_subject c s -> s <> d).
Proof.
  intro c. destruct (subject_exists c) as [s S]. cbn [apply_pred].
  rewrite (leaf_compares (ICourse c) _ _ _ (cp_course c (mkLeaf "subject" ONeq (VS (SStr d)) None) _ (cf_subject c s S))).
  exists (negb (s =? d)). split; [cbn; reflexivity|]. rewrite negb_true_iff, String.eqb_neq. split; [|auto].
  intros N t T. now rewrite (subject_once c t s T S).
Qed.
Lemma decides_not_in l : decides (PLeaf (mkLeaf "subject" ONin (VT (map SStr l)) None)) (fun c => forall s, counted_subject c s -> ~ In s l).
Proof.
  intro c. destruct (subject_exists c) as [s S]. cbn [apply_pred].
  rewrite (leaf_compares (ICourse c) _ _ _ (cp_course c (mkLeaf "subject" ONin (VT (map SStr l)) None) _ (cf_subject c s S))).
  cbn [apply_operator l_op l_expected is_none op_half_r].
  assert (X : all_res (fun v => op_scalar ONeq (SStr s) v) (map SStr l) = Ok (forallb (fun d => negb (s =? d)) l)).
  { clear. induction l as [|d l IH]; [reflexivity|]. cbn [map all_res forallb]. change (op_scalar ONeq (SStr s) (SStr d)) with (Ok (negb (s =? d))). cbn [bind].
    destruct (s =? d); [reflexivity|exact IH]. }
  rewrite X. eexists. split; [reflexivity|]. rewrite forallb_forall. split.
  - intros H t T I'. rewrite (subject_once c t s T S) in I'. apply H in I'. rewrite String.eqb_refl in I'. discriminate.
  - intros H d D. apply negb_true_iff, String.eqb_neq. intros ->. exact (H d S D).
Qed.
Definition p_credits := PLeaf (mkLeaf "credits" OEq (VS (SDec (mkDec 1 0))) None).
Definition p_not (d : string) := PLeaf (mkLeaf "subject" ONeq (VS (SStr d)) None).
Definition p_six : pred :=
  PAnd [POr [PLeaf grade_leaf; PLeaf (mkLeaf "is_in_progress" OEq (VS (SBool true)) None)]; PLeaf (mkLeaf "credits" OGt (VS (SDec (mkDec 0 0))) None)].
Lemma decides_six : decides p_six for_six_credits.
Proof.
  eapply decides_iff; [apply decides_and; constructor; [apply decides_or; constructor; [exact decides_grade|constructor; [exact decides_ip|constructor]]|constructor; [exact decides_credits_gt|constructor]]|].
  intro c. unfold for_six_credits. split.
  - intro F. inversion F as [|? ? E F']; subst. inversion F' as [|? ? L _]; subst. split; [|exact L]. inversion E as [? ? X|? ? X]; subst; [now left|right]. now inversion X as [? ? Y|? ? Y]; subst.
  - intros [[A|A] L]; constructor; auto.
Qed.
Definition p_su (bm : bool) : pred :=
  if bm then PLeaf (mkLeaf "grade_option" OEq (VS (SOpt GoSU)) None) else PAnd [PLeaf (mkLeaf "grade_option" OEq (VS (SOpt GoSU)) None); p_credits].
Lemma decides_taken_su bm : decides (p_su bm) (taken_su bm).
Proof.
  destruct bm; unfold taken_su; [eapply decides_iff; [exact decides_su|intuition]|].
  eapply decides_iff; [apply decides_and; constructor; [exact decides_su|constructor; [exact decides_credits_eq|constructor]]|].
  intro c. split.
  - intro F. inversion F as [|? ? E F']; subst. inversion F' as [|? ? L _]; subst. auto.
  - intros [A [[=]|B]]. repeat constructor; auto.
Qed.
Lemma outside_alt l c : outside_of l c <-> (forall s, counted_subject c s -> ~ In s l) /\ (forall s, counted_subject c s -> s <> "REG") /\ (forall s, counted_subject c s -> s <> "OFFC").
Proof.
  split.
  - intros (s & S & A & B & C). repeat split; intros t T; rewrite (subject_once c t s T S); assumption.
  - intros (A & B & C). destruct (subject_exists c) as [s S]. exists s. auto.
Qed.
Lemma decides_outside d : decides (PAnd [p_not d; p_not "REG"; p_not "OFFC"]) (outside_of [d]).
Proof.
  eapply decides_iff; [apply decides_and; constructor; [apply decides_subject|constructor; [apply decides_subject|constructor; [apply decides_subject|constructor]]]|].
  intro c. rewrite outside_alt. split.
  - intro F. inversion F as [|? ? A F']; subst. inversion F' as [|? ? B F'']; subst. inversion F'' as [|? ? C _]; subst. repeat split; auto. intros s S [<-|[]]. now apply (A d).
  - intros (A & B & C). repeat constructor; auto. intros s S ->. apply (A d S). now left.
Qed.
Lemma decides_outside_arts : decides (PAnd [p_not "ART"; p_not "REG"; p_not "OFFC"; p_credits]) (fun c => outside_of ["ART"] c /\ full_course c).
Proof.
  eapply decides_iff; [apply decides_and; constructor; [apply decides_subject|constructor; [apply decides_subject|constructor; [apply decides_subject|constructor; [exact decides_credits_eq|constructor]]]]|].
  intro c. rewrite outside_alt. split.
  - intro F. inversion F as [|? ? A F']; subst. inversion F' as [|? ? B F'']; subst. inversion F'' as [|? ? C F3]; subst. inversion F3 as [|? ? D _]; subst. repeat split; auto. intros s S [<-|[]]. now apply (A "ART").
  - intros ((A & B & C) & D). repeat constructor; auto. intros s S ->. apply (A _ S). now left.
Qed.
Lemma decides_outside_music : decides (PAnd [PLeaf (mkLeaf "subject" ONin (VT (map SStr ["MUSIC"; "MUSPF"; "MUSEN"])) None); p_not "REG"; p_not "OFFC"]) (outside_of ["MUSIC"; "MUSPF"; "MUSEN"]).
Proof.
  eapply decides_iff; [apply decides_and; constructor; [apply decides_not_in|constructor; [apply decides_subject|constructor; [apply decides_subject|constructor]]]|].
  intro c. rewrite outside_alt. split.
  - intro F. inversion F as [|? ? A F']; subst. inversion F' as [|? ? B F'']; subst. inversion F'' as [|? ? C _]; subst. auto.
  - intros (A & B & C). repeat constructor; auto.
Qed.
Lemma decided_filter w P : decides w P -> forall l cs, filter_res (fun c => apply_pred (ICourse c) w) l = Ok cs -> those P l cs.
Proof.
  intros D l cs H. exists (fun c => match apply_pred (ICourse c) w with Ok b => b | Err _ => false end). split.
  - intros c _. destruct (D c) as (b & E & B). now rewrite E.
  - revert cs H. induction l as [|c l IH]; intros cs H; cbn in *; [now injection H as <-|]. destruct (D c) as (b & E & B). rewrite E in *. cbn in H.
    destruct (filter_res _ l) as [r|]; cbn in H; [|discriminate]. rewrite <- (IH r eq_refl). destruct b; injection H as <-; reflexivity.
Qed.

(** ** How the rules are loaded *)
Definition under (p : path) : Prop := exists s, p = ["$"; "%Common Requirements"] ++ s.
Definition common_shape (n : node) (w : pred) (k : akey) (op : operator) (z : Z) : Prop :=
  exists i q a, n = NReq KRule i (Some (NQuery KRule q)) /\
  e_audited i = false /\
  q_source q = QCourses /\ q_overridden q = false /\ q_attempt q = false /\ q_limit q = [] /\ q_where q = Some w /\
  q_excluded q = [] /\ q_failed_too q = false /\ q_asserts q = [APlain a] /\
  as_overridden a = false /\ as_where a = None /\ as_type a = DtCourse /\ as_key a = k /\ as_op a = op /\ (dval (as_expected a) == inject_Z z)%Q /\ as_ip_pass a = false /\
  under (e_path i) /\ under (q_path q) /\ under (as_path a).
Definition all_quiet (cx : ctx) : Prop := forall p, under p -> quiet cx p.
Ltac shaped :=
  do 3 eexists; split; [reflexivity|]; repeat (split; [reflexivity|]); repeat split; eexists; cbn; reflexivity.
Lemma quiet_w cx s : all_quiet cx -> get_waive (cx_exc cx) ("$" :: "%Common Requirements" :: s) = None.
Proof. intro Q. apply quiet_waive, Q. now exists s. Qed.
Lemma quiet_v cx s : all_quiet cx -> get_value (cx_exc cx) ("$" :: "%Common Requirements" :: s) = None.
Proof. intro Q. apply quiet_value, Q. now exists s. Qed.
Ltac shape Q N :=
  match type of N with ?l = _ => let l' := eval cbv -[get_waive get_value cx_exc dval Qeq_bool starts_dollar] in l in change (l' = Ok ltac:(match type of N with _ = Ok ?n => exact n end)) in N end;
  rewrite ?(quiet_w _ _ Q), ?(quiet_v _ _ Q) in N.
Lemma six_shape cx c tm n : all_quiet cx ->
  load_common cx c tm "Credits at a C or higher" (common_body (Some c_or_better_query) false) "[0]" = Ok n -> common_shape n p_six KSumCredits OGte 6.
Proof.
  intros Q N. shape Q N. injection N as <-. shaped.
Qed.

Lemma su_shape cx c tm bm n : all_quiet cx ->
  load_common cx c tm "Credits taken S/U" (common_body (Some (s_u_query bm)) false) "[1]" = Ok n ->
  common_shape n (p_su bm) KCourses (if bm then OEq else OLte) (if bm then 0 else 1).
Proof. intros Q N. destruct bm; shape Q N; injection N as <-; shaped. Qed.
Definition p_outside (arts music : bool) (d : string) : pred :=
  if arts then PAnd [p_not "ART"; p_not "REG"; p_not "OFFC"; p_credits]
  else if music then PAnd [PLeaf (mkLeaf "subject" ONin (VT (map SStr ["MUSIC"; "MUSPF"; "MUSEN"])) None); p_not "REG"; p_not "OFFC"]
  else PAnd [p_not d; p_not "REG"; p_not "OFFC"].
Lemma outside_shape cx c tm d code others n : all_quiet cx -> starts_dollar d = false ->
  load_common cx c tm "Credits outside the major" (outside_body (Some d) code others) "[2]" = Ok n ->
  exists arts, (arts = true <-> both_arts code others) /\
  common_shape n (p_outside arts (code =? "450") d) KSumCredits OGte (if arts then 18 else 21).
Proof.
  intros Q D N. exists (((code =? "140") && existsb (String.eqb "135") others) || ((code =? "135") && existsb (String.eqb "140") others)). split.
  { assert (E : forall x, existsb (String.eqb x) others = true <-> In x others).
    { intro x. rewrite existsb_exists. split; [intros (y & Y & B); apply String.eqb_eq in B; now subst|intro I'; exists x; split; [exact I'|apply String.eqb_refl]]. }
    unfold both_arts. now rewrite orb_true_iff, !andb_true_iff, !String.eqb_eq, !E. }
  unfold outside_body, outside_query in N.
  destruct (((code =? "140") && existsb (String.eqb "135") others) || ((code =? "135") && existsb (String.eqb "140") others)); [|destruct (code =? "450")].
  - shape Q N. injection N as <-. shaped.
  - shape Q N. injection N as <-. shaped.
  - shape Q N. rewrite D, ?(quiet_w _ _ Q), ?(quiet_v _ _ Q) in N. injection N as <-. shaped.
Qed.
Lemma audited_shape cx c tm code others n :
  load_common cx c tm "Credits outside the major" (outside_body None code others) "[2]" = Ok n ->
  exists i, n = NReq KRule i None /\ e_audited i = true /\ under (e_path i) /\ e_overridden i = false.
Proof. intro N. cbv -[get_waive get_value cx_exc] in N. injection N as <-. eexists. split; [reflexivity|]. repeat split. eexists. cbn. reflexivity. Qed.

(** ** How the rules are answered *)
Lemma eval_error a cs e : as_key a = KSumCredits \/ as_key a = KCourses -> numeric (as_op a) -> evaluate_with_courses a cs = Err e -> e = AssertErr \/ e = OtherErr.
Proof.
  intros K N H. unfold evaluate_with_courses in H.
  assert (CA : In (as_key a) course_actions) by (destruct K as [-> | ->]; simpl; tauto).
  destruct (apply_total (as_key a) cs cs CA) as [r E]. rewrite E in H. cbn [bind] in H.
  destruct (compare_num_total (as_op a) (ap_value r) (dval (as_expected a)) N) as [b B]. rewrite B in H. cbn [bind] in H. destruct b; [|discriminate].
  match type of H with bind ?x _ = _ => assert (X : exists b', x = Ok b') end.
  { destruct (existsb c_in_progress (ap_courses r)); [|eauto]. destruct (apply_total (as_key a) (filter (fun c => negb (c_in_progress c)) cs) [] CA) as [r' E']. rewrite E'. cbn [bind]. now apply compare_num_total. }
  destruct X as [b' X]. rewrite X in H. cbn [bind] in H.
  destruct (as_ip_pass a || b'); [discriminate|]. destruct (existsb c_in_progress (ap_courses r)); [|discriminate].
  destruct (negb _); [injection H as <-; auto|]. destruct (_ && _); [discriminate|]. destruct (existsb c_ip_in_future _); [discriminate|]. injection H as <-. auto.
Qed.
Lemma passing_in s : In s passing_statuses <-> passing s.
Proof. unfold passing, complete, passing_statuses. cbn [In]. intuition. Qed.
Lemma shape_best ord cx n w k op z P : all_quiet cx -> common_shape n w k op z -> decides w P -> k = KSumCredits \/ k = KCourses -> numeric op ->
  match best_or_fail ord cx n with
  | Ok r => exists cs v, those P (cx_transcript cx) cs /\ measures k cs v /\
      (passing (status_of r) <-> meets op v (inject_Z z)) /\
      (complete (status_of r) <-> meets op v (inject_Z z) /\ exists v', measures k (finished cs) v' /\ meets op v' (inject_Z z)) /\
      (~ meets op v (inject_Z z) -> short_status op v (inject_Z z) (status_of r))
  | Err e => e <> IndexErr
  end.
Proof.
  intros Q (i & q & a & -> & AU & SO & OV & AT & LI & WH & EX & FT & AS & AO & AW & AY & <- & <- & EE & IP & U1 & U2 & U3) D K N.
  assert (X := common_best ord cx i q a w (Q _ U1) (Q _ U2) (Q _ U3) AU SO OV AT LI WH EX FT AS AO AW AY).
  destruct (best_or_fail ord cx _) as [r|e].
  - destruct X as (cs & s & calc & F & E & ->). exists cs, (ap_value calc). split; [eapply decided_filter; eauto|].
    destruct (passing_iff_comparison_holds _ _ _ _ E) as (M & PS & SH).
    assert (ME : forall v, meets (as_op a) v (dval (as_expected a)) <-> meets (as_op a) v (inject_Z z)).
    { intro v. split; apply meets_ext; lra. }
    split; [exact M|]. rewrite passing_in, ME in PS. split; [exact PS|].
    assert (SH' : ~ meets (as_op a) (ap_value calc) (inject_Z z) -> short_status (as_op a) (ap_value calc) (inject_Z z) s).
    { intro H. rewrite <- ME in H. apply SH in H. revert H. unfold short_status. destruct (as_op a); rewrite ?EE; auto. }
    split; [|exact SH']. split.
    + intro C. assert (P0 : passing s) by (now left). apply PS in P0. split; [exact P0|]. apply ME in P0.
      destruct (done_iff_finished_courses_suffice a cs s calc) as (DN & _); try assumption; try (destruct K as [-> | ->]; discriminate).
      assert (SD : s = Done). { destruct C as [C|C]; [exact C|]. subst s. exfalso. clear -E. revert E. unfold evaluate_with_courses. repeat match goal with |- context [bind ?x _] => destruct x; cbn [bind] | |- context [if ?x then _ else _] => destruct x end; try discriminate. all: unfold unmet; destruct (as_op a); repeat match goal with |- context [if ?x then _ else _] => destruct x end; discriminate. }
      apply DN in SD as [SD|(v' & A & B)]; [congruence|]. exists v'. rewrite ME in B. auto.
    + intros (A & v' & B & C). apply ME in A, C.
      destruct (done_iff_finished_courses_suffice a cs s calc) as (DN & _); try assumption; try (destruct K as [-> | ->]; discriminate).
      left. apply DN. right. eauto.
  - destruct X as [X|(cs & X & E)].
    + exfalso. revert X. generalize (cx_transcript cx). intro l. revert e. induction l as [|c l IH]; intros e X; cbn in X; [discriminate|].
      destruct (D c) as (b & Eb & _). rewrite Eb in X. cbn in X. destruct (filter_res _ l) as [x|] eqn:FR; cbn in X; [destruct b; discriminate|]. injection X as ->. eapply IH; reflexivity.
    + apply eval_error in E; [|exact K|exact N]. destruct E as [-> | ->]; discriminate.
Qed.
