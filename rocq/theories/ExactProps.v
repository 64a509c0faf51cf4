(** Exact accounts of functions whose outcome the other properties only pin down in part: when
    a claim raises, what counts as claimed, which rules are declared disjoint, what a course
    result keeps, and which course rules are refused (C01, C72, C75, C84). *)
From Coq Require Import List ZArith QArith Bool Ascii String Lia.
From Verif Require Import Prelude Dec Status Course Claims Exceptions Op Grades Context CondExpr Predicate Limit LimitLoad Assertion Query CourseRule Tree.
From Verif Require Import ListFacts ClaimsSpec ClaimsProofs QuerySpec CourseRuleSpec CourseRuleProofs CourseRuleProps PredicateProofs AssertionSpec TreeSpec SolveSpec QueryProps.
Import ListNotations.
Local Open Scope string_scope.
Local Open Scope list_scope.

(** ** Claims *)
Theorem has_claim_exact : forall t k, has_claim t k = true <-> claimed t k.
Proof.
  intros t k. unfold has_claim, claimed. rewrite dget_recorded. destruct (dget t k) as [[|x l]|]; split; congruence.
Qed.
Print Assumptions has_claim_exact.

Lemma reqs_err p e : reqs_only p = Err e <-> e = IndexErr /\ In "" p.
Proof.
  revert e. induction p as [|s p IH]; intro e; cbn [reqs_only]; [split; [discriminate|intros [_ []]]|].
  destruct s as [|a s]; cbn [is_req_component bind].
  - split; [intros [= <-]; split; simpl; auto|intros [-> _]; reflexivity].
  - destruct (reqs_only p) as [rs|e'] eqn:E; cbn [bind].
    + split; [discriminate|]. intros [-> [X|X]]; [discriminate|]. discriminate (proj2 (IH IndexErr) (conj eq_refl X)).
    + destruct (proj1 (IH e') eq_refl) as [-> I]. split; [intros [= <-]; split; simpl; auto|]. intros [-> _].
      reflexivity.
Qed.
Lemma reqs_raise p e : reqs_only p = Err e -> e = IndexErr.
Proof. intro H. apply reqs_err in H. tauto. Qed.
Lemma reqs_total p : (exists rs, reqs_only p = Ok rs) <-> ~ In "" p.
Proof.
  split.
  - intros [rs H] I. assert (X := proj2 (reqs_err p IndexErr) (conj eq_refl I)). congruence.
  - intro N. destruct (reqs_only p) as [rs|e] eqn:E; [eauto|]. apply reqs_err in E. tauto.
Qed.
(** making a claim raises only on a malformed path: an exclusive claim of a multicountable
    course of which there is a record, when a component of the path of this claim or of an
    earlier one is empty *)
Theorem claim_raises_exactly :
  forall mc t c p shared e, make_claim mc t c p shared = Err e <->
  e = IndexErr /\ shared = false /\ In (c_clbid c) (map fst t) /\ is_multicountable mc c /\
  (In "" p \/ exists cl, In cl (recorded t (c_clbid c)) /\ In "" (cl_by cl)).
Proof.
  intros mc t c p shared e. unfold make_claim. destruct shared; [split; [discriminate|intros [_ [X _]]; discriminate]|].
  rewrite dget_recorded. destruct (dget t (c_clbid c)) as [prior|] eqn:D.
  2:{ split; [discriminate|]. intros (_ & _ & I & _). apply dget_None_notin in D. contradiction. }
  assert (IK : In (c_clbid c) (map fst t)).
  { destruct (in_dec string_dec (c_clbid c) (map fst t)) as [I|N]; auto. apply dget_None_notin in N. congruence. }
  change (course_ident c) with (c_identity c). unfold is_multicountable.
  destruct (dget mc (c_identity c)) as [ps|] eqn:M.
  2:{ split; [destruct prior; discriminate|]. intros (_ & _ & _ & I & _). apply dget_None_notin in M. contradiction. }
  assert (IM : In (c_identity c) (map fst mc)).
  { destruct (in_dec string_dec (c_identity c) (map fst mc)) as [I|N]; auto. apply dget_None_notin in N. congruence. }
  unfold make_multicountable_claim. rewrite D. change (course_ident c) with (c_identity c). rewrite M.
  destruct (reqs_only p) as [rs|e1] eqn:R; cbn [bind].
  2:{ apply reqs_err in R. destruct R as [-> I]. split; [intros [= <-]; auto 10|intros [-> _]; reflexivity]. }
  assert (NP : ~ In "" p) by (apply reqs_total; eauto).
  destruct (mapr (fun cl => reqs_only (cl_by cl)) prior) as [qs|e1] eqn:Q; cbn [bind].
  - assert (NQ : forall cl, In cl prior -> ~ In "" (cl_by cl)).
    { intros cl I. apply reqs_total. apply mapr_ok in Q. destruct (F2_in_l _ _ _ _ Q I) as [y [_ E]]. eauto. }
    split.
    + intro H. exfalso. destruct (find _ ps); [destruct (filter _ _)|]; try destruct prior; discriminate.
    + intros (_ & _ & _ & _ & [I|[cl [I J]]]); [contradiction|]. destruct (NQ cl I J).
  - assert (X : e1 = IndexErr /\ exists cl, In cl prior /\ In "" (cl_by cl)).
    { clear - Q. induction prior as [|x l IH]; cbn [mapr] in Q; [discriminate|].
      destruct (reqs_only (cl_by x)) as [r|e2] eqn:R; cbn [bind] in Q.
      - destruct (mapr _ l) as [ys|e2] eqn:E; cbn [bind] in Q; [discriminate|]. injection Q as <-. destruct (IH eq_refl) as [-> [cl [I J]]]. split; auto. exists cl. simpl. auto.
      - injection Q as <-. apply reqs_err in R. destruct R as [-> I]. split; auto. exists x. simpl. auto. }
    destruct X as [-> X]. split; [intros [= <-]; auto 10|intros [-> _]; reflexivity].
Qed.
Print Assumptions claim_raises_exactly.
Example claim_raises_example :
  let c := mk_simple "100" "A" "1" in
  make_claim [(c_identity c, [["%x"]])] [("100", [mkClaim c ["$"] false])] c ["$"; ""] false = Err IndexErr /\
  make_claim [(c_identity c, [["%x"]])] [] c ["$"; ""] false = Ok (mkClaim c ["$"; ""] false, [("100", [mkClaim c ["$"; ""] false])]) /\
  has_claim [("100", [mkClaim c ["$"] false])] "100" = true /\ has_claim [("100", [])] "100" = false /\ has_claim [("100", [mkClaim c ["$"] false])] "200" = false.
Proof. vm_compute. auto. Qed.

(** ** Declared disjoint *)
Theorem always_disjoint_exact :
  forall n, always_disjoint n = true <->
  declares true n \/ exists q, query_below q n /\ q_allow q = true /\ q_attempt q = false /\ q_source q <> QClaimed.
Proof.
  induction n as [k r|k q|k i items IH|k i o IH|k i t f IHt IHf|k i c] using node_induction; cbn [always_disjoint].
  1, 3, 5, 6: split; [discriminate|intros [H|[q [H _]]]; inversion H].
  - destruct k; cbn.
    + unfold q_always_disjoint. rewrite !andb_true_iff, !negb_true_iff. split.
      * intros [[A B] C]. right. exists q. split; [constructor|]. repeat split; auto. intro E. rewrite E in C. discriminate.
      * intros [H|[q' [H [A [B C]]]]]; inversion H; subst. repeat split; auto. destruct (q_source q); auto. congruence.
    + split; [discriminate|intros [H|[q' [H _]]]; inversion H].
    + split; [discriminate|intros [H|[q' [H _]]]; inversion H].
  - assert (X : always_disjoint (NReq k i o) = true <-> e_disjoint i = Some true \/ exists x, o = Some x /\ always_disjoint x = true).
    { cbn [always_disjoint]. destruct (e_disjoint i) as [[|]|]; destruct o as [x|]; split; intro H; try discriminate; try (left; reflexivity); try (right; exists x; auto; fail); try exact eq_refl;
        destruct H as [H|[y [H1 H2]]]; try discriminate; injection H1 as <-; exact H2. }
    cbn [always_disjoint] in X. rewrite X. clear X. split.
    + intros [E|[x [-> H]]]; [left; constructor; exact E|]. apply (IH x eq_refl) in H. destruct H as [H|[q [H R]]]; [left; apply de_below; exact H|right; exists q; split; [apply qb_below; exact H|exact R]].
    + intros [H|[q [H R]]]; inversion H; subst; auto; right; exists x; split; auto; apply (IH x eq_refl); eauto.
Qed.
Print Assumptions always_disjoint_exact.
Theorem never_disjoint_exact :
  forall n, never_disjoint n = true <-> declares false n \/ exists q, query_below q n /\ q_source q = QClaimed.
Proof.
  induction n as [k r|k q|k i items IH|k i o IH|k i t f IHt IHf|k i c] using node_induction; cbn [never_disjoint].
  1, 3, 5, 6: split; [discriminate|intros [H|[q [H _]]]; inversion H].
  - destruct k; cbn.
    + unfold q_never_disjoint. split.
      * intro C. right. exists q. split; [constructor|]. destruct (q_source q); auto; discriminate.
      * intros [H|[q' [H C]]]; inversion H; subst. rewrite C. reflexivity.
    + split; [discriminate|intros [H|[q' [H _]]]; inversion H].
    + split; [discriminate|intros [H|[q' [H _]]]; inversion H].
  - assert (X : never_disjoint (NReq k i o) = true <-> e_disjoint i = Some false \/ exists x, o = Some x /\ never_disjoint x = true).
    { cbn [never_disjoint]. destruct (e_disjoint i) as [[|]|]; destruct o as [x|]; split; intro H; try discriminate; try (left; reflexivity); try (right; exists x; auto; fail); try exact eq_refl;
        destruct H as [H|[y [H1 H2]]]; try discriminate; injection H1 as <-; exact H2. }
    cbn [never_disjoint] in X. rewrite X. clear X. split.
    + intros [E|[x [-> H]]]; [left; constructor; exact E|]. apply (IH x eq_refl) in H. destruct H as [H|[q [H R]]]; [left; apply de_below; exact H|right; exists q; split; [apply qb_below; exact H|exact R]].
    + intros [H|[q [H R]]]; inversion H; subst; auto; right; exists x; split; auto; apply (IH x eq_refl); eauto.
Qed.
Print Assumptions never_disjoint_exact.
Example disjoint_example :
  let named d o := NReq KRule (mkReq ["$"; "%x"] false "x" false false false d) o in
  let leaf := NCourse KRule (mkCrule ["$"; "%x"; "*A 1"] false (Some "A 1") None None None None None None None None None None None false false false false false false [] None None) in
  always_disjoint (named (Some true) (Some leaf)) = true /\ never_disjoint (named (Some true) (Some leaf)) = false /\
  always_disjoint (named (Some false) (Some (named (Some true) None))) = true /\ never_disjoint (named (Some false) (Some (named (Some true) None))) = true /\
  always_disjoint (named None (Some leaf)) = false /\ never_disjoint (named None (Some leaf)) = false.
Proof. vm_compute. auto 10. Qed.

(** ** Course results *)
(** what the result of auditing a course solution keeps: the rule as written; what only the
    search needed is dropped *)
Theorem course_result_fields :
  forall mc t s r t', c_audit mc t s = Ok (r, t') ->
  r_path r = r_path s /\ r_overridden r = r_overridden s /\ r_course r = r_course s /\ r_clbid r = r_clbid s /\ r_crsid r = r_crsid s /\
  r_ap r = r_ap s /\ r_institution r = r_institution s /\ r_name r = r_name s /\ r_grade r = r_grade s /\ r_grade_option r = r_grade_option s /\
  r_year r = r_year s /\ r_term r = r_term s /\ r_section r = r_section s /\ r_sub_type r = r_sub_type s /\ r_allow r = r_allow s /\
  r_optional r = r_optional s /\ r_inserted r = r_inserted s /\
  r_from_claimed r = false /\ r_forced r = false /\ r_auto_waived r = false /\ r_excluded r = [] /\ r_matched r = None.
Proof.
  intros mc t s r t' H. assert (X : exists cl, r = c_result s cl (r_overridden s)).
  { unfold c_audit in H. destruct (r_overridden s); [injection H as <- <-; eauto|]. destruct (r_matched s) as [c|]; [|injection H as <- <-; eauto].
    destruct (r_from_claimed s && _)%bool; [injection H as <- <-; eauto|]. destruct (make_claim _ _ _ _ _) as [[cl t1]|]; cbn [bind] in H; [|discriminate].
    destruct (r_from_claimed s && _)%bool; [discriminate|]. injection H as <- <-. eauto. }
  destruct X as [cl ->]. cbn. repeat (split; [reflexivity|]). reflexivity.
Qed.
Print Assumptions course_result_fields.

(** ** Refused course rules *)
Definition nothing (o : option string) : Prop := o = None \/ o = Some "".
Lemma given_no o : given o = false <-> nothing o.
Proof.
  unfold given, nothing. destruct o as [s|]; [|split; auto]. rewrite negb_false_iff, String.eqb_eq. split; [intros ->; auto|]. intros [E|E]; [discriminate|congruence].
Qed.
Definition unnamed (r : raw_course) : Prop :=
  nothing (rc_course r) /\ nothing (rc_ap r) /\ nothing (rc_name r) /\ nothing (rc_clbid r) /\ rc_crsid r = None.
Definition undated (r : raw_course) : Prop := rc_year r <> None /\ rc_term r = None.
Definition unidentified (r : raw_course) : Prop :=
  nothing (rc_course r) /\ nothing (rc_ap r) /\ (nothing (rc_institution r) \/ nothing (rc_name r)) /\ nothing (rc_clbid r) /\ nothing (rc_crsid r).
Definition grade_unknown (r : raw_course) : Prop := exists s, rc_grade r = Some s /\ grade_of_value s = Err ValueErr.
Definition option_unknown (r : raw_course) : Prop := exists s, rc_grade_option r = Some s /\ s <> "" /\ option_of_value s = Err ValueErr.
(** the checks are made in this order *)
Theorem course_refused_exactly :
  forall p raw e, load_course p raw = Err e <->
  (unnamed raw /\ e = TypeErr) \/
  (~ unnamed raw /\ (undated raw \/ rc_bad raw = true \/ unidentified raw) /\ e = AssertErr) \/
  (~ unnamed raw /\ ~ undated raw /\ rc_bad raw = false /\ ~ unidentified raw /\ (grade_unknown raw \/ option_unknown raw) /\ e = ValueErr).
Proof.
  intros p raw e.
  assert (LB : (exists s, c_label raw = Ok s) /\ ~ unnamed raw \/ c_label raw = Err TypeErr /\ unnamed raw).
  { unfold c_label, unnamed. destruct (given (rc_course raw)) eqn:G1.
    { left. split; [eauto|]. intros [X _]. apply given_no in X. congruence. }
    destruct (given (rc_ap raw)) eqn:G2. { left. split; [eauto|]. intros [_ [X _]]. apply given_no in X. congruence. }
    destruct (given (rc_name raw)) eqn:G3. { left. split; [eauto|]. intros [_ [_ [X _]]]. apply given_no in X. congruence. }
    destruct (given (rc_clbid raw)) eqn:G4. { left. split; [eauto|]. intros [_ [_ [_ [X _]]]]. apply given_no in X. congruence. }
    apply given_no in G1, G2, G3, G4. destruct (rc_crsid raw) as [s|]; [left; split; [eauto|]; intros [_ [_ [_ [_ X]]]]; discriminate|right; auto 10]. }
  unfold load_course, c_path_name.
  destruct LB as [[[lab ->] NU]|[-> UN]]; cbn [bind].
  2:{ split; [intros [= <-]; auto|]. intros [[_ ->]|[[N _]|[N _]]]; [reflexivity|contradiction|contradiction]. }
  assert (YR : (exists y, rc_year raw = Some y /\ rc_term raw = None) /\ undated raw \/ (rc_year raw = None \/ exists t, rc_term raw = Some t) /\ ~ undated raw).
  { unfold undated. destruct (rc_year raw) as [y|], (rc_term raw) as [t|].
    - right. split; [eauto|]. intros [_ X]. discriminate.
    - left. split; [eauto|]. split; [discriminate|reflexivity].
    - right. split; [auto|]. intros [_ X]. discriminate.
    - right. split; [auto|]. intros [X _]. congruence. }
  destruct YR as [[[y [-> ->]] UD]|[YR ND]]; cbn [bind].
  { split; [intros [= <-]; auto 10|]. intros [[N _]|[[_ [_ ->]]|[_ [N _]]]]; [contradiction|reflexivity|contradiction]. }
  match goal with |- context [bind (match rc_year raw with Some _ => _ | None => _ end) _] => destruct (match rc_year raw with Some _ => _ | None => _ end) as [s1|] eqn:E1 end.
  2:{ exfalso. destruct YR as [E|[t E]]; rewrite E in E1; [discriminate|]. destruct (rc_year raw); discriminate. }
  cbn [bind]. clear E1 YR. destruct (rc_bad raw) eqn:B.
  { split; [intros [= <-]; auto 10|]. intros [[N _]|[[_ [_ ->]]|[_ [_ [N _]]]]]; [contradiction|reflexivity|discriminate]. }
  destruct (given (rc_course raw) || given (rc_ap raw) || given (rc_institution raw) && given (rc_name raw) || given (rc_clbid raw) || given (rc_crsid raw))%bool eqn:ID; cbn [negb].
  2:{ assert (UI : unidentified raw).
      { rewrite !orb_false_iff, andb_false_iff, !given_no in ID. unfold unidentified. tauto. }
      split; [intros [= <-]; auto 10|]. intros [[N _]|[[_ [_ ->]]|[_ [_ [_ [N _]]]]]]; [contradiction|reflexivity|contradiction]. }
  assert (NI : ~ unidentified raw).
  { unfold unidentified. rewrite <- !given_no. intros (A1 & A2 & A3 & A4 & A5). rewrite A1, A2, A4, A5 in ID. cbn in ID. destruct A3 as [A3|A3]; rewrite A3 in ID; [discriminate|]. rewrite andb_false_r in ID. discriminate. }
  assert (GV : forall s e', grade_of_value s = Err e' -> e' = ValueErr) by (intros s e'; unfold grade_of_value; destruct (find _ _) as [[? ?]|]; [discriminate|congruence]).
  assert (OV : forall s e', option_of_value s = Err e' -> e' = ValueErr) by (intros s e'; unfold option_of_value; destruct (find _ _) as [[? ?]|]; [discriminate|congruence]).
  assert (REST : forall P : Prop, (P <-> (grade_unknown raw \/ option_unknown raw) /\ e = ValueErr) ->
    (P <-> unnamed raw /\ e = TypeErr \/ ~ unnamed raw /\ (undated raw \/ false = true \/ unidentified raw) /\ e = AssertErr \/
      ~ unnamed raw /\ ~ undated raw /\ false = false /\ ~ unidentified raw /\ (grade_unknown raw \/ option_unknown raw) /\ e = ValueErr)).
  { intros P HP. rewrite HP. split; [intros [A ->]; right; right; auto 10|]. intros [[N _]|[[_ [[N|[N|N]] _]]|[_ [_ [_ [_ H]]]]]]; [contradiction|contradiction|discriminate|contradiction|exact H]. }
  apply REST. clear REST. unfold grade_unknown, option_unknown.
  destruct (rc_grade raw) as [g|]; [unfold str_to_grade_points; destruct (grade_of_value g) as [gv|e1] eqn:EG; cbn [bind]|].
  - unfold given, or_empty. destruct (rc_grade_option raw) as [o|]; [destruct (String.eqb_spec o "") as [->|NE]; cbn [negb]|]; cbn [bind].
    + split; [discriminate|]. intros [[[s [X Y]]|[s [X [Y _]]]] _]; congruence.
    + destruct (option_of_value o) as [ov|e2] eqn:EO; cbn [bind].
      * split; [discriminate|]. intros [[[s [X Y]]|[s [X [Y Z]]]] _]; congruence.
      * assert (e2 = ValueErr) by (eapply OV; eauto). subst e2. split; [intros [= <-]; split; auto; right; exists o; auto|intros [_ ->]; reflexivity].
    + split; [discriminate|]. intros [[[s [X Y]]|[s [X [Y _]]]] _]; congruence.
  - assert (e1 = ValueErr) by (eapply GV; eauto). subst e1. split; [intros [= <-]; split; auto; left; eauto|intros [_ ->]; reflexivity].
  - cbn [bind]. unfold given, or_empty. destruct (rc_grade_option raw) as [o|]; [destruct (String.eqb_spec o "") as [->|NE]; cbn [negb]|]; cbn [bind].
    + split; [discriminate|]. intros [[[s [X Y]]|[s [X [Y _]]]] _]; congruence.
    + destruct (option_of_value o) as [ov|e2] eqn:EO; cbn [bind].
      * split; [discriminate|]. intros [[[s [X Y]]|[s [X [Y Z]]]] _]; congruence.
      * assert (e2 = ValueErr) by (eapply OV; eauto). subst e2. split; [intros [= <-]; split; auto; right; exists o; auto|intros [_ ->]; reflexivity].
    + split; [discriminate|]. intros [[[s [X Y]]|[s [X [Y _]]]] _]; congruence.
Qed.
Print Assumptions course_refused_exactly.
(** what [loaded_course_exact] leaves open *)
Theorem loaded_course_rest :
  forall p raw r, load_course p raw = Ok r ->
  r_forced r = false /\ (nothing (rc_grade_option raw) -> r_grade_option r = None) /\
  (forall s, rc_grade_option raw = Some s -> s <> "" -> exists o, option_of_value s = Ok o /\ r_grade_option r = Some o).
Proof.
  intros p raw r H. unfold load_course in H. destruct (c_path_name raw); cbn [bind] in H; [|discriminate]. destruct (rc_bad raw); [discriminate|]. destruct (negb _); [discriminate|].
  destruct (match rc_grade raw with Some _ => _ | None => _ end); cbn [bind] in H; [|discriminate].
  destruct (given (rc_grade_option raw)) eqn:G.
  - destruct (option_of_value _) as [o|] eqn:O; cbn [bind] in H; [|discriminate]. injection H as <-. cbn. split; auto. split; [intro N; apply given_no in N; congruence|].
    intros s E _. rewrite E in O. cbn [or_empty] in O. eauto.
  - cbn [bind] in H. injection H as <-. cbn. split; auto. split; auto. intros s E N. apply given_no in G. destruct G; congruence.
Qed.
Print Assumptions loaded_course_rest.
Example course_refused_example :
  let raw := mkRawCourse None None None None None None None None false None None None None false false false false in
  load_course ["$"] raw = Err TypeErr /\
  load_course ["$"] (mkRawCourse (Some "A 1") None None None None None None None false None None (Some 2020%Z) None false false false false) = Err AssertErr /\
  load_course ["$"] (mkRawCourse (Some "A 1") None None None None None None None false None None None None false false false true) = Err AssertErr /\
  load_course ["$"] (mkRawCourse None None (Some "A") None None None None None false None None None None false false false false) = Err AssertErr /\
  load_course ["$"] (mkRawCourse (Some "A 1") None None None (Some "Q") None None None false None None None None false false false false) = Err ValueErr /\
  load_course ["$"] (mkRawCourse (Some "A 1") None None None None (Some "half") None None false None None None None false false false false) = Err ValueErr.
Proof. vm_compute. auto 10. Qed.

(** ** Queries that are refused *)

(** the entries a query is judged by *)
Inductive entries_of (r : raw_query) : list raw_any -> Prop :=
| en_one a : rq_assert r = Some a -> entries_of r [RwPlain a]
| en_all l : rq_assert r = None -> rq_all r = Some l -> entries_of r l.
Definition where_loads (cx : ctx) (c : constants) (r : raw_query) (s : qsource) : Prop :=
  forall w, rq_where r = Some w -> exists p, load_predicate cx c (items_of s) w = Ok p.
Definition entry_at (cx : ctx) (c : constants) (p : path) (s : qsource) (i : nat) (x : raw_any) : res any_assertion :=
  load_any cx c (items_of s) (p ++ [".query"] ++ [".assertions"; "[" ++ str_of_Z (Z.of_nat i) ++ "]"]%string) x.
Definition entry_loads cx c p s i x : Prop := exists a, entry_at cx c p s i x = Ok a.
(** the clause and the limits can be read *)
Definition reads cx c r s : Prop := where_loads cx c r s /\ exists ls, load_limits cx c (rq_limit r) = Ok ls.
(** the first of these that applies is what is raised *)
Inductive query_refused (cx : ctx) (c : constants) (p : path) (r : raw_query) : err -> Prop :=
| qr_source : (forall s, rq_from r <> source_name s) -> query_refused cx c p r ValueErr
| qr_where s w e : rq_from r = source_name s -> rq_where r = Some w -> load_predicate cx c (items_of s) w = Err e -> query_refused cx c p r e
| qr_limit s e : rq_from r = source_name s -> where_loads cx c r s -> load_limits cx c (rq_limit r) = Err e -> query_refused cx c p r e
| qr_limits s : rq_from r = source_name s -> reads cx c r s -> rq_limits_key r = true -> query_refused cx c p r ValueErr
| qr_none s : rq_from r = source_name s -> reads cx c r s -> rq_limits_key r = false -> (forall l, ~ entries_of r l) -> query_refused cx c p r ValueErr
| qr_entry s pre x post e : rq_from r = source_name s -> reads cx c r s -> rq_limits_key r = false -> entries_of r (pre ++ x :: post) ->
    (forall i y, nth_error pre i = Some y -> entry_loads cx c p s i y) -> entry_at cx c p s (List.length pre) x = Err e -> query_refused cx c p r e
| qr_empty s : rq_from r = source_name s -> reads cx c r s -> rq_limits_key r = false -> entries_of r [] -> query_refused cx c p r AssertErr
| qr_both s l : rq_from r = source_name s -> reads cx c r s -> rq_limits_key r = false -> entries_of r l -> l <> [] ->
    (forall i y, nth_error l i = Some y -> entry_loads cx c p s i y) -> rq_assert r <> None -> rq_all r <> None -> query_refused cx c p r ValueErr
| qr_bad s l : rq_from r = source_name s -> reads cx c r s -> rq_limits_key r = false -> entries_of r l -> l <> [] ->
    (forall i y, nth_error l i = Some y -> entry_loads cx c p s i y) -> rq_assert r = None \/ rq_all r = None -> rq_bad r = true -> query_refused cx c p r AssertErr.
Lemma load_all_cases cx c p s es : forall i,
  (exists as_, load_all cx c (items_of s) (p ++ [".query"]) (Z.of_nat i) es = Ok as_ /\ List.length as_ = List.length es /\ forall k y, nth_error es k = Some y -> entry_loads cx c p s (i + k) y) \/
  (exists pre x post e, es = pre ++ x :: post /\ (forall k y, nth_error pre k = Some y -> entry_loads cx c p s (i + k) y) /\ entry_at cx c p s (i + List.length pre) x = Err e /\
     load_all cx c (items_of s) (p ++ [".query"]) (Z.of_nat i) es = Err e).
Proof.
  induction es as [|x es IH]; intro i; cbn [load_all].
  - left. exists []. split; auto. split; auto. intros [|k] y N; discriminate.
  - rewrite <- app_assoc. destruct (load_any cx c (items_of s) (p ++ [".query"] ++ [".assertions"; "[" ++ str_of_Z (Z.of_nat i) ++ "]"]%string) x) as [a|e] eqn:E; cbn [bind].
    + replace (Z.of_nat i + 1)%Z with (Z.of_nat (S i)) by lia. destruct (IH (S i)) as [[as_ [L [LN H]]]|[pre [y [post [e [-> [H [EE L]]]]]]]]; rewrite L; cbn [bind].
      * left. exists (a :: as_). split; auto. split; [simpl; congruence|]. intros [|k] y N; cbn in N.
        -- injection N as <-. exists a. rewrite Nat.add_0_r. exact E.
        -- rewrite Nat.add_succ_r. apply H. exact N.
      * right. exists (x :: pre), y, post, e. split; auto. split; [|split; [cbn; rewrite Nat.add_succ_r; exact EE|auto]]. intros [|k] z N; cbn in N.
        -- injection N as <-. exists a. rewrite Nat.add_0_r. exact E.
        -- rewrite Nat.add_succ_r. apply H. exact N.
    + right. exists [], x, es, e. split; auto. split; [intros [|k] y N; discriminate|]. cbn. rewrite Nat.add_0_r. auto.
Qed.
Theorem query_refused_exactly :
  forall cx c p r e, load_query cx c p r = Err e <-> query_refused cx c p r e.
Proof.
  intros cx c p r e. unfold load_query.
  destruct (source_of (rq_from r)) as [s|e0] eqn:SO; cbn [bind].
  2:{ assert (NS : forall s, rq_from r <> source_name s) by (intros s E; apply source_names in E; congruence).
      assert (E0 : e0 = ValueErr).
      { clear NS. revert SO. unfold source_of. repeat match goal with |- context [String.eqb ?s ?x] => destruct (String.eqb s x) end; intro SO; try discriminate. congruence. }
      subst e0. split; [intros [= <-]; constructor; exact NS|]. intro H. inversion H; subst; auto; exfalso; eapply NS; eauto. }
  assert (SN := proj1 (source_names _ _) SO). rewrite source_items.
  assert (ONE : forall s', rq_from r = source_name s' -> s' = s) by (intros s' E; apply source_names in E; congruence).
  assert (WC : (exists w, match rq_where r with None => Ok None | Some x => let! y := load_predicate cx c (items_of s) x in Ok (Some y) end = Ok w /\ where_loads cx c r s) \/
    exists w e1, rq_where r = Some w /\ load_predicate cx c (items_of s) w = Err e1 /\ match rq_where r with None => Ok None | Some x => let! y := load_predicate cx c (items_of s) x in Ok (Some y) end = Err e1).
  { unfold where_loads. destruct (rq_where r) as [w|]; [|left; exists None; split; [reflexivity|discriminate]]. destruct (load_predicate cx c (items_of s) w) as [y|e1] eqn:L; cbn [bind].
    - left. exists (Some y). split; auto. intros w' [= <-]. eauto.
    - right. exists w, e1. auto. }
  destruct WC as [[w [-> WL]]|[w [e1 [RW [LP ->]]]]]; cbn [bind].
  2:{ assert (NL : ~ where_loads cx c r s) by (intro H; destruct (H w RW); congruence). split; [intros [= <-]; eapply qr_where; eauto|].
      intro H. inversion H as [NS|s' w' e' E1 E2 E3|s' e' E1 E2 E3|s' E1 [E2 _]|s' E1 [E2 _]|s' ? ? ? ? E1 [E2 _]|s' E1 [E2 _]|s' ? E1 [E2 _]|s' ? E1 [E2 _]]; subst; try (apply ONE in E1; subst s'; contradiction).
      - exfalso. eapply NS; eauto.
      - apply ONE in E1. subst s'. congruence. }
  destruct (load_limits cx c (rq_limit r)) as [ls|e1] eqn:LM; cbn [bind].
  2:{ assert (NR : forall s', ~ reads cx c r s') by (intros s' [_ [ls X]]; congruence). split; [intros [= <-]; eapply qr_limit; eauto|]. intro H. inversion H as [NS|s' w' e' E1 E2 E3|s' e' E1 E2 E3|s' E1 E2|s' E1 E2|s' ? ? ? ? E1 E2|s' E1 E2|s' ? E1 E2|s' ? E1 E2]; subst; try (exfalso; eapply NR; eassumption).
      - exfalso. eapply NS; eauto.
      - apply ONE in E1. subst s'. destruct (WL _ E2). congruence.
      - congruence. }
  assert (RD : reads cx c r s) by (split; eauto).
  destruct (rq_limits_key r) eqn:LK.
  { split; [intros [= <-]; eapply qr_limits; eauto|]. intro H. inversion H as [NS|s' w' e' E1 E2 E3| | | | | | | ]; subst; try congruence; try reflexivity.
    apply ONE in E1. subst s'. destruct (WL _ E2). congruence. }
  assert (EN : (forall l, ~ entries_of r l) /\ rq_assert r = None /\ rq_all r = None \/ exists l, entries_of r l /\ (forall l', entries_of r l' -> l' = l) /\
     match rq_assert r, rq_all r with Some a, _ => load_all cx c (items_of s) (p ++ [".query"]) 0 [RwPlain a] | None, Some l => load_all cx c (items_of s) (p ++ [".query"]) 0 l | None, None => Err ValueErr end = load_all cx c (items_of s) (p ++ [".query"]) 0 l).
  { destruct (rq_assert r) as [a|] eqn:RA; [right; exists [RwPlain a]; split; [constructor; auto|]; split; [intros l' H; inversion H; congruence|reflexivity]|].
    destruct (rq_all r) as [l|] eqn:RL; [right; exists l; split; [apply en_all; auto|]; split; [intros l' H; inversion H; congruence|reflexivity]|]. left. split; auto. intros l H. inversion H; congruence. }
  destruct EN as [[NE [RA RL]]|[l [EO [UL ->]]]].
  { rewrite RA, RL. cbn [bind]. split; [intros [= <-]; eapply qr_none; eauto|].
    intro H. inversion H as [NS|s' w' e' E1 E2 E3|s' e' E1 E2 E3|s' E1 E2 E3|s' E1 E2|s' ? ? ? ? E1 E2 E3 E4|s' E1 E2 E3 E4|s' ? E1 E2 E3 E4|s' ? E1 E2 E3 E4]; subst; auto; try (exfalso; eapply NE; eauto; fail); try (exfalso; eapply NS; eauto; fail); try congruence.
    apply ONE in E1. subst s'. destruct (WL _ E2). congruence. }
  destruct (load_all_cases cx c p s l 0) as [[as_ [LA [LN HL]]]|[pre [x [post [e2 [EL [HP [EX LA]]]]]]]]; change (Z.of_nat 0) with 0%Z in LA; rewrite LA; cbn [bind].
  2:{ cbn [Nat.add] in *. split; [intros [= <-]; subst l; eapply qr_entry; eauto|].
      assert (BAD : forall l', entries_of r l' -> (forall i y, nth_error l' i = Some y -> entry_loads cx c p s i y) -> False).
      { intros l' E H. apply UL in E. subst l' l. destruct (H (List.length pre) x) as [a EA]; [rewrite nth_error_app2, Nat.sub_diag by lia; reflexivity|congruence]. }
      intro H. inversion H as [NS|s' w' e' E1 E2 E3|s' e' E1 E2 E3|s' E1 E2 E3|s' E1 E2 E3 E4|s' pre' x' post' e' E1 E2 E3 E4 E5 E6|s' E1 E2 E3 E4|s' l' E1 E2 E3 E4 E5 E6|s' l' E1 E2 E3 E4 E5 E6]; try (apply ONE in E1; subst s').
      - exfalso. eapply NS; eauto.
      - destruct (WL _ E2). congruence.
      - congruence.
      - congruence.
      - exfalso. eapply E4; eauto.
      - subst e'. apply UL in E4. rewrite EL in E4. assert (P : pre' = pre /\ x' = x).
        { clear - E4 E5 E6 HP EX. assert (D : List.length pre' = List.length pre).
          { destruct (Nat.lt_trichotomy (List.length pre') (List.length pre)) as [L|[L|L]]; auto; exfalso.
            - destruct (HP (List.length pre') x') as [a A]; [|congruence]. rewrite <- (nth_error_app1 pre (x :: post)) by exact L. rewrite <- E4, nth_error_app2, Nat.sub_diag by lia. reflexivity.
            - destruct (E5 (List.length pre) x) as [a A]; [|congruence]. rewrite <- (nth_error_app1 pre' (x' :: post')) by exact L. rewrite E4, nth_error_app2, Nat.sub_diag by lia. reflexivity. }
          assert (A := f_equal (firstn (List.length pre')) E4). rewrite D in A at 2. rewrite !firstn_app, !Nat.sub_diag, !firstn_all in A. cbn in A. rewrite !app_nil_r in A. subst pre'. apply app_inv_head in E4. injection E4 as -> _. auto. }
        destruct P as [-> ->]. congruence.
      - exfalso. apply (BAD _ E4). intros [|i] y N; discriminate.
      - exfalso. eapply BAD; eauto.
      - exfalso. eapply BAD; eauto. }
  cbn [Nat.add] in HL.
  assert (REST : forall e', query_refused cx c p r e' -> l = [] /\ e' = AssertErr \/ l <> [] /\ (rq_assert r <> None /\ rq_all r <> None /\ e' = ValueErr \/ (rq_assert r = None \/ rq_all r = None) /\ rq_bad r = true /\ e' = AssertErr)).
  { intros e'' H. inversion H as [NS|s' w' e' E1 E2 E3|s' e' E1 E2 E3|s' E1 E2 E3|s' E1 E2 E3 E4|s' pre' x' post' e' E1 E2 E3 E4 E5 E6|s' E1 E2 E3 E4|s' l' E1 E2 E3 E4 E5 E6 E7 E8|s' l' E1 E2 E3 E4 E5 E6 E7 E8]; try (apply ONE in E1; subst s').
    - exfalso. eapply NS; eauto.
    - destruct (WL _ E2). congruence.
    - congruence.
    - congruence.
    - exfalso. eapply E4; eauto.
    - exfalso. apply UL in E4. subst l. destruct (HL (List.length pre') x') as [a A]; [rewrite nth_error_app2, Nat.sub_diag by lia; reflexivity|congruence].
    - left. split; [|reflexivity]. symmetry. auto.
    - right. apply UL in E4. subst l'. auto.
    - right. apply UL in E4. subst l'. auto. }
  destruct as_ as [|a0 as_].
  - destruct l; [|discriminate]. split; [intros [= <-]; eapply qr_empty; eauto|]. intro H. apply REST in H. destruct H as [[_ ->]|[H _]]; [reflexivity|congruence].
  - assert (NL : l <> []) by (intro Z; subst l; discriminate).
    destruct (rq_assert r) as [a|] eqn:RA, (rq_all r) as [al|] eqn:RL.
    + split; [intros [= <-]; eapply qr_both; eauto; congruence|]. intro H. apply REST in H. destruct H as [[Z _]|[_ [[_ [_ ->]]|[[Z|Z] _]]]]; [contradiction|reflexivity|discriminate|discriminate].
    + destruct (rq_bad r) eqn:RB.
      * split; [intros [= <-]; eapply qr_bad; eauto|]. intro H. apply REST in H. destruct H as [[Z _]|[_ [[_ [Z _]]|[_ [_ ->]]]]]; [contradiction|congruence|reflexivity].
      * split; [discriminate|]. intro H. apply REST in H. destruct H as [[Z _]|[_ [[_ [Z _]]|[_ [Z _]]]]]; [contradiction|congruence|discriminate].
    + destruct (rq_bad r) eqn:RB.
      * split; [intros [= <-]; eapply qr_bad; eauto|]. intro H. apply REST in H. destruct H as [[Z _]|[_ [[Z _]|[_ [_ ->]]]]]; [contradiction|congruence|reflexivity].
      * split; [discriminate|]. intro H. apply REST in H. destruct H as [[Z _]|[_ [[Z _]|[_ [Z _]]]]]; [contradiction|congruence|discriminate].
    + inversion EO; congruence.
Qed.
Print Assumptions query_refused_exactly.
Example query_refused_example :
  let cx := mkCtx [] [] [] [] [] (group_exceptions []) [] [] [] no_proficiencies in
  let cs := mkConst 2000 8 (inl "Voice") "140" in
  let a := mkRawAs None None None [("count(courses)", mkRawValue [(OGte, RInt 2)] [] false false false)] in
  let b := mkRawAs None None None [("count(things)", mkRawValue [(OGte, RInt 2)] [] false false false)] in
  let load from limits one all bad := load_query cx cs ["$"] (mkRawQuery from None None limits one all false None false bad) in
  load "course" false (Some a) None false = Err ValueErr /\
  load "courses" true (Some a) None false = Err ValueErr /\
  load "courses" false None None false = Err ValueErr /\
  load "courses" false None (Some []) false = Err AssertErr /\
  load "courses" false (Some a) (Some [RwPlain a]) false = Err ValueErr /\
  load "courses" false (Some a) None true = Err AssertErr /\
  (exists e, load "courses" false None (Some [RwPlain a; RwPlain b]) false = Err e) /\
  exists q, load "courses" false None (Some [RwPlain a; RwPlain a]) false = Ok q.
Proof. vm_compute. repeat split; eexists; reflexivity. Qed.
