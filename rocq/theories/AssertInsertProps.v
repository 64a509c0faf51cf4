(** Property theorems about exceptions at assertions: a class counts once, and not at all if it is
    blocked (C181). *)
From Coq Require Import List ZArith QArith Bool String Lia.
From Verif Require Import Transcript Prelude Dec Status Course Claims Exceptions Op Context CondExpr Paths Predicate Limit Apply Assertion Query CourseRule Tree Solve.
From Verif Require Import ListFacts LimitSpec LimitProofs AreaProps ApplyProofs TranscriptSpec AssertionSpec AssertionProofs PathsSpec PathsProofs PredicateProofs ExceptionsProofs QuerySpec QueryProofs QueryProps AssertionProps MonoSpec MonoQuery MonoProps MonoAskProps MonoInsertProps.
Import ListNotations.
Local Open Scope list_scope.

(** quantities that are counted *)
Definition counting (k : akey) : Prop := In k [KCourses; KDistinctCourses; KSubjects; KTerms; KYears].
Lemma counting_rising k : counting k -> rising k /\ k <> KSumCredits.
Proof. unfold counting, rising. cbn [In]. intuition (subst; auto; try discriminate). Qed.
Lemma counting_sets k cs cs' s s' r r' : counting k -> (forall c, In c cs <-> In c cs') -> apply_courses k cs s = Ok r -> apply_courses k cs' s' = Ok r' -> (ap_value r == ap_value r')%Q.
Proof.
  intros C E A A'. destruct (counting_rising k C) as [R N]. apply Qle_antisym; eapply rising_grows; eauto; try congruence; intros _ c I; apply E; eapply contributes_from; eauto.
Qed.
(** the classes that an assertion is about, according to the exceptions *)
Definition about (cx : ctx) (l : list exc) (a : assertion) (data : list course) (c : course) : Prop :=
  ((In c data /\ passes_where (as_where a) (ICourse c)) \/ added cx l (as_path a) c) /\ ~ blocked cx l (as_path a) c.
(** Either something is counted and nothing blocked, or the data have each class once and no class
    is inserted that they have, nor one inserted twice. *)
Definition told_apart (cx : ctx) (l : list exc) (a : assertion) (data : list course) : Prop :=
  (counting (as_key a) /\ forall c, ~ blocked cx l (as_path a) c) \/
  (NoDup data /\ (forall c, added cx l (as_path a) c -> ~ In c data) /\ inserts_distinct cx l (as_path a)).

(** ** C181 *)

(** The value of an assertion is that of the classes it is about, each of them once. *)
Theorem assertions_count_each_class_once :
  forall cx l data a r, cx_exc cx = group_exceptions l -> as_overridden a = false -> as_type a = DtCourse -> told_apart cx l a data ->
  audit_assertion cx (map ICourse data) a = Ok r ->
  exists cs res v, NoDup cs /\ (forall c, In c cs <-> about cx l a data c) /\ apply_courses (as_key a) cs cs = Ok res /\ as_resolved r = Some v /\ (v == ap_value res)%Q.
Proof.
  intros cx l data a r EX OV TY TA A. destruct (audited_assertion_measures cx l data a r EX OV TY A) as [cs [M1 [M2 [M3 [[calc [E [V _]]] _]]]]].
  assert (AP : apply_courses (as_key a) cs cs = Ok calc).
  { unfold evaluate_with_courses in E. apply bind_ok in E. destruct E as [r0 [AP E]]. rewrite AP. apply bind_ok in E. destruct E as [b [_ E]].
    destruct b; [|injection E as _ <-; reflexivity]. apply bind_ok in E. destruct E as [b' [_ E]].
    destruct (as_ip_pass a || b')%bool; [injection E as _ <-; reflexivity|]. repeat match type of E with context [if ?x then _ else _] => destruct x end; try discriminate E; injection E as _ <-; reflexivity. }
  destruct TA as [[K NB]|[ND [AN ID]]].
  - destruct (rising_total (as_key a) (dedup course_eqb cs) (dedup course_eqb cs) (proj1 (counting_rising _ K))) as [res AR].
    exists (dedup course_eqb cs), res, (ap_value calc). split; [apply dedup_NoDup, course_eqb_spec|]. split; [|split; [exact AR|split; [exact V|]]].
    + intro c. rewrite (ListFacts.in_dedup course_eqb course_eqb_spec). split; [intro I; split; [apply M1, I|apply NB]|intros [H N]; apply M2; auto].
    + eapply counting_sets; [exact K| |exact AP|exact AR]. intro c. rewrite (ListFacts.in_dedup course_eqb course_eqb_spec). reflexivity.
  - destruct (M3 ND AN ID) as [NC BL]. exists cs, calc, (ap_value calc). split; [exact NC|]. split; [|split; [exact AP|split; [exact V|reflexivity]]].
    intro c. split; [intro I; split; [apply M1, I|intro B; exact (BL c B I)]|intros [H N]; apply M2; auto].
Qed.
Print Assumptions assertions_count_each_class_once.

(** Without the condition a class may count twice, or although it is blocked. *)
Definition inserted_at_assertions_count_once : Prop :=
  forall cx l data a r, cx_exc cx = group_exceptions l -> as_overridden a = false -> as_type a = DtCourse -> NoDup data ->
  (forall c, ~ blocked cx l (as_path a) c) -> inserts_distinct cx l (as_path a) -> audit_assertion cx (map ICourse data) a = Ok r ->
  exists cs res v, NoDup cs /\ (forall c, In c cs <-> about cx l a data c) /\ apply_courses (as_key a) cs cs = Ok res /\ as_resolved r = Some v /\ (v == ap_value res)%Q.
Definition blocked_at_assertions_do_not_count : Prop :=
  forall cx l data a r c ks, cx_exc cx = group_exceptions l -> as_overridden a = false -> as_type a = DtCourse -> NoDup data ->
  audit_assertion cx (map ICourse data) a = Ok r -> blocked cx l (as_path a) c -> as_clbids r = Some ks -> ~ In (c_clbid c) ks.

(** ** Samples *)
Local Open Scope string_scope.
Definition at_assertion (x : exc_action) : exc := mkExc ["$"; ".assert"] x.
Definition value_of (k : akey) (l : list exc) : option Q :=
  match audit_assertion (reads_with l two) (map ICourse [a_class "100" "A"]) (AssertionProps.plain k OGte 2 false) with Ok r => as_resolved r | Err _ => None end.
(** Of two classes the assertion is given one. Inserting the other makes two; inserting the same
    makes one class, of two credits. Blocking takes it away, but only one of two. *)
Example exceptions_at_assertions_example :
  map (fun x => match value_of (fst x) (snd x) with Some v => Some (Qred v) | None => None end)
    [(KCourses, []); (KCourses, [at_assertion (AInsert "300" false)]); (KCourses, [at_assertion (AInsert "100" false)]);
     (KSumCredits, [at_assertion (AInsert "300" false)]); (KSumCredits, [at_assertion (AInsert "100" false)]);
     (KCourses, [at_assertion (ABlock "100")]); (KCourses, [at_assertion (AInsert "100" false); at_assertion (ABlock "100")])]
  = map Some [1; 2; 1; 2; 2; 0; 1]%Q.
Proof. vm_compute. reflexivity. Qed.

Lemma only_one (c : course) cs : NoDup cs -> (forall d, In d cs <-> d = c) -> cs = [c].
Proof.
  intros ND H. destruct cs as [|x [|y cs]]; [destruct (proj2 (H c) eq_refl)| |].
  - rewrite (proj1 (H x) (or_introl eq_refl)). reflexivity.
  - inversion ND as [|? ? N _]; subst. destruct N. left. rewrite (proj1 (H x) (or_introl eq_refl)). apply H. right. left. reflexivity.
Qed.
Theorem inserted_at_assertions_count_once_refuted : ~ inserted_at_assertions_count_once.
Proof.
  intro H. set (l := [at_assertion (AInsert "100" false)]). set (a := AssertionProps.plain KSumCredits OGte 2 false).
  assert (FC : find_by_clbid (reads_with l two) "100" = Some (a_class "100" "A")) by (vm_compute; reflexivity).
  assert (FF : forced_by_clbid (reads_with l two) "100" = Ok (a_class "100" "A")) by (vm_compute; reflexivity).
  destruct (audit_assertion (reads_with l two) (map ICourse [a_class "100" "A"]) a) as [r|] eqn:A; [|vm_compute in A; discriminate A].
  destruct (H (reads_with l two) l [a_class "100" "A"] a r) as [cs [res [v [ND [M [AP [R V]]]]]]].
  - reflexivity.
  - reflexivity.
  - reflexivity.
  - constructor; [intros []|constructor].
  - intros c [x [k [[<-|[]] [_ [E _]]]]]. discriminate E.
  - split; [constructor; [intros []|constructor]|]. intros x y k k' g g' c [<-|[]] [<-|[]]. reflexivity.
  - exact A.
  - assert (CS : cs = [a_class "100" "A"]).
    { apply only_one; [exact ND|]. intro d. rewrite M. split.
      - intros [[[[<-|[]] _]|[x [k [g [[<-|[]] [_ [E Q]]]]]]] _]; [reflexivity|]. injection E as <- <-.
        destruct Q as [Q|[Q _]]; [|discriminate Q]. rewrite FC in Q. injection Q as <-. reflexivity.
      - intros ->. split; [left; split; [apply in_eq|exact Logic.I]|]. intros [x [k [[<-|[]] [_ [E _]]]]]. discriminate E. }
    subst cs. assert (VA : option_map Qred (value_of KSumCredits l) = Some 2%Q) by (vm_compute; reflexivity).
    unfold value_of in VA. fold a in VA. rewrite A, R in VA. injection VA as VA.
    assert (VB : match apply_courses (as_key a) [a_class "100" "A"] [a_class "100" "A"] with Ok s => Qred (ap_value s) | Err _ => 0%Q end = 1%Q) by (vm_compute; reflexivity).
    rewrite AP in VB. apply Qred_complete in V. rewrite VA, VB in V. discriminate V.
Qed.
Print Assumptions inserted_at_assertions_count_once_refuted.
Theorem blocked_at_assertions_do_not_count_refuted : ~ blocked_at_assertions_do_not_count.
Proof.
  intro H. set (l := [at_assertion (AInsert "100" false); at_assertion (ABlock "100")]). set (a := AssertionProps.plain KCourses OGte 2 false).
  destruct (audit_assertion (reads_with l two) (map ICourse [a_class "100" "A"]) a) as [r|] eqn:A; [|vm_compute in A; discriminate A].
  assert (K : as_clbids r = Some ["100"]) by (vm_compute in A; injection A as <-; reflexivity).
  apply (H (reads_with l two) l [a_class "100" "A"] a r (a_class "100" "A") ["100"]); try reflexivity; try assumption.
  - constructor; [intros []|constructor].
  - exists (at_assertion (ABlock "100")), "100". split; [right; left; reflexivity|]. split; [reflexivity|]. split; [reflexivity|]. vm_compute. reflexivity.
  - apply in_eq.
Qed.
Print Assumptions blocked_at_assertions_do_not_count_refuted.
(** the condition of the theorem is met where the other class is inserted *)
Example told_apart_example :
  let l := [at_assertion (AInsert "300" false); at_assertion (ABlock "100")] in
  told_apart (reads_with l two) l (AssertionProps.plain KSumCredits OGte 2 false) [a_class "100" "A"].
Proof.
  right. split; [constructor; [intros []|constructor]|]. split.
  - intros c [x [k [g [[<-|[<-|[]]] [_ [E Q]]]]]] [<-|[]]; [|discriminate E]. injection E as <- <-. destruct Q as [Q|[Q _]]; [|discriminate Q].
    assert (FC : find_by_clbid (reads_with [at_assertion (AInsert "300" false); at_assertion (ABlock "100")] two) "300" = Some (a_class "300" "REG")) by (vm_compute; reflexivity).
    rewrite FC in Q. vm_compute in Q. discriminate Q.
  - split; [repeat constructor; cbn [In]; intuition discriminate|]. intros x y k k' g g' c [<-|[<-|[]]] [<-|[<-|[]]] _ _ E E'; try discriminate E; try discriminate E'. reflexivity.
Qed.
