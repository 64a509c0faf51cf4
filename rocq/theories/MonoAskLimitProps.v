(** Property theorems about queries with limits and one assertion: the search meets them exactly
    when there are classes that reach what is asked for and stay within the limits (C179). *)
From Coq Require Import List ZArith QArith Bool String Lia Lqa Sorted Permutation.
From Verif Require Import Transcript Prelude Dec Status Course Claims Exceptions Op Context CondExpr Paths Predicate Limit Apply Assertion Query CourseRule Tree Solve Driver Area StudentLoad Run Loader AreaLoad LoaderProps CommonProps.
From Verif Require Import ListFacts LimitSpec LimitProofs LimitProps LimitLoadProps LimitApartProps ApplyProofs ClaimsSpec ClaimsProofs TranscriptSpec AssertionSpec AssertionProofs PathsSpec PathsProofs PredicateProofs ExceptionsProofs EnumSpec PredicateSpec PredicateProps CommonProofs QuerySpec QueryProofs QueryProps CourseRuleSpec TreeSpec TreeSolSpec TreeSolProofs TreeAskSpec SolveSpec PlanSpec PlanProofs MonoSpec MonoQuery MonoProofs MonoTop AreaProps SolveProps TreeSolProps PlanProps AssertionProps MonoProps MonoAskSpec MonoAskProps.
Import ListNotations.
Local Open Scope list_scope.

(** no limit is exceeded *)
Definition within_limits (ls : list limit) (items : list course) : Prop :=
  forall m, In m ls -> ((match lm_what m with Courses => count (restricted [] m items) | Credits => total_credits (restricted [] m items) end) <= dval (lm_at_most m))%Q.
(** classes that the query reads and that it and its assertion accept, each once *)
Definition acceptable_classes (cx : ctx) (q : query) (a : assertion) (items : list course) : Prop :=
  NoDup items /\
  forall c, In c items -> In c (query_courses cx q) /\ ~ In (c_clbid c) (q_excluded q) /\ passes_where (q_where q) (ICourse c) /\ passes_where (as_where a) (ICourse c) /\
    (as_ip_pass a = false -> c_in_progress c = false).

Lemma credits_perm s s' : Permutation s s' -> (credits_of s == credits_of s')%Q.
Proof. intro P. exact (total_perm _ _ P). Qed.
Lemma reaches_perm a s s' : Permutation s s' -> reaches a s -> reaches a s'.
Proof.
  intros P. assert (L := Permutation_length P).
  assert (M : forall (A : Type) (f : course -> A), NoDup (map f s) -> NoDup (map f s')) by (intros A f; apply Permutation_NoDup, Permutation_map, P).
  unfold reaches. cbv zeta. rewrite <- L. destruct (as_key a); auto; try (intros [N H]; split; [|exact H]; auto; fail).
  - intros [N H]. split; [eapply Permutation_NoDup; eauto|exact H].
  - intros [N H]. split; [|exact H]. apply subjects_apart. apply M. apply subjects_apart. exact N.
  - intro H. rewrite <- (credits_perm _ _ P). exact H.
Qed.
Lemma restricted_sub m s v : subseq s v -> subseq (restricted [] m s) (restricted [] m v).
Proof. intro S. apply subseq_filter_mono, S. Qed.
Lemma within_less ls s v : (forall c, In c v -> (0 <= dval (c_credits c))%Q) -> subseq s v -> within_limits ls v -> within_limits ls s.
Proof.
  intros N S W m I. specialize (W m I). assert (R := restricted_sub m s v S). destruct (lm_what m).
  - eapply Qle_trans; [|exact W]. unfold count. rewrite <- Zle_Qle. apply subseq_length in R. lia.
  - eapply Qle_trans; [|exact W]. apply (credits_subseq _ _) with (2 := R). intros c J. apply N. unfold restricted in J. apply filter_In in J. apply J.
Qed.
Lemma within_perm ls s v : Permutation s v -> within_limits ls s -> within_limits ls v.
Proof.
  intros P W m I. specialize (W m I). assert (R : Permutation (restricted [] m s) (restricted [] m v)).
  { unfold restricted. clear -P. induction P; cbn [filter]; auto.
    - destruct (_ && _)%bool; auto.
    - destruct (negb _ && _)%bool; destruct (negb _ && _)%bool; auto. apply perm_swap.
    - eapply Permutation_trans; eauto. }
  destruct (lm_what m); [rewrite <- (count_perm _ _ R); exact W|rewrite <- (total_perm _ _ R); exact W].
Qed.
(** the selections that are tried, as far as classes go that stay within the limits *)
Lemma read_within ord cx l q s : set_order ord -> simple_query l q -> clear_limits (q_limit q) (query_courses cx q) -> (forall c, In c (query_courses cx q) -> (0 <= dval (c_credits c))%Q) ->
  ((exists v s', read ord cx q v /\ subseq s' v /\ Permutation s' s) <-> NoDup s /\ (forall c, In c s -> In c (MonoQuery.picked cx q)) /\ within_limits (q_limit q) s).
Proof.
  intros SO SQ CL NN. assert (PI := picked_in cx q). destruct (limits_filter _ (MonoQuery.picked cx q) _ PI CL) as [LA ID]. assert (CO := distinct_coherent _ (la_distinct _ _ _ LA)). assert (NE := la_some _ _ _ LA). split.
  - intros [v [s' [R [S P]]]]. destruct (limits_only_remove_limited_courses ord _ _ _ v SO CO NE R) as [N [_ [SUB _]]]. destruct (tried_selections_hold ord _ _ _ v SO LA R) as [_ _ BC BR _].
    split; [eapply Permutation_NoDup; [exact P|eapply subseq_NoDup; eauto]|]. split; [intros c I; apply SUB; eapply subseq_in; [exact S|]; eapply Permutation_in; [symmetry; exact P|exact I]|].
    apply (within_perm _ s' s P). apply (within_less _ s' v); [intros c I; apply NN, PI, SUB, I|exact S|]. intros m I. destruct (lm_what m) eqn:W; [apply BC|apply BR]; auto.
  - intros [N [IN W]]. destruct (completed_selection [] _ _ s LA N IN) as [SE [N' IN']].
    { intros m I E. specialize (W m I). rewrite E in W. exact W. }
    { intros m I E. specialize (W m I). rewrite E in W. exact W. }
    destruct (selections_are_tried ord _ _ _ _ SO LA N' SE) as [v [J E]]. exists v, (filter (fun c => memb course_eqb c s) v). split; [exact J|]. split; [apply subseq_filter|].
    destruct (limits_only_remove_limited_courses ord _ _ _ v SO CO NE J) as [NV _]. apply NoDup_Permutation; [apply NoDup_filter, NV|exact N|].
    intro c. rewrite filter_In, (memb_In course_eqb course_eqb_spec). split; [tauto|]. intro I. split; [apply E, IN', I|exact I].
Qed.
Lemma ids_nodup (s : list course) : (forall c d, In c s -> In d s -> c_clbid c = c_clbid d -> c = d) -> NoDup s -> NoDup (map c_clbid s).
Proof.
  intros ID N. induction N as [|c s NI N IH]; cbn; constructor; [|apply IH; intros; apply ID; simpl; auto].
  intro I. apply in_map_iff in I. destruct I as [d [E I]]. apply NI. rewrite (ID c d); simpl; auto.
Qed.
Lemma asked_within ord cx l k q a : set_order ord -> cx_exc cx = group_exceptions l -> simple_query l q -> clear_limits (q_limit q) (query_courses cx q) -> q_asserts q = [APlain a] ->
  (forall c, In c (query_courses cx q) -> (0 <= dval (c_credits c))%Q) ->
  ((exists ks, meets ord cx l (NQuery k q) ks /\ NoDup ks) <-> exists items, acceptable_classes cx q a items /\ reaches a items /\ within_limits (q_limit q) items).
Proof.
  intros SO EX SQ CL QA N. assert (RW := fun s => read_within ord cx l q s SO SQ CL N).
  assert (RN : forall v c, read ord cx q v -> In c v -> (0 <= dval (c_credits c))%Q) by (intros v c R I; eapply N, picked_in, read_picked; eauto).
  assert (AL : at_least a) by (destruct SQ as (_ & _ & _ & _ & _ & _ & _ & A); rewrite QA in A; destruct (A _ (or_introl eq_refl)) as [a0 [E [AL _]]]; injection E as <-; exact AL).
  assert (RI : rising (as_key a)) by apply AL.
  assert (AC : forall items, (forall c, In c items -> (0 <= dval (c_credits c))%Q) -> (all_complete cx q (map ICourse items) <-> done a (of_kind a items))).
  { intros items NI. rewrite (all_complete_iff cx l q items EX SQ NI), QA. split; [intro H; apply H; simpl; auto|]. intros D b [E|[]]. injection E as <-. exact D. }
  split.
  - intros [ks [ME ND]].
    assert (X : exists v items0, read ord cx q v /\ subseq items0 v /\ done a (of_kind a items0)).
    { destruct (simple_met ord cx l q EX SQ k ks ME) as [[QT [v [items [RV [S1 [A1 ->]]]]]]|[QT [v [RV [A1 ->]]]]]; exists v.
      - exists items. split; [exact RV|]. split; [exact S1|]. apply AC; [intros c I; apply (RN v c RV); eapply subseq_in; eauto|exact A1].
      - exists v. split; [exact RV|]. split; [apply subseq_refl|]. apply AC; [intros c; apply (RN v c RV)|exact A1]. }
    destruct X as [v [items0 [RV [S0 D]]]]. destruct (reduce a items0 RI D) as [s [S1 [RE PR]]]. assert (S2 := subseq_trans _ _ _ S1 S0).
    destruct (proj1 (RW s) (ex_intro _ v (ex_intro _ s (conj RV (conj S2 (Permutation_refl s)))))) as [NS [IN W]].
    exists s. split; [split; [exact NS|]|split; [exact RE|exact W]]. intros c I. destruct (picked_iff cx q c (IN c I)) as [P1 P2]. destruct (PR c I) as [P3 P4]. split; [apply picked_in, IN, I|auto].
  - intros [s [[NS PR] [RE W]]].
    assert (IN : forall c, In c s -> In c (MonoQuery.picked cx q)).
    { intros c I. destruct (PR c I) as [P0 [P1 [P2 _]]]. unfold MonoQuery.picked. apply filter_In. split; [apply filter_In; split; [exact P0|]|].
      - apply negb_true_iff. destruct (instr (c_clbid c) (q_excluded q)) eqn:E; [|reflexivity]. exfalso. apply P1. apply existsb_exists in E. destruct E as [z [J E]]. apply String.eqb_eq in E. subst z. exact J.
      - unfold keeps. unfold passes_where in P2. destruct (q_where q); [rewrite P2|]; reflexivity. }
    destruct (proj2 (RW s) (conj NS (conj IN W))) as [v [s' [RV [S P]]]].
    assert (D : done a (of_kind a s')).
    { apply expand; [exact RI|eapply reaches_perm; [symmetry; exact P|exact RE]|]. intros c I. destruct (PR c (Permutation_in _ P I)) as [_ [_ [_ H]]]. exact H. }
    assert (NI : forall c, In c s' -> (0 <= dval (c_credits c))%Q) by (intros c I; apply (RN v c RV); eapply subseq_in; eauto).
    destruct (q_attempt q) eqn:QT.
    + exists (if q_allow q then [] else map c_clbid s'). split; [apply simple_meets with (v := v); auto; apply AC; auto|]. destruct (q_allow q); [constructor|].
      apply ids_nodup; [|eapply Permutation_NoDup; [symmetry; exact P|exact NS]]. intros c d I J. apply (proj2 CL); [apply (PR c (Permutation_in _ P I))|apply (PR d (Permutation_in _ P J))].
    + exists []. split; [|constructor]. apply simple_meets_free with (v := v); auto. apply AC; [intros c; apply (RN v c RV)|]. refine (done_larger a _ _ AL _ (of_kind_sub a _ _ S) D). intros c J. apply (RN v c RV). eapply of_kind_in; eauto.
Qed.

(** ** C179 *)

(** A query with one assertion "at least so many" and limits, no class under a credit limit being
    under another limit, is found to be met exactly when the student has classes that reach what
    is asked for and do not exceed the limits. *)
Theorem what_is_asked_for_is_found_within_limits :
  forall ord cx l q a t merge best t', set_order ord -> cx_exc cx = group_exceptions l -> cx_multi cx = [] ->
  simple_query l q -> clear_limits (q_limit q) (query_courses cx q) -> q_asserts q = [APlain a] -> as_state a = Empty -> (forall c, In c (query_courses cx q) -> (0 <= dval (c_credits c))%Q) ->
  find_best_solution ord cx t (NQuery KRule q) merge = Ok (best, t') ->
  ((exists r, best = Some r /\ complete (status_of r)) <->
   exists items, acceptable_classes cx q a items /\ reaches a items /\ within_limits (q_limit q) items).
Proof.
  intros ord cx l q a t merge best t' SO EX MC SQ CL QA ST N F. rewrite <- (asked_within ord cx l KRule q a SO EX SQ CL QA N).
  assert (SELF : forall x, part_of (NQuery KRule q) x -> x = NQuery KRule q) by (intros x P; inversion P; reflexivity).
  apply (the_search_is_exact ord cx l (NQuery KRule q) t merge best t' SO EX MC); auto.
  - intros x P. rewrite (SELF x P). split; [exact SQ|]. cbn [status_of]. unfold q_status. destruct SQ as (_ & QO & _). rewrite QO, QA. cbn [map any_status]. rewrite ST. reflexivity.
  - split; [intros r [[k P]|[k [i [k' P]]]]; apply SELF in P; discriminate|]. split; [intros x P; rewrite (SELF x P); reflexivity|]. intros k i items P. apply SELF in P. discriminate.
  - split; [intros r [[k P]|[k [i [k' P]]]]; apply SELF in P; discriminate|]. intros k q' P. apply SELF in P. injection P as _ ->. destruct SQ as (QS & _ & QL & _). split; [apply QL|congruence].
  - intros k q' c P. apply SELF in P. injection P as _ ->. apply N.
Qed.
Print Assumptions what_is_asked_for_is_found_within_limits.

(** ** Samples *)
Local Open Scope string_scope.
(** at least [n] classes, at most one of them outside of REG and at most two credits of REG *)
Definition mostly_reg (n : Z) : query :=
  mkQuery ["$"; ".query"] false QCourses DtCourse [APlain (AssertionProps.plain KCourses OGte n false)] [course_limit 1 1 (CommonProofs.p_not "REG"); credit_limit 2 2 (of_subject "REG")] None false true true false [] [] [] [] [] [].
Lemma of_subject_decided d c : exists b, apply_pred (ICourse c) (of_subject d) = Ok b.
Proof.
  destruct (CommonProofs.subject_exists c) as [s S]. unfold of_subject. cbn [apply_pred].
  rewrite (leaf_compares (ICourse c) _ _ _ (cp_course c (mkLeaf "subject" OEq (VS (SStr d)) None) _ (cf_subject c s S))).
  eexists. reflexivity.
Qed.
Lemma mostly_simple n : (1 <= n)%Z -> simple_query [] (mostly_reg n).
Proof.
  intro H. split; [reflexivity|]. split; [reflexivity|]. split.
  { split; [intros x y [<-|[<-|[]]] [<-|[<-|[]]]; cbn; congruence|]. intros m [<-|[<-|[]]]; (split; [vm_compute; discriminate|]); intros w E c; injection E as <-;
      [destruct (CommonProofs.decides_subject "REG" c) as [b [E _]]; eauto|apply of_subject_decided]. }
  split; [reflexivity|]. split; [intros x []|]. split; [intros w E; discriminate E|]. split; [discriminate|].
  intros x [<-|[]]. eexists. split; [reflexivity|]. split; [|split; [intros w E; discriminate E|intros y []]].
  split; [reflexivity|]. split; [reflexivity|]. split; [reflexivity|]. split; [reflexivity|]. split; [left; reflexivity|]. split; [intro E; discriminate E|]. intros _. exists n. split; [exact H|]. cbn [AssertionProps.plain as_expected]. unfold dval, dec_of_Z. cbn [dcoef dexp]. first [reflexivity|cbn; rewrite ?Z.mul_1_r; reflexivity].
Qed.
Definition four : list course := [a_class "100" "A"; a_class "200" "B"; a_class "300" "REG"; a_class "400" "REG"].
Lemma four_clear : clear_limits (q_limit (mostly_reg 3)) four.
Proof.
  split; [constructor|].
  - discriminate.
  - repeat constructor; simpl; intuition congruence.
  - intros l [<-|[<-|[]]]; [left; split; [reflexivity|exists 1%nat; reflexivity]|right; split; [reflexivity|vm_compute; discriminate]].
  - intros l c [<-|[<-|[]]] I _; unfold four in I; repeat (destruct I as [<-|I]; [eexists; vm_compute; reflexivity|]); destruct I.
  - intros l l' c [<-|[<-|[]]] [<-|[<-|[]]] W [I [_ M]] [_ [_ M']]; try reflexivity; try discriminate. unfold four in I. repeat (destruct I as [<-|I]; [vm_compute in M, M'; discriminate|]). destruct I.
  - intros l c [<-|[<-|[]]] W [I [_ M]]; try discriminate. unfold four in I. repeat (destruct I as [<-|I]; [vm_compute; reflexivity|]). destruct I.
  - intros c d I J E. unfold four in I, J. repeat (destruct I as [<-|I]; [repeat (destruct J as [<-|J]; [first [reflexivity|discriminate E]|]); destruct J|]). destruct I.
Qed.
Definition outcome (x : res (option node * claims)) : option status := match x with Ok (Some r, _) => Some (status_of r) | _ => None end.
Lemma status_found x st : outcome x = Some st -> exists r t', x = Ok (Some r, t') /\ status_of r = st.
Proof. destruct x as [[[r|] t']|]; try discriminate. intro H. injection H as H. eauto. Qed.
(** of four classes three can count, but not all *)
Example within_limits_example :
  simple_query [] (mostly_reg 3) /\ simple_query [] (mostly_reg 4) /\ clear_limits (q_limit (mostly_reg 3)) (query_courses (reads four) (mostly_reg 3)) /\
  map (fun n => outcome (find_best_solution same_order (reads four) [] (NQuery KRule (mostly_reg n)) false)) [3%Z; 4%Z] = [Some Done; Some NeedsMoreItems] /\
  (exists items, acceptable_classes (reads four) (mostly_reg 3) (AssertionProps.plain KCourses OGte 3 false) items /\ reaches (AssertionProps.plain KCourses OGte 3 false) items /\ within_limits (q_limit (mostly_reg 3)) items) /\
  ~ (exists items, acceptable_classes (reads four) (mostly_reg 4) (AssertionProps.plain KCourses OGte 4 false) items /\ reaches (AssertionProps.plain KCourses OGte 4 false) items /\ within_limits (q_limit (mostly_reg 4)) items).
Proof.
  assert (S1 : outcome (find_best_solution same_order (reads four) [] (NQuery KRule (mostly_reg 3)) false) = Some Done) by (vm_compute; reflexivity).
  assert (S2 : outcome (find_best_solution same_order (reads four) [] (NQuery KRule (mostly_reg 4)) false) = Some NeedsMoreItems) by (vm_compute; reflexivity).
  assert (SQ : simple_query [] (mostly_reg 3)) by (apply mostly_simple; lia). assert (SQ4 : simple_query [] (mostly_reg 4)) by (apply mostly_simple; lia).
  assert (N : forall c, In c four -> (0 <= dval (c_credits c))%Q) by (intros c I; unfold four in I; repeat (destruct I as [<-|I]; [vm_compute; discriminate|]); destruct I).
  split; [exact SQ|]. split; [exact SQ4|]. split; [exact four_clear|]. split; [cbn [map]; rewrite S1, S2; reflexivity|]. split.
  - destruct (status_found _ _ S1) as [r [t' [F ST]]].
    apply (what_is_asked_for_is_found_within_limits same_order (reads four) [] (mostly_reg 3) _ [] false (Some r) t' same_set_order eq_refl eq_refl SQ four_clear eq_refl eq_refl N F).
    exists r. split; [reflexivity|left; exact ST].
  - intro H. destruct (status_found _ _ S2) as [r [t' [F ST]]].
    apply (what_is_asked_for_is_found_within_limits same_order (reads four) [] (mostly_reg 4) _ [] false (Some r) t' same_set_order eq_refl eq_refl SQ4 four_clear eq_refl eq_refl N F) in H.
    destruct H as [r0 [E C]]. injection E as <-. rewrite ST in C. destruct C as [X|X]; discriminate X.
Qed.
