(** Property theorems about queries with one assertion: the search meets them exactly when there
    are the classes asked for (C160). *)
From Coq Require Import List ZArith QArith Bool String Lia Sorted Permutation.
From Verif Require Import Transcript Prelude Dec Status Course Claims Exceptions Op Context CondExpr Paths Predicate Limit Apply Assertion Query CourseRule Tree Solve Driver Area StudentLoad Run Loader AreaLoad LoaderProps CommonProps.
From Verif Require Import ListFacts LimitSpec LimitProofs LimitProps ApplyProofs ClaimsSpec ClaimsProofs TranscriptSpec AssertionSpec AssertionProofs PathsSpec PathsProofs PredicateProofs ExceptionsProofs EnumSpec QuerySpec QueryProofs QueryProps CourseRuleSpec TreeSpec TreeSolSpec TreeSolProofs TreeAskSpec SolveSpec PlanSpec PlanProofs MonoSpec MonoQuery MonoProofs MonoTop AreaProps SolveProps TreeSolProps PlanProps AssertionProps MonoProps MonoAskSpec.
Import ListNotations.
Local Open Scope list_scope.

Lemma first_by_sub f cs : forall seen, subseq (first_by f seen cs) cs.
Proof. induction cs as [|c cs IH]; intro seen; cbn; [constructor|]. destruct (existsb _ seen); constructor; apply IH. Qed.
Lemma first_by_all f cs : forall seen, NoDup (map f cs) -> (forall c, In c cs -> ~ In (f c) seen) -> first_by f seen cs = cs.
Proof.
  induction cs as [|c cs IH]; intros seen ND H; cbn; [reflexivity|]. cbn in ND. inversion ND as [|? ? N1 N2]; subst.
  destruct (existsb (String.eqb (f c)) seen) eqn:E.
  - exfalso. apply existsb_exists in E. destruct E as [s [I E]]. apply String.eqb_eq in E. subst s. exact (H c (or_introl eq_refl) I).
  - f_equal. apply IH; [exact N2|]. intros d I [E'|J]; [apply N1; rewrite E'; apply in_map; exact I|exact (H d (or_intror I) J)].
Qed.
Lemma years_apart cs : NoDup (map (fun c => str_of_Z (c_year c)) cs) <-> NoDup (map c_year cs).
Proof.
  rewrite <- (map_map c_year str_of_Z). split; [apply NoDup_map_inv|]. generalize (map c_year cs). intro l. induction 1 as [|x l N ND IH]; cbn; constructor; [|exact IH].
  intro I. apply in_map_iff in I. destruct I as [y [E I]]. apply str_of_Z_inj in E. subst. contradiction.
Qed.
Lemma subjects_apart cs : NoDup (map split_subject cs) <-> exists ss, Forall2 discipline cs ss /\ NoDup ss.
Proof.
  split.
  - intro N. exists (map split_subject cs). split; [|exact N]. clear N. induction cs as [|c cs IH]; cbn; constructor; [apply split_subject_iff; reflexivity|exact IH].
  - intros [ss [F N]]. replace (map split_subject cs) with ss; [exact N|]. clear N. induction F as [|c s cs ss D F IH]; [reflexivity|]. cbn. apply split_subject_iff in D. congruence.
Qed.
(** what the counting does, for all of the keys at once *)
Lemma counting a cs : rising (as_key a) -> exists items, subseq items cs /\
  (dval (as_expected a) <= match apply_courses (as_key a) cs [] with Ok r => ap_value r | Err _ => 0%Q end -> reaches a items)%Q.
Proof.
  unfold rising, reaches. cbn [In]. intros [K|[K|[K|[K|[K|[K|[]]]]]]]; rewrite <- K; cbn [apply_courses].
  - exists (dedup course_eqb cs). split; [apply dedup_subseq|]. intro H. split; [apply dedup_NoDup, course_eqb_spec|]. unfold count_courses, counted, of_nat_Q in H. cbn [ap_value] in H. rewrite map_length in H. exact H.
  - exists (first_by c_crsid [] cs). split; [apply first_by_sub|]. intro H. split; [apply (first_by_values c_crsid cs [])|]. unfold count_distinct_courses, count_firsts, counted, of_nat_Q in H. cbn [ap_value] in H. rewrite map_length in H. exact H.
  - exists (first_by split_subject [] cs). split; [apply first_by_sub|]. intro H. split; [apply subjects_apart, (first_by_values split_subject cs [])|]. unfold count_subjects, count_firsts, counted, of_nat_Q in H. cbn [ap_value] in H. rewrite map_length in H. exact H.
  - exists (first_by c_yearterm [] cs). split; [apply first_by_sub|]. intro H. split; [apply (first_by_values c_yearterm cs [])|]. unfold count_terms, count_firsts, counted, of_nat_Q in H. cbn [ap_value] in H. rewrite map_length in H. exact H.
  - exists (first_by (fun c => str_of_Z (c_year c)) [] cs). split; [apply first_by_sub|]. intro H. split; [apply years_apart, (first_by_values (fun c => str_of_Z (c_year c)) cs [])|]. unfold count_years, count_firsts, counted, of_nat_Q in H. cbn [ap_value] in H. rewrite map_length in H. exact H.
  - exists cs. split; [apply subseq_refl|]. intro H. unfold apply_sum_credits in H. cbn [ap_value] in H. rewrite sum_worth in H. exact H.
Qed.
Lemma counted_all a items : rising (as_key a) -> reaches a items ->
  (dval (as_expected a) <= match apply_courses (as_key a) items [] with Ok r => ap_value r | Err _ => 0%Q end)%Q.
Proof.
  assert (E : forall f cs, NoDup (map f cs) -> first_by f [] cs = cs) by (intros f cs N; apply first_by_all; auto).
  unfold rising, reaches. cbn [In]. intros [K|[K|[K|[K|[K|[K|[]]]]]]]; rewrite <- K; cbn [apply_courses]; unfold count_courses, count_distinct_courses, count_subjects, count_terms, count_years, count_firsts, counted, of_nat_Q; cbn [ap_value]; rewrite ?map_length; try intros [N H].
  - rewrite (dedup_id course_eqb course_eqb_spec) by exact N. exact H.
  - rewrite E by exact N. exact H.
  - rewrite E by (apply subjects_apart; exact N). exact H.
  - rewrite E by exact N. exact H.
  - rewrite E by (apply years_apart; exact N). exact H.
  - intro H. unfold apply_sum_credits. cbn [ap_value]. rewrite sum_worth. exact H.
Qed.
Lemma filter_same {A} (f : A -> bool) l : (forall x, In x l -> f x = true) -> filter f l = l.
Proof. induction l as [|x l IH]; intro H; [reflexivity|]. cbn. rewrite (H x (or_introl eq_refl)). f_equal. apply IH. intros; apply H; simpl; auto. Qed.
Lemma within {A} (f : A -> bool) s l : subseq s l -> (forall x, In x s -> f x = true) -> subseq s (filter f l).
Proof. intros S H. rewrite <- (filter_same f s H). apply subseq_filter_mono. exact S. Qed.
Lemma picked_iff cx q c : In c (MonoQuery.picked cx q) -> ~ In (c_clbid c) (q_excluded q) /\ passes_where (q_where q) (ICourse c).
Proof.
  intro I. unfold picked in I. apply filter_In in I. destruct I as [I K]. apply filter_In in I. destruct I as [_ N]. split.
  - intro J. apply negb_true_iff in N. assert (X : instr (c_clbid c) (q_excluded q) = true) by (apply existsb_exists; exists (c_clbid c); split; [exact J|apply String.eqb_refl]). congruence.
  - unfold keeps in K. unfold passes_where. destruct (q_where q); [|exact Logic.I]. destruct (apply_pred _ _); [congruence|discriminate].
Qed.
Lemma kind_iff a cs c : In c (of_kind a cs) -> passes_where (as_where a) (ICourse c).
Proof. unfold of_kind, passes_where. destruct (as_where a); [|auto]. intro I. apply filter_In in I. destruct I as [_ K]. destruct (apply_pred _ _); [congruence|discriminate]. Qed.
Lemma nodup_ids (s l : list course) : subseq s l -> NoDup (map c_clbid l) -> NoDup (map c_clbid s).
Proof. intros S N. eapply subseq_NoDup; [apply subseq_map; exact S|exact N]. Qed.
Lemma reduce a items : rising (as_key a) -> done a (of_kind a items) -> exists s, subseq s items /\ reaches a s /\
  forall c, In c s -> passes_where (as_where a) (ICourse c) /\ (as_ip_pass a = false -> c_in_progress c = false).
Proof.
  intros R D. set (x := if as_ip_pass a then of_kind a items else finished (of_kind a items)). destruct (counting a x R) as [s [S H]].
  assert (X : subseq x (of_kind a items)) by (unfold x; destruct (as_ip_pass a); [apply subseq_refl|apply finished_sub]).
  exists s. split; [|split; [apply H; exact D|]].
  - eapply subseq_trans; [exact S|]. eapply subseq_trans; [exact X|]. unfold of_kind. destruct (as_where a); [apply subseq_filter|apply subseq_refl].
  - intros c I. assert (J := subseq_in _ _ c S I). split; [apply (kind_iff a items), (subseq_in _ _ c X), J|]. intro IP. unfold x in J. rewrite IP in J. apply filter_In in J. apply negb_true_iff, J.
Qed.
Lemma expand a s : rising (as_key a) -> reaches a s -> (forall c, In c s -> passes_where (as_where a) (ICourse c) /\ (as_ip_pass a = false -> c_in_progress c = false)) -> done a (of_kind a s).
Proof.
  intros R H A. assert (E : of_kind a s = s).
  { unfold of_kind. destruct (as_where a) as [w|]; [|reflexivity]. apply filter_same. intros c I. destruct (A c I) as [P _]. cbn in P. rewrite P. reflexivity. }
  rewrite E. unfold done. assert (E' : (if as_ip_pass a then s else finished s) = s).
  { destruct (as_ip_pass a); [reflexivity|]. apply filter_same. intros c I. apply negb_true_iff, (A c I). reflexivity. }
  rewrite E'. apply counted_all; auto.
Qed.
Lemma asked ord cx l k q a : set_order ord -> cx_exc cx = group_exceptions l -> simple_query l q -> q_limit q = [] -> q_asserts q = [APlain a] -> (forall c, In c (query_courses cx q) -> (0 <= dval (c_credits c))%Q) ->
  ((exists ks, meets ord cx l (NQuery k q) ks /\ NoDup ks) <-> exists items, available cx q a items /\ reaches a items).
Proof.
  intros SO EX SQ QN QA N. assert (RD : forall v, MonoQuery.read ord cx q v <-> v = MonoQuery.picked cx q) by (intro v; unfold MonoQuery.read; rewrite QN; cbn; intuition congruence). assert (NP : forall c, In c (MonoQuery.picked cx q) -> (0 <= dval (c_credits c))%Q) by (intros c I; apply N, picked_in, I).
  assert (PS : subseq (MonoQuery.picked cx q) (query_courses cx q)) by (unfold picked; eapply subseq_trans; apply subseq_filter).
  assert (AL : at_least a) by (destruct SQ as (_ & _ & _ & _ & _ & _ & _ & A); rewrite QA in A; destruct (A _ (or_introl eq_refl)) as [a0 [E [AL _]]]; injection E as <-; exact AL).
  assert (RI : rising (as_key a)) by apply AL.
  assert (AC : forall items, (forall c, In c items -> (0 <= dval (c_credits c))%Q) -> (all_complete cx q (map ICourse items) <-> done a (of_kind a items))).
  { intros items NI. rewrite (all_complete_iff cx l q items EX SQ NI), QA. split; [intro H; apply H; simpl; auto|]. intros D b [E|[]]. injection E as <-. exact D. }
  split.
  - intros [ks [ME ND]].
    assert (X : exists items0, subseq items0 (MonoQuery.picked cx q) /\ done a (of_kind a items0) /\ (q_attempt q = true -> q_allow q = false -> NoDup (map c_clbid items0))).
    { destruct (simple_met ord cx l q EX SQ k ks ME) as [[QT [v [items [RV [S1 [A1 ->]]]]]]|[QT [v [RV [A1 ->]]]]]; apply RD in RV; subst v.
      - exists items. split; [exact S1|]. split; [apply AC; [intros c I; apply NP; eapply subseq_in; eauto|exact A1]|]. intros _ QL. rewrite QL in ND. exact ND.
      - exists (MonoQuery.picked cx q). split; [apply subseq_refl|]. split; [apply AC; [exact NP|exact A1]|]. congruence. }
    destruct X as [items0 [S0 [D NDk]]]. destruct (reduce a items0 RI D) as [s [S1 [RE PR]]]. exists s. split; [|exact RE]. split; [|split].
    + eapply subseq_trans; [exact S1|]. eapply subseq_trans; [exact S0|exact PS].
    + intros c I. assert (J : In c (MonoQuery.picked cx q)) by (eapply subseq_in; [exact S0|]; eapply subseq_in; eauto). destruct (picked_iff cx q c J) as [P1 P2]. destruct (PR c I) as [P3 P4]. auto.
    + intros QT QL. eapply nodup_ids; [exact S1|auto].
  - intros [s [[S [PR NDk]] RE]].
    assert (SP : subseq s (MonoQuery.picked cx q)).
    { unfold picked. apply within; [apply within; [exact S|]|].
      - intros c I. destruct (PR c I) as [P _]. apply negb_true_iff. destruct (instr (c_clbid c) (q_excluded q)) eqn:E; [|reflexivity]. exfalso. apply P. apply existsb_exists in E. destruct E as [z [J E]]. apply String.eqb_eq in E. subst z. exact J.
      - intros c I. destruct (PR c I) as [_ [P _]]. unfold keeps. unfold passes_where in P. destruct (q_where q); [rewrite P|]; reflexivity. }
    assert (D : done a (of_kind a s)) by (apply expand; auto; intros c I; destruct (PR c I) as [_ [_ P]]; exact P).
    assert (NI : forall c, In c s -> (0 <= dval (c_credits c))%Q) by (intros c I; apply NP; eapply subseq_in; eauto).
    destruct (q_attempt q) eqn:QT.
    + exists (if q_allow q then [] else map c_clbid s). split; [apply simple_meets with (v := MonoQuery.picked cx q); auto; [apply AC; auto|apply RD; reflexivity]|]. destruct (q_allow q); [constructor|auto].
    + exists []. split; [|constructor]. apply simple_meets_free with (v := MonoQuery.picked cx q); auto; [|apply RD; reflexivity]. apply AC; [exact NP|]. refine (done_larger a _ _ AL _ (of_kind_sub a _ _ SP) D). intros c J. apply NP. eapply of_kind_in; eauto.
Qed.

(** ** C160 *)

(** A query with one assertion "at least so many" is found to be met exactly when the student has
    the classes asked for. *)
Theorem what_is_asked_for_is_found :
  forall ord cx l q a t merge best t', set_order ord -> cx_exc cx = group_exceptions l -> cx_multi cx = [] ->
  simple_query l q -> q_limit q = [] -> q_asserts q = [APlain a] -> as_state a = Empty -> (forall c, In c (query_courses cx q) -> (0 <= dval (c_credits c))%Q) ->
  find_best_solution ord cx t (NQuery KRule q) merge = Ok (best, t') ->
  ((exists r, best = Some r /\ complete (status_of r)) <-> exists items, available cx q a items /\ reaches a items).
Proof.
  intros ord cx l q a t merge best t' SO EX MC SQ QN QA ST N F. rewrite <- (asked ord cx l KRule q a SO EX SQ QN QA N).
  assert (SELF : forall x, part_of (NQuery KRule q) x -> x = NQuery KRule q) by (intros x P; inversion P; reflexivity).
  apply (the_search_is_exact ord cx l (NQuery KRule q) t merge best t' SO EX MC); auto.
  - intros x P. rewrite (SELF x P). split; [exact SQ|]. cbn [status_of]. unfold q_status. destruct SQ as (_ & QO & _). rewrite QO, QA. cbn [map any_status]. rewrite ST. reflexivity.
  - split; [intros r [[k P]|[k [i [k' P]]]]; apply SELF in P; discriminate|]. split; [intros x P; rewrite (SELF x P); reflexivity|]. intros k i items P. apply SELF in P. discriminate.
  - split; [intros r [[k P]|[k [i [k' P]]]]; apply SELF in P; discriminate|]. intros k q' P. apply SELF in P. injection P as _ ->. destruct SQ as (QS & _ & QL & _). split; [apply QL|congruence].
  - intros k q' c P. apply SELF in P. injection P as _ ->. apply N.
Qed.
Print Assumptions what_is_asked_for_is_found.

(** ** Samples *)
Local Open Scope string_scope.
(** at least [n] classes outside of REG *)
Definition outside_reg (n : Z) : query :=
  mkQuery ["$"; ".query"] false QCourses DtCourse [APlain (AssertionProps.plain KCourses OGte n false)] [] (Some (CommonProofs.p_not "REG")) false true true false [] [] [] [] [] [].
Definition reads (cs : list course) : ctx := limited_ctx (AreaProps.one_rule "concentration" (NQuery KRule (outside_reg 1)) []) (AreaProps.took cs) [] cs.
Lemma outside_simple n : (1 <= n)%Z -> simple_query [] (outside_reg n).
Proof.
  intro H. split; [reflexivity|]. split; [reflexivity|]. split; [split; [intros x y []|intros m []]|]. split; [reflexivity|]. split; [intros x []|].
  split; [intros w E c; injection E as <-; destruct (CommonProofs.decides_subject "REG" c) as [b [E _]]; eauto|]. split; [discriminate|].
  intros x [<-|[]]. eexists. split; [reflexivity|]. split; [|split; [intros w E; discriminate E|intros y []]].
  split; [reflexivity|]. split; [reflexivity|]. split; [reflexivity|]. split; [reflexivity|]. split; [left; reflexivity|]. split; [intro E; discriminate E|]. intros _. exists n. split; [exact H|]. cbn [AssertionProps.plain as_expected]. unfold dval, dec_of_Z. cbn [dcoef dexp]. first [reflexivity|cbn; rewrite ?Z.mul_1_r; reflexivity].
Qed.
(** A 1 is in progress, one class is of REG: one class is not two, but with B 1 they are *)
Definition a_class (k s : string) : course := mk_simple k s "1".
Example asked_example :
  let few := reads [a_now; a_class "200" "B"; a_class "300" "REG"] in
  let more := reads [a_now; a_class "200" "B"; a_class "300" "REG"; a_class "400" "C"] in
  simple_query [] (outside_reg 2) /\
  map (fun cx => match find_best_solution same_order cx [] (NQuery KRule (outside_reg 2)) false with Ok (Some r, _) => Some (status_of r) | _ => None end) [few; more] = [Some PendingCurrent; Some Done] /\
  (exists items, available more (outside_reg 2) (AssertionProps.plain KCourses OGte 2 false) items /\ reaches (AssertionProps.plain KCourses OGte 2 false) items) /\
  ~ (exists items, available few (outside_reg 2) (AssertionProps.plain KCourses OGte 2 false) items /\ reaches (AssertionProps.plain KCourses OGte 2 false) items).
Proof.
  cbv zeta. assert (S1 : match find_best_solution same_order (reads [a_now; a_class "200" "B"; a_class "300" "REG"]) [] (NQuery KRule (outside_reg 2)) false with Ok (Some r, _) => Some (status_of r) | _ => None end = Some PendingCurrent) by (vm_compute; reflexivity).
  assert (S2 : match find_best_solution same_order (reads [a_now; a_class "200" "B"; a_class "300" "REG"; a_class "400" "C"]) [] (NQuery KRule (outside_reg 2)) false with Ok (Some r, _) => Some (status_of r) | _ => None end = Some Done) by (vm_compute; reflexivity).
  assert (SQ : simple_query [] (outside_reg 2)) by (apply outside_simple; lia).
  assert (N : forall cs, (forall c, In c cs -> (0 <= dval (c_credits c))%Q) -> forall c, In c (query_courses (reads cs) (outside_reg 2)) -> (0 <= dval (c_credits c))%Q) by (intros cs H c I; apply H; exact I).
  split; [exact SQ|]. split; [cbn [map]; rewrite S1, S2; reflexivity|]. split.
  - destruct (find_best_solution _ _ _ _ _) as [[best t']|] eqn:F in S2; [|discriminate].
    eapply (what_is_asked_for_is_found same_order (reads [a_now; a_class "200" "B"; a_class "300" "REG"; a_class "400" "C"]) [] (outside_reg 2) _ [] false best t') in F; [|apply same_set_order|reflexivity|reflexivity|exact SQ|reflexivity|reflexivity|reflexivity|apply N; intros c I; repeat (destruct I as [<-|I]; [vm_compute; discriminate|]); destruct I].
    apply F. destruct best as [r|]; [|discriminate]. injection S2 as S2. exists r. split; [reflexivity|left; exact S2].
  - intro H. destruct (find_best_solution _ _ _ _ _) as [[best t']|] eqn:F in S1; [|discriminate].
    eapply (what_is_asked_for_is_found same_order (reads [a_now; a_class "200" "B"; a_class "300" "REG"]) [] (outside_reg 2) _ [] false best t') in F; [|apply same_set_order|reflexivity|reflexivity|exact SQ|reflexivity|reflexivity|reflexivity|apply N; intros c I; repeat (destruct I as [<-|I]; [vm_compute; discriminate|]); destruct I].
    apply F in H. destruct H as [r [-> C]]. injection S1 as S1. rewrite S1 in C. destruct C; discriminate.
Qed.

(** A tree with a course and a query that meets the hypotheses of [the_search_is_exact] and
    [more_classes_do_not_hurt]: A 1 cannot count for both. *)
Definition q_child : node := child "%q" (NQuery KRule (outside_reg 1)).
Definition mixed : node := all_of [y_child; q_child].
Lemma mixed_part x : part_of mixed x -> x = mixed \/ x = y_child \/ x = q_child \/ x = named "A 1" \/ x = NQuery KRule (outside_reg 1).
Proof. intro P. unfold mixed, all_of, rules, y_child, q_child, child, named in P. parts; try match goal with H : part_of (NQuery _ _) _ |- _ => inversion H; clear H; subst end; first [left; reflexivity|right; left; reflexivity|right; right; left; reflexivity|do 3 right; left; reflexivity|do 4 right; reflexivity]. Qed.
Lemma mixed_holds cs : (forall c, In c cs -> (0 <= dval (c_credits c))%Q) ->
  of_courses [] mixed /\ orderly mixed /\ plain_rule (reads cs) [] mixed /\ no_debts (reads cs) mixed.
Proof.
  intro N. split; [|split; [split; [|split]|split]].
  - intros x P. apply mixed_part in P. destruct P as [->|[->|[->|[->| ->]]]]; (split; [|vm_compute; reflexivity]); cbn.
    + split; [reflexivity|lia].
    + split; [reflexivity|discriminate].
    + split; [reflexivity|discriminate].
    + auto.
    + apply outside_simple. lia.
  - intros r H. destruct H as [[k P]|[k [i [k' P]]]]; apply mixed_part in P; destruct P as [P|[P|[P|[P|P]]]]; try discriminate P. injection P as _ ->. intro H. destruct (H eq_refl).
  - intros x P. apply mixed_part in P. destruct P as [->|[->|[->|[->| ->]]]]; reflexivity.
  - intros k i items P. apply mixed_part in P. destruct P as [P|[P|[P|[P|P]]]]; try discriminate P. injection P as _ _ ->.
    split; [repeat constructor; cbn; intuition discriminate|repeat (apply Forall_cons || apply Forall_nil); right; intros t D; discriminate].
  - split.
    + intros r H. destruct H as [[k P]|[k [i [k' P]]]]; apply mixed_part in P; destruct P as [P|[P|[P|[P|P]]]]; try discriminate P. injection P as _ ->. split; [reflexivity|intros x k0 f []].
    + intros k q P. apply mixed_part in P; destruct P as [P|[P|[P|[P|P]]]]; try discriminate P. injection P as _ ->. split; [intros a b []|discriminate].
  - intros k q c P I. apply mixed_part in P; destruct P as [P|[P|[P|[P|P]]]]; try discriminate P. injection P as _ ->. apply N. exact I.
Qed.
Example mixed_example :
  let alone := reads [a_class "100" "A"] in let both := reads [a_class "100" "A"; a_class "200" "B"] in
  of_courses [] mixed /\ orderly mixed /\ plain_rule alone [] mixed /\ no_debts both mixed /\ more alone both /\ in_order alone both mixed /\
  map (fun cx => match find_best_solution same_order cx [] mixed false with Ok (Some r, _) => Some (status_of r) | _ => None end) [alone; both] = [Some NeedsMoreItems; Some Done] /\
  (forall ks, NoDup ks -> ~ meets same_order alone [] mixed ks) /\ exists ks, meets same_order both [] mixed ks /\ NoDup ks.
Proof.
  cbv zeta.
  assert (N1 : forall c, In c [a_class "100" "A"] -> (0 <= dval (c_credits c))%Q) by (intros c I; repeat (destruct I as [<-|I]; [vm_compute; discriminate|]); destruct I).
  assert (N2 : forall c, In c [a_class "100" "A"; a_class "200" "B"] -> (0 <= dval (c_credits c))%Q) by (intros c I; repeat (destruct I as [<-|I]; [vm_compute; discriminate|]); destruct I).
  destruct (mixed_holds _ N1) as [OC [OR [PL DE]]]. destruct (mixed_holds _ N2) as [_ [_ [PL2 DE2]]].
  assert (S1 : match find_best_solution same_order (reads [a_class "100" "A"]) [] mixed false with Ok (Some r, _) => Some (status_of r) | _ => None end = Some NeedsMoreItems) by (vm_compute; reflexivity).
  assert (S2 : match find_best_solution same_order (reads [a_class "100" "A"; a_class "200" "B"]) [] mixed false with Ok (Some r, _) => Some (status_of r) | _ => None end = Some Done) by (vm_compute; reflexivity).
  split; [exact OC|]. split; [exact OR|]. split; [exact PL|]. split; [exact DE2|]. split.
  { apply (more_limited (AreaProps.one_rule "concentration" (NQuery KRule (outside_reg 1)) []) (AreaProps.took [a_class "100" "A"]) (AreaProps.took [a_class "100" "A"; a_class "200" "B"]) []). split.
    - intros c [<-|[]]. simpl. auto.
    - intros c d I J E. cbn [t_courses took In] in I, J. repeat (destruct I as [<-|I]; [repeat (destruct J as [<-|J]; [first [reflexivity|discriminate E]|]); destruct J|]). destruct I. }
  split; [intros k q P; split; [unfold query_courses; destruct (q_failed_too q); repeat constructor|left; apply mixed_part in P; destruct P as [P|[P|[P|[P|P]]]]; try discriminate P; injection P as _ ->; reflexivity]|].
  split; [cbn [map]; rewrite S1, S2; reflexivity|]. split.
  - intros ks ND ME. destruct (find_best_solution _ _ _ _ _) as [[best t']|] eqn:F in S1; [|discriminate].
    destruct (proj2 (the_search_is_exact same_order (reads [a_class "100" "A"]) [] mixed [] false best t' same_set_order eq_refl eq_refl OC OR PL DE F) (ex_intro _ ks (conj ME ND))) as [r [-> CO]].
    injection S1 as S1. rewrite S1 in CO. destruct CO; discriminate.
  - destruct (find_best_solution _ _ _ _ _) as [[best t']|] eqn:F in S2; [|discriminate].
    apply (the_search_is_exact same_order (reads [a_class "100" "A"; a_class "200" "B"]) [] mixed [] false best t' same_set_order eq_refl eq_refl OC OR PL2 DE2 F). destruct best as [r|]; [|discriminate]. injection S2 as S2. exists r. split; [reflexivity|left; exact S2].
Qed.
