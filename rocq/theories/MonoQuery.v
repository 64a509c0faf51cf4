(** Queries that ask for at least so much. *)
From Coq Require Import List ZArith QArith Bool String Lia Sorted Permutation.
From Verif Require Import Prelude Dec Status Course Claims Exceptions Op Context CondExpr Paths Predicate Limit Apply Assertion Query CourseRule Tree Solve.
From Verif Require Import ListFacts StrFacts EnumProofs LazyProduct LazyRun LimitSpec LimitProofs LimitProps LimitLoadProps LimitApartProps ApplyProofs ClaimsSpec ClaimsProofs TranscriptSpec AssertionSpec AssertionProofs PathsSpec PathsProofs PredicateProofs ExceptionsProofs EnumSpec QuerySpec QueryProofs QueryProps CourseRuleSpec TreeSpec TreeSolSpec TreeSolProofs TreeAskSpec TreeAuditSpec TreeAuditProofs TreeAuditProps SolveSpec SolveProofs CommonProofs PlanSpec PlanProofs MonoSpec.
Import ListNotations.
Local Open Scope list_scope.

Lemma bind_ok {A B} (r : res A) (f : A -> res B) b : bind r f = Ok b -> exists a, r = Ok a /\ f a = Ok b.
Proof. destruct r; cbn; [eauto|discriminate]. Qed.
(** the classes were free before and are claimed afterwards *)
Definition newly (t t' : claims) (ks : list string) : Prop := forall k, In k ks -> ~ claimed t k /\ claimed t' k.
Lemma claim_back t c p sh cl t' : make_claim [] t c p sh = Ok (cl, t') -> cl_failed cl = false -> newly t t' (uses_up sh (c_clbid c)).
Proof.
  intros M F k I. unfold make_claim in M. destruct sh; [destruct I|]. destruct I as [<-|[]]. unfold claimed. rewrite (dget_recorded t).
  assert (REC : claimed (record_claim t (mkClaim c p false)) (c_clbid c)).
  { unfold claimed. rewrite recorded_record. cbn [cl_course]. rewrite String.eqb_refl. intro E. apply app_eq_nil in E. destruct E; discriminate. }
  destruct (dget t (c_clbid c)) as [[|x l]|]; cbn in M; injection M as <- <-; [|discriminate|]; split; auto.
Qed.
Lemma grows_claimed t t' k : grows t t' -> claimed t k -> claimed t' k.
Proof. intros G C E. destruct (G k) as [rest H]. rewrite H in E. apply app_eq_nil in E. destruct E. contradiction. Qed.
Lemma newly_app t t1 t2 a b : grows t t1 -> grows t1 t2 -> NoDup a -> NoDup b -> newly t t1 a -> newly t1 t2 b ->
  NoDup (a ++ b) /\ newly t t2 (a ++ b).
Proof.
  intros G1 G2 Na Nb A B. split.
  - apply ListFacts.NoDup_app; auto. intros k I J. destruct (A k I) as [_ C], (B k J) as [D _]. contradiction.
  - intros k I. apply in_app_or in I. destruct I as [I|I]; [split; [apply A, I|eapply grows_claimed; [exact G2|apply A, I]]|].
    destruct (B k I) as [D D']. split; [|exact D']. intro C. apply D. eapply grows_claimed; eauto.
Qed.

(** ** exceptions *)
Lemma no_inserts cx l p : cx_exc cx = group_exceptions l -> untouched l p -> get_inserts (cx_exc cx) p = [].
Proof.
  intros -> U. destruct (get_inserts (group_exceptions l) p) as [|x es] eqn:E; [reflexivity|]. exfalso. assert (I : In x (get_inserts (group_exceptions l) p)) by (rewrite E; simpl; auto).
  apply inserts_at in I. destruct I as [I [P _]]. exact (U x I P).
Qed.
Lemma no_blocks cx l p : cx_exc cx = group_exceptions l -> untouched l p -> get_blocks (cx_exc cx) p = [].
Proof.
  intros -> U. unfold get_blocks. destruct (groups_ok l) as [_ [A _]]. rewrite A. apply filter_false || idtac.
  destruct (filter is_block (filter (fun x => path_eqb (ex_path x) p) l)) as [|x es] eqn:E; [reflexivity|]. exfalso.
  assert (I : In x (filter is_block (filter (fun x => path_eqb (ex_path x) p) l))) by (rewrite E; simpl; auto).
  apply filter_In in I. destruct I as [I _]. apply filter_In in I. destruct I as [I P]. apply path_eqb_iff in P. exact (U x I P).
Qed.

(** ** limits *)
Lemma sound_exn ord ls cs : set_order ord -> sound_limits ls -> g_exn (limited_transcripts ord ls [] cs) = None.
Proof.
  intros SO [CO SL]. assert (T : forall l c, In l ls -> In c cs -> ~ forced [] c -> decided l c) by (intros l c L _ _; apply (proj2 (SL l L)); reflexivity).
  unfold limited_transcripts. destruct ls as [|l0 ls'] eqn:L; [reflexivity|]. rewrite <- L in *. fold (the_forced [] cs).
  destruct (probe_total (the_forced [] cs) ls cs) with (d := @nil (limit * list course)) as [matched P].
  { intros l c Hl Hc NF. apply T; auto. }
  rewrite P. assert (MO := probe_matched ls [] cs CO matched P). fold (unmatched_of cs matched).
  replace (map (fun p => gret (iterate (fst p) (snd p))) matched) with (map gret (map (fun p => iterate (fst p) (snd p)) matched)) by (rewrite map_map; reflexivity).
  rewrite lazy_run_pure.
  assert (existsb (fun l : list (list course) => match l with [] => true | _ => false end) (map (fun p => iterate (fst p) (snd p)) matched) = false) as ->.
  { apply not_true_is_false. intro X. apply existsb_exists in X as (it & H & E). apply in_map_iff in H as ((l, s) & <- & I). simpl in E.
    destruct MO as (S & _). destruct (S l s I) as (Hl & _). assert (H := iterate_some l s (proj1 (SL l Hl))).
    destruct (iterate l s); [congruence|discriminate]. }
  cbn [g_exn g_items gret]. rewrite gapp_nil_r. apply emit_complete. intros r Hr. apply check_from_total. apply (check_decided ord ls [] cs matched r SO T MO). apply product_chosen. exact Hr.
Qed.
Lemma limited_in ord ls cs v c : set_order ord -> sound_limits ls -> In v (g_items (limited_transcripts ord ls [] cs)) -> In c v -> In c cs.
Proof.
  intros SO [CO _] I J. destruct ls as [|l0 ls'] eqn:L; [cbn in I; destruct I as [<-|[]]; exact J|]. rewrite <- L in *.
  destruct (variant_shape ord SO ls [] cs ltac:(rewrite L; discriminate) CO v I) as (_ & _ & SUB & _). auto.
Qed.
(** each selection of fewer classes is within one of more *)
Lemma limits_grow ord ls cs cs' v : set_order ord -> sound_limits ls -> subseq cs cs' -> ls = [] \/ cs' = cs \/ clear_limits ls cs' ->
  In v (g_items (limited_transcripts ord ls [] cs)) -> exists v', In v' (g_items (limited_transcripts ord ls [] cs')) /\ subseq v v'.
Proof.
  intros SO [CO _] SS [->|[->|[LA' ID]]] I; [cbn in I; destruct I as [<-|[]]; exists cs'; cbn; auto|exists v; split; [exact I|apply subseq_refl]|].
  assert (IN : forall c, In c cs -> In c cs') by (intro c; apply subseq_in; exact SS). assert (LA := fewer_apart _ _ _ _ IN LA'). assert (NE := la_some _ _ _ LA).
  destruct (limits_only_remove_limited_courses ord _ _ _ v SO CO NE I) as [N [ST [SUB _]]].
  destruct (tried_selections_hold ord _ _ _ v SO LA I) as [_ _ BC BR _].
  destruct (completed_selection _ _ _ v LA' N (fun c K => IN c (SUB c K)) BC BR) as [SE [N' IN']].
  destruct (selections_are_tried ord _ _ _ _ SO LA' N' SE) as [v' [J E]]. exists v'. split; [exact J|].
  destruct (limits_only_remove_limited_courses ord _ _ _ v' SO CO NE J) as [N2 [ST' [SUB' _]]].
  apply sorted_part_in_order; auto. intros c K. apply E, IN', K.
Qed.
Lemma limits_filter ls cs cs' : (forall c, In c cs -> In c cs') -> clear_limits ls cs' -> clear_limits ls cs.
Proof. intros IN [LA ID]. split; [eapply fewer_apart; eauto|]. intros c d I J. apply ID; auto. Qed.

(** ** what is read *)
Definition keeps (q : query) (c : course) : bool :=
  match q_where q with None => true | Some w => match apply_pred (ICourse c) w with Ok b => b | Err _ => false end end.
Definition picked (cx : ctx) (q : query) : list course := filter (keeps q) (filter (fun c => negb (instr (c_clbid c) (q_excluded q))) (query_courses cx q)).
Lemma filtered_simple cx l q : cx_exc cx = group_exceptions l -> simple_query l q -> q_filtered cx q = Ok (map ICourse (picked cx q), [], []).
Proof.
  intros EX (QS & _ & _ & _ & U & W & _). unfold q_filtered, picked, keeps, q_data. rewrite QS, (no_inserts cx l _ EX U). fold (query_courses cx q).
  set (cs := filter _ (query_courses cx q)). destruct (q_where q) as [w|].
  - destruct (filter_res_total (fun x => apply_pred x w) (map ICourse cs)) as [r R].
    { intros x I. apply in_map_iff in I. destruct I as [c [<- _]]. apply (W w eq_refl). }
    rewrite R. cbn [bind q_insert]. apply filter_res_items in R. destruct R as [-> _]. f_equal. f_equal. f_equal. clear. induction cs as [|c cs IH]; [reflexivity|]. cbn [map filter]. destruct (match apply_pred (ICourse c) w with Ok b => b | Err _ => false end); cbn [map]; congruence.
  - cbn [bind q_insert]. f_equal. f_equal. f_equal. clear. induction cs as [|c cs IH]; [reflexivity|]. cbn. congruence.
Qed.
Lemma simple_plain l q x : simple_query l q -> In x (listed_assertions q) -> at_least x /\ answerable (as_where x) /\ untouched l (as_path x).
Proof.
  intros (_ & _ & _ & _ & _ & _ & _ & A) I. rewrite listed_flat in I. apply in_flat_map in I. destruct I as [y [I J]]. destruct (A y I) as [a [-> H]]. destruct J as [<-|[]]. exact H.
Qed.
Lemma simple_counted l q : simple_query l q -> well_counted q.
Proof.
  intros S a D. destruct D as [K [pre [post [E _]]]]. assert (I : In a (listed_assertions q)) by (rewrite E; apply in_or_app; simpl; auto).
  destruct (simple_plain l q a S I) as [(_ & OP & _ & _ & _ & _ & N) _]. rewrite OP. split; [split; discriminate|]. destruct N as [e [H1 H2]]; [intro X; destruct K as [K|K]; rewrite K in X; discriminate|]. exists e. split; [lia|exact H2].
Qed.

(** ** what was reached *)
Lemma first_by_length f cs : forall seen, (List.length (first_by f seen cs) <= List.length cs)%nat.
Proof. induction cs as [|c cs IH]; intro seen; cbn; [lia|]. destruct (existsb _ seen); cbn; [specialize (IH seen)|specialize (IH (f c :: seen))]; lia. Qed.
Lemma value_le_length k cs second r : rising k -> k <> KSumCredits -> apply_courses k cs second = Ok r -> (ap_value r <= inject_Z (Z.of_nat (List.length cs)))%Q.
Proof.
  intros R N H. assert (L : forall x : nat, (x <= List.length cs)%nat -> (of_nat_Q x <= inject_Z (Z.of_nat (List.length cs)))%Q) by (intros x X; unfold of_nat_Q; rewrite <- Zle_Qle; lia).
  unfold rising in R. cbn [In] in R. destruct R as [<-|[<-|[<-|[<-|[<-|[<-|[]]]]]]]; try congruence; cbn [apply_courses] in H; injection H as <-;
    unfold count_courses, count_distinct_courses, count_subjects, count_terms, count_years, count_firsts, counted; cbn [ap_value]; rewrite map_length; apply L; try apply first_by_length. apply dedup_by_length.
Qed.
Lemma reached cx l a items r : cx_exc cx = group_exceptions l -> at_least a -> untouched l (as_path a) ->
  audit_assertion cx (map ICourse items) a = Ok r -> complete (as_state r) ->
  (as_key a <> KSumCredits -> (dval (as_expected a) <= inject_Z (Z.of_nat (List.length items)))%Q) /\
  (as_key a = KSumCredits -> (dval (as_expected a) <= credits_of items)%Q).
Proof.
  intros EX (TY & OP & AM & OV & RI & SU & CO) U A C. unfold audit_assertion in A. rewrite OV, (no_inserts cx l _ EX U), (no_blocks cx l _ EX U) in A.
  apply bind_ok in A. destruct A as [fl [F A]]. cbn [insert_items bind fst block_items snd] in A. apply bind_ok in A. destruct A as [[st calc] [E A]]. injection A as <-. cbn [with_outcome as_state fst] in C.
  assert (G : exists cs, fl = map ICourse cs /\ (List.length cs <= List.length items)%nat /\ (as_where a = None -> cs = items)).
  { destruct (as_where a) as [w|]; [|injection F as <-; exists items; auto]. rewrite filter_courses in F. destruct (filter_res _ items) as [cs|] eqn:FR; [|discriminate]. injection F as <-.
    exists cs. split; [reflexivity|]. split; [|discriminate]. apply filter_res_items in FR. destruct FR as [-> _]. apply filter_len. }
  destruct G as [cs [-> [LE WN]]]. unfold evaluate_items in E. rewrite TY, as_courses_map in E. cbn [bind] in E. unfold evaluate_with_courses in E.
  apply bind_ok in E. destruct E as [r0 [AP E]]. rewrite OP in E. cbn [compare_num bind] in E. destruct (Qleb (dval (as_expected a)) (ap_value r0)) eqn:B.
  - apply Qleb_iff in B. split; intro K.
    + eapply Qle_trans; [exact B|]. eapply Qle_trans; [eapply value_le_length; eauto|]. rewrite <- Zle_Qle. lia.
    + destruct (SU K) as [W _]. rewrite (WN W) in AP. rewrite K in AP. injection AP as <-. cbn [ap_value apply_sum_credits] in B. rewrite sum_worth in B. exact B.
  - injection E as <- <-. exfalso. unfold unmet in C. destruct (_ && _); destruct C; discriminate.
Qed.

(** ** what was claimed *)
Lemma make_claim_grows t c p sh cl t' : make_claim [] t c p sh = Ok (cl, t') -> grows t t'.
Proof.
  intro M. unfold make_claim in M. destruct sh; [injection M as _ <-; apply grows_refl|].
  destruct (dget t (c_clbid c)) as [[|x l]|]; cbn in M; injection M as _ <-; try apply grows_record; apply grows_refl.
Qed.
Lemma claim_each_back q : q_forced q = [] -> forall cs t items ok bad t', claim_each [] t q cs = Ok (items, ok, bad, t') ->
  let ks := if q_allow q then [] else map c_clbid items in subseq items cs /\ NoDup ks /\ newly t t' ks /\ grows t t'.
Proof.
  intro NF. induction cs as [|c cs IH]; intros t items ok bad t' H; cbn [claim_each] in H.
  - injection H as <- <- <- <-. cbn. split; [constructor|]. split; [destruct (q_allow q); constructor|]. split; [intros k; destruct (q_allow q); intros []|apply grows_refl].
  - rewrite NF in H. cbn [instr existsb] in H. rewrite orb_false_r in H. apply bind_ok in H. destruct H as [[cl t1] [M H]]. apply bind_ok in H. destruct H as [[[[its o] b] t2] [R H]].
    destruct (IH _ _ _ _ _ R) as [S [ND [NW G]]]. assert (G1 := make_claim_grows _ _ _ _ _ _ M). destruct (cl_failed cl) eqn:F; injection H as <- <- <- <-.
    + split; [constructor; exact S|]. split; [exact ND|]. split; [|eapply grows_trans; eauto]. intros k I. destruct (NW k I) as [A B]. split; [|exact B]. intro C. apply A. eapply grows_claimed; eauto.
    + assert (C := claim_back _ _ _ _ _ _ M F). split; [constructor; exact S|]. destruct (q_allow q); [split; [constructor|]; split; [intros k []|eapply grows_trans; eauto]|].
      cbn [uses_up] in C. destruct (newly_app t t1 t2 [c_clbid c] (map c_clbid its) G1 G) as [N1 N2]; auto; [repeat constructor; intros []|]. split; [exact N1|]. split; [exact N2|eapply grows_trans; eauto].
Qed.

(** ** what is tried *)
(** as many classes as the assertions ask for at least *)
Definition enough (q : query) (items : list course) : Prop :=
  forall a, In a (listed_assertions q) ->
  (as_key a <> KSumCredits -> (dval (as_expected a) <= inject_Z (Z.of_nat (List.length items)))%Q) /\
  (as_key a = KSumCredits -> (dval (as_expected a) <= credits_of items)%Q).
Lemma all_enough cx l q items : cx_exc cx = group_exceptions l -> simple_query l q -> all_complete cx q (map ICourse items) -> enough q items.
Proof.
  intros EX S [rs [M C]] a I. destruct (simple_plain l q a S I) as [AL [_ U]]. rewrite listed_flat in I. apply in_flat_map in I. destruct I as [y [I J]].
  destruct S as (_ & _ & _ & _ & _ & _ & _ & A). destruct (A y I) as [a' [-> _]]. destruct J as [<-|[]]. clear AL U.
  destruct (A _ I) as [a0 [E [AL [_ U]]]]. injection E as <-. apply mapr_ok in M. destruct (F2_in_l _ _ _ _ M I) as [r [Ir R]]. cbn [audit_any] in R. apply bind_ok in R. destruct R as [r0 [R1 R2]]. injection R2 as <-.
  eapply reached; eauto. exact (C _ Ir).
Qed.
Lemma enough_some l q items : simple_query l q -> enough q items -> items <> [].
Proof.
  intros S H ->. assert (S' := S). destruct S' as (_ & _ & _ & _ & _ & _ & NE & A). destruct (q_asserts q) as [|x xs] eqn:E; [congruence|].
  destruct (A x (or_introl eq_refl)) as [a [-> [AL _]]]. assert (I : In a (listed_assertions q)) by (rewrite listed_flat, E; simpl; auto). destruct (H a I) as [H1 H2].
  destruct AL as (_ & _ & _ & _ & _ & SU & CO). assert (KD : as_key a = KSumCredits \/ as_key a <> KSumCredits) by (destruct (as_key a); auto; right; discriminate). destruct KD as [K|K].
  - destruct (SU K) as [_ P]. specialize (H2 K). unfold credits_of in H2. cbn in H2. apply (Qlt_irrefl 0). eapply Qlt_le_trans; eauto.
  - destruct (CO K) as [e [P Ee]]. specialize (H1 K). rewrite Ee in H1. cbn in H1. rewrite <- Zle_Qle in H1. lia.
Qed.
Lemma enough_tried l q items v : simple_query l q -> enough q items -> subseq items v -> (credits_of items <= credits_of v)%Q -> tried q v items.
Proof.
  intros S H SS CR. assert (NE := enough_some l q items S H). unfold tried.
  assert (LC := largest_spec _ _ q is_count_iff). assert (LS := largest_spec _ _ q is_sum_iff).
  destruct (max_by_expected (filter as_is_simple_count _)) as [a|].
  - left. assert (WC := simple_counted l q S a LC). destruct WC as [_ [e [_ Ee]]]. exists a, e. split; [exact LC|]. split; [exact Ee|]. split; [exact SS|].
    destruct LC as [K [pre [post [E _]]]]. assert (I : In a (listed_assertions q)) by (rewrite E; apply in_or_app; simpl; auto).
    destruct (simple_plain l q a S I) as [(_ & OP & AM & _) _]. unfold size_tried. rewrite OP. right. split; [exact AM|]. right. split; [lia|].
    destruct (H a I) as [H1 _]. rewrite Ee in H1. apply H1. intro X. destruct K as [K|K]; rewrite K in X; discriminate.
  - right. destruct (max_by_expected (filter as_is_simple_sum _)) as [a|].
    + left. split; [exact LC|]. exists a. split; [exact LS|]. right. destruct LS as [K [pre [post [E _]]]]. assert (I : In a (listed_assertions q)) by (rewrite E; apply in_or_app; simpl; auto).
      destruct (H a I) as [_ H2]. specialize (H2 K). split; [eapply Qle_trans; eauto|auto].
    + right. auto.
Qed.

Lemma credits_subseq s v : (forall c, In c v -> (0 <= dval (c_credits c))%Q) -> subseq s v -> (credits_of s <= credits_of v)%Q.
Proof.
  intros N SS. unfold credits_of. induction SS as [|x s v SS IH|x s v SS IH]; cbn [map fold_right]; [apply Qle_refl| |].
  - apply Qplus_le_compat; [apply Qle_refl|]. apply IH. intros; apply N; simpl; auto.
  - apply Qle_trans with (0 + fold_right Qplus 0 (map (fun c => dval (c_credits c)) v))%Q; [rewrite Qplus_0_l; apply IH; intros; apply N; simpl; auto|].
    apply Qplus_le_compat; [apply N; simpl; auto|apply Qle_refl].
Qed.
Lemma picked_in cx q c : In c (picked cx q) -> In c (query_courses cx q).
Proof. unfold picked. intro I. apply filter_In in I. destruct I as [I _]. apply filter_In in I. apply I. Qed.
Lemma picked_more cx cx' q : subseq (query_courses cx q) (query_courses cx' q) -> subseq (picked cx q) (picked cx' q).
Proof. intro S. unfold picked. apply subseq_filter_mono, subseq_filter_mono, S. Qed.

Lemma filter_none {A} (f : A -> bool) l : (forall x, In x l -> f x = false) -> filter f l = [].
Proof. induction l as [|x l IH]; intro H; [reflexivity|]. cbn. rewrite (H x (or_introl eq_refl)). apply IH. intros; apply H; simpl; auto. Qed.
Lemma tried_subseq q v combo : tried q v combo -> subseq combo v.
Proof. intros [[a [z [_ [_ [T _]]]]]|[[_ [a [_ [[_ ->]|[_ [T _]]]]]]|[_ [_ [T _]]]]]; try exact T. apply subseq_refl. Qed.
Section Simple.
  Variable ord : list course -> list course.
  Variables (cx : ctx) (l : list exc) (q : query).
  Hypothesis EX : cx_exc cx = group_exceptions l.
  Hypothesis SO : set_order ord.
  Hypothesis SQ : simple_query l q.
  Hypothesis ND : forall c, In c (query_courses cx q) -> (0 <= dval (c_credits c))%Q.

  Lemma simple_completed v combo : completed l q v combo combo.
  Proof.
    exists (fun _ => false). split; [|rewrite filter_none; [rewrite app_nil_r; reflexivity|reflexivity]]. intros c _. split; [discriminate|]. intros [H _]. exfalso.
    destruct SQ as (_ & _ & _ & _ & U & _). destruct H as [x [? [I [P _]]]]. exact (U x I P).
  Qed.
  Lemma simple_exn : g_exn (q_solutions ord cx q) = None.
  Proof.
    assert (F := filtered_simple cx l q EX SQ). assert (WC := simple_counted l q SQ). destruct SQ as (QS & QO & QL & QF & U & W & NE & A). unfold q_solutions. rewrite QO, F, QS, as_courses_map.
    assert (G : g_exn (gflat (q_selections q [] []) (limited_transcripts ord (q_limit q) [] (picked cx q))) = None).
    { unfold gflat. rewrite (sound_exn ord _ _ SO QL). apply gflat_exn. intros x _. unfold q_selections. destruct (q_attempt q); [|reflexivity]. apply (iterate_spec q _ WC). }
    destruct (gflat _ _) as [[|y ys] [x|]]; cbn in *; congruence.
  Qed.
  Definition read (v : list course) : Prop := In v (g_items (limited_transcripts ord (q_limit q) [] (picked cx q))).
  Lemma read_picked v c : read v -> In c v -> In c (picked cx q).
  Proof. intros R I. destruct SQ as (_ & _ & QL & _). exact (limited_in ord _ _ v c SO QL R I). Qed.
  Lemma simple_meets k v items : all_complete cx q (map ICourse items) -> q_attempt q = true -> read v -> subseq items v ->
    meets ord cx l (NQuery k q) (if q_allow q then [] else map c_clbid items).
  Proof.
    intros AC QA RV SS. assert (RP := fun c => read_picked v c RV). assert (E := all_enough cx l q items EX SQ AC). assert (NE := enough_some l q items SQ E). destruct SQ as (QS & QO & QL & _).
    apply me_query; auto. split; [exact (simple_counted l q SQ)|]. exists (picked cx q), [], [], v, items. split; [apply (filtered_simple cx l q EX SQ)|].
    split; [exact RV|]. split; [|apply simple_completed]. apply (enough_tried l); auto. apply credits_subseq; [|exact SS]. intros c I. apply ND, picked_in, RP, I.
  Qed.
  Lemma simple_meets_free k v : all_complete cx q (map ICourse v) -> q_attempt q = false -> read v -> meets ord cx l (NQuery k q) [].
  Proof.
    intros AC QA RV. assert (E := all_enough cx l q _ EX SQ AC). assert (NE := enough_some l q _ SQ E). destruct SQ as (QS & QO & QL & _).
    apply (me_query_free ord cx l k q (picked cx q) [] [] v); auto. apply (filtered_simple cx l q EX SQ).
  Qed.
  (** conversely *)
  Lemma simple_met k ks : meets ord cx l (NQuery k q) ks ->
    (q_attempt q = true /\ exists v items, read v /\ subseq items v /\ all_complete cx q (map ICourse items) /\ ks = if q_allow q then [] else map c_clbid items) \/
    (q_attempt q = false /\ exists v, read v /\ all_complete cx q (map ICourse v) /\ ks = []).
  Proof.
    assert (F := filtered_simple cx l q EX SQ). assert (S' := SQ). destruct S' as (QS & QO & QL & _). intro ME.
    inversion ME as [| | |? ? out _ _ QA MS NE AC|? ? cs ins forced v _ _ QA QF IV NE AC|? ? data N1 _ _ QF AC| | | | | | | |]; subst; [left|right|congruence]; (split; [exact QA|]).
    - destruct MS as [_ [cs [ins [forced [v [combo [QF [IV [T C]]]]]]]]]. rewrite F in QF. injection QF as QF <- <-. exists v, out.
      assert (cs = picked cx q) by (clear -QF; revert QF; generalize (picked cx q); intro p; revert cs; induction p as [|c p IH]; intros [|c' cs] H; try discriminate; [reflexivity|]; injection H as -> H; f_equal; auto). subst cs.
      split; [exact IV|]. split; [|auto]. assert (out = combo) as ->.
      { destruct C as [f [H ->]]. rewrite filter_none; [apply app_nil_r|]. intros c I. destruct (f c) eqn:Ef; [|reflexivity]. exfalso. apply (H c I) in Ef. destruct Ef as [[x [? [J [P _]]]] _].
        destruct SQ as (_ & _ & _ & _ & U & _). exact (U x J P). }
      eapply tried_subseq; eauto.
    - rewrite F in QF. injection QF as QF <- <-. exists v.
      assert (cs = picked cx q) by (clear -QF; revert QF; generalize (picked cx q); intro p; revert cs; induction p as [|c p IH]; intros [|c' cs] H; try discriminate; [reflexivity|]; injection H as -> H; f_equal; auto). subst cs. auto.
  Qed.
  Lemma query_back k s t r t' : cx_multi cx = [] -> In s (g_items (q_solutions ord cx q)) -> q_audit cx t s = Ok (r, t') -> complete (q_status r) ->
    exists ks, meets ord cx l (NQuery k q) ks /\ NoDup ks /\ newly t t' ks.
  Proof.
    intros MC I A C. assert (F := filtered_simple cx l q EX SQ). assert (WC := simple_counted l q SQ). assert (S' := SQ). destruct S' as (QS & QO & QL & QF & U & W & NE & AS).
    apply (solutions_in ord cx q _ _ _ s QS QO F) in I. destruct I as [out [-> I]].
    unfold q_audit, q_solution in A. cbn [q_overridden q_source q_output q_asserts] in A. rewrite QO, QS, as_courses_map in A. cbn [bind qsource_eqb] in A.
    assert (NL : existsb any_is_lt (q_asserts q) = false).
    { destruct (existsb any_is_lt (q_asserts q)) eqn:E; [|reflexivity]. apply existsb_exists in E. destruct E as [x [Ix E]]. destruct (AS x Ix) as [a [-> [(_ & OP & _) _]]]. cbn in E. unfold as_is_lt in E. rewrite OP in E. discriminate. }
    apply bind_ok in A. destruct A as [[[[items ok] bad] t1] [A1 A]]. apply bind_ok in A1. destruct A1 as [[[[its ok'] bad'] t2] [A1 A2]]. injection A2 as <- <- <- <-.
    rewrite NL in A. cbn [andb] in A. rewrite andb_false_r in A. apply bind_ok in A. destruct A as [asserts [A2 A]]. injection A as <- <-.
    assert (AC : all_complete cx q (map ICourse its)).
    { exists asserts. split; [exact A2|]. exact (proj1 (proj1 (proj2 (query_passes_iff_all_pass (q_result _ false asserts ok' bad') eq_refl))) C). }
    assert (NEI := enough_some l q its SQ (all_enough cx l q its EX SQ AC)).
    assert (SEL : if q_attempt q then (exists v, read v /\ subseq out v) \/ out = [] else read out \/ out = []).
    { destruct I as [I|[-> _]]; [|destruct (q_attempt q); auto]. apply selections_in in I. destruct I as [v [Iv I]].
      destruct (q_attempt q); [left; exists v; split; [exact Iv|]|subst out; auto]. destruct I as [combo [I ->]]. apply (iterate_spec q _ WC) in I. unfold complete_with. rewrite filter_none; [rewrite app_nil_r; eapply tried_subseq; eauto|reflexivity]. }
    unfold collect_courses in A1. cbn [q_attempt q_record] in A1. destruct (q_attempt q) eqn:QA.
    - rewrite MC in A1. apply claim_each_back in A1; [|cbn; rewrite QF; reflexivity]. cbn [q_allow] in A1. destruct A1 as [SS [N1 [N2 _]]].
      exists (if q_allow q then [] else map c_clbid its). split; [|auto]. destruct SEL as [[v [RV S1]]| ->]; [|inversion SS; subst; congruence]. apply simple_meets with (v := v); auto. eapply subseq_trans; eauto.
    - exists []. split; [|split; [constructor|intros ? []]]. apply simple_meets_free with (v := its); auto.
      assert (its = out) by (destruct (q_record q); [apply bind_ok in A1; destruct A1 as [[o t3] [_ A1]]|]; injection A1; auto). subst its. destruct SEL as [R| ->]; [exact R|congruence].
  Qed.
End Simple.

Lemma simple_audit cx cx' l q items : cx_exc cx = group_exceptions l -> cx_exc cx' = group_exceptions l -> simple_query l q ->
  all_complete cx q items -> all_complete cx' q items.
Proof.
  intros EX EX' (_ & _ & _ & _ & _ & _ & _ & A) [rs [M C]]. exists rs. split; [|exact C]. rewrite <- M. clear M C. induction (q_asserts q) as [|x xs IH]; [reflexivity|].
  cbn [mapr]. rewrite IH by (intros; apply A; simpl; auto). destruct (A x (or_introl eq_refl)) as [a [-> [_ [_ U]]]]. cbn [audit_any]. unfold audit_assertion.
  rewrite (no_inserts cx l _ EX U), (no_blocks cx l _ EX U), (no_inserts cx' l _ EX' U), (no_blocks cx' l _ EX' U). reflexivity.
Qed.
(** ** more classes, larger values *)
Definition finished (cs : list course) : list course := filter (fun c => negb (c_in_progress c)) cs.
Lemma first_by_incl f cs cs' : (forall c, In c (first_by f [] cs) -> In c cs') -> (List.length (first_by f [] cs) <= List.length (first_by f [] cs'))%nat.
Proof.
  intro H. destruct (first_by_values f cs []) as [N _]. destruct (first_by_values f cs' []) as [_ V]. rewrite <- (map_length f), <- (map_length f (first_by f [] cs')).
  apply NoDup_incl_length; [exact N|]. intros x I. apply in_map_iff in I. destruct I as [c [<- I]]. apply V. split; [exists c; auto|intros []].
Qed.
Lemma first_by_from f cs c : In c (first_by f [] cs) -> In c cs.
Proof. intro I. apply first_by_in in I. destruct I as [pre [post [-> _]]]. apply in_or_app. simpl. auto. Qed.
Lemma rising_total k cs s : rising k -> exists r, apply_courses k cs s = Ok r.
Proof. unfold rising. cbn [In]. intros [<-|[<-|[<-|[<-|[<-|[<-|[]]]]]]]; cbn [apply_courses]; eauto. Qed.
(** the value does not become smaller if what contributes stays *)
Lemma rising_grows k cs cs' s s' r r' : rising k -> apply_courses k cs s = Ok r -> apply_courses k cs' s' = Ok r' ->
  (k <> KSumCredits -> forall c, In c (ap_courses r) -> In c cs') -> (k = KSumCredits -> (credits_of cs <= credits_of cs')%Q) -> (ap_value r <= ap_value r')%Q.
Proof.
  intros R A A' H HS. assert (L : forall x y : nat, (x <= y)%nat -> (of_nat_Q x <= of_nat_Q y)%Q) by (intros x y X; unfold of_nat_Q; rewrite <- Zle_Qle; lia).
  unfold rising in R. cbn [In] in R. destruct R as [<-|[<-|[<-|[<-|[<-|[<-|[]]]]]]]; cbn [apply_courses] in A, A'; injection A as <-; injection A' as <-;
    try (unfold count_distinct_courses, count_subjects, count_terms, count_years, count_firsts, counted in *; cbn [ap_value ap_courses] in *; rewrite !map_length; apply L, first_by_incl; apply H; discriminate).
  - unfold count_courses, counted in *. cbn [ap_value ap_courses] in *. rewrite !map_length. apply L. apply NoDup_incl_length; [apply dedup_NoDup; apply course_eqb_spec|].
    intros c I. apply (in_dedup course_eqb course_eqb_spec). apply H; [discriminate|exact I].
  - cbn [ap_value apply_sum_credits]. rewrite !sum_worth. auto.
Qed.
Lemma contributes_from k cs s r c : rising k -> k <> KSumCredits -> apply_courses k cs s = Ok r -> In c (ap_courses r) -> In c cs.
Proof.
  intros R N A I. unfold rising in R. cbn [In] in R. destruct R as [<-|[<-|[<-|[<-|[<-|[<-|[]]]]]]]; try congruence; cbn [apply_courses] in A; injection A as <-;
    unfold count_distinct_courses, count_subjects, count_terms, count_years, count_firsts, count_courses, counted in I; cbn [ap_courses] in I; try (eapply first_by_from; exact I).
  exact (proj1 (in_dedup course_eqb course_eqb_spec _ _) I).
Qed.
Lemma credits_finished cs : (forall c, In c cs -> worth c -> c_in_progress c = false) -> (credits_of (finished cs) == credits_of cs)%Q.
Proof.
  unfold finished. induction cs as [|c cs IH]; intro H; [reflexivity|]. cbn [filter]. rewrite (credits_of_cons c cs), <- IH by (intros; apply H; simpl; auto).
  destruct (c_in_progress c) eqn:P; cbn [negb]; [|reflexivity]. destruct (has_credits c) eqn:E; [apply has_credits_iff in E; rewrite (H c) in P; [discriminate|simpl; auto|exact E]|].
  apply has_credits_not in E. rewrite E. ring.
Qed.
(** met, and by finished classes alone unless classes in progress are as good *)
Definition done (a : assertion) (cs : list course) : Prop :=
  let v x := match apply_courses (as_key a) x [] with Ok r => ap_value r | Err _ => 0%Q end in
  (dval (as_expected a) <= v (if as_ip_pass a then cs else finished cs))%Q.
Lemma second_free k cs s s' : rising k -> apply_courses k cs s = apply_courses k cs s'.
Proof. unfold rising. cbn [In]. intros [<-|[<-|[<-|[<-|[<-|[<-|[]]]]]]]; reflexivity. Qed.
Lemma finished_sub cs : subseq (finished cs) cs.
Proof. apply subseq_filter. Qed.
Lemma rising_sub k cs cs' s s' r r' : rising k -> (forall c, In c cs' -> (0 <= dval (c_credits c))%Q) -> subseq cs cs' -> apply_courses k cs s = Ok r -> apply_courses k cs' s' = Ok r' -> (ap_value r <= ap_value r')%Q.
Proof.
  intros R N S A A'. eapply rising_grows; eauto; [|intros; apply credits_subseq; auto]. intros K c I. eapply subseq_in; [exact S|]. eapply contributes_from; eauto.
Qed.
Lemma evaluate_done a cs : at_least a -> (forall c, In c cs -> (0 <= dval (c_credits c))%Q) ->
  ((exists st calc, evaluate_with_courses a cs = Ok (st, calc) /\ complete st) <-> done a cs).
Proof.
  intros (TY & OP & AM & OV & RI & SU & CO) N. unfold evaluate_with_courses, done. rewrite OP. destruct (rising_total (as_key a) cs cs RI) as [r AR]. rewrite AR.
  destruct (rising_total (as_key a) (finished cs) [] RI) as [r' AR']. fold (finished cs). rewrite AR'.
  assert (LE : (ap_value r' <= ap_value r)%Q) by (eapply rising_sub; [exact RI|exact N|apply finished_sub|exact AR'|exact AR]).
  assert (VV : match apply_courses (as_key a) (if as_ip_pass a then cs else finished cs) [] with Ok x => ap_value x | Err _ => 0%Q end = if as_ip_pass a then ap_value r else ap_value r').
  { destruct (as_ip_pass a); [rewrite (second_free _ cs [] cs RI), AR|rewrite AR']; reflexivity. }
  rewrite VV. cbn [bind compare_num].
  destruct (Qleb (dval (as_expected a)) (ap_value r)) eqn:B.
  - apply Qleb_iff in B. destruct (existsb c_in_progress (ap_courses r)) eqn:IP; cbn [bind].
    + destruct (as_ip_pass a); cbn [orb].
      * split; [auto|]. intros _. exists Done, r. split; [reflexivity|left; reflexivity].
      * destruct (Qleb (dval (as_expected a)) (ap_value r')) eqn:B'.
        { apply Qleb_iff in B'. split; [auto|]. intros _. exists Done, r. split; [reflexivity|left; reflexivity]. }
        split; [|intro H; apply Qleb_iff in H; congruence]. intros [st [calc [E C]]]. exfalso.
        destruct (negb _) in E; [discriminate|]. destruct (_ && _) in E; [injection E as <- _; destruct C; discriminate|]. destruct (existsb c_ip_in_future _) in E; [injection E as <- _; destruct C; discriminate|discriminate].
    + rewrite orb_true_r. split; [|intros _; exists Done, r; split; [reflexivity|left; reflexivity]]. intros _. destruct (as_ip_pass a); [exact B|].
      eapply Qle_trans; [exact B|]. assert (FIN : forall c, In c (ap_courses r) -> c_in_progress c = false).
      { intros c I. destruct (c_in_progress c) eqn:P; [|reflexivity]. assert (X : existsb c_in_progress (ap_courses r) = true) by (apply existsb_exists; eauto). congruence. }
      eapply rising_grows; [exact RI|exact AR|exact AR'| |].
      * intros K c I. apply filter_In. split; [eapply contributes_from; eauto|]. rewrite (FIN c I). reflexivity.
      * intro K. rewrite credits_finished; [apply Qle_refl|]. intros c I W. apply FIN. rewrite K in AR. injection AR as <-. unfold apply_sum_credits. cbn [ap_courses]. apply filter_In. split; [exact I|apply has_credits_iff; exact W].
  - split.
    + intros [st [calc [E C]]]. injection E as <- _. exfalso. unfold unmet in C. destruct (_ && _); destruct C; discriminate.
    + intro H. exfalso. assert (X : (dval (as_expected a) <= ap_value r)%Q) by (destruct (as_ip_pass a); [exact H|eapply Qle_trans; eauto]). apply Qleb_iff in X. congruence.
Qed.
Lemma done_larger a cs cs' : at_least a -> (forall c, In c cs' -> (0 <= dval (c_credits c))%Q) -> subseq cs cs' -> done a cs -> done a cs'.
Proof.
  intros (TY & OP & AM & OV & RI & SU & CO) N S. unfold done.
  assert (S' : subseq (if as_ip_pass a then cs else finished cs) (if as_ip_pass a then cs' else finished cs')) by (destruct (as_ip_pass a); [exact S|apply subseq_filter_mono, S]).
  assert (N' : forall c, In c (if as_ip_pass a then cs' else finished cs') -> (0 <= dval (c_credits c))%Q) by (intros c I; apply N; destruct (as_ip_pass a); [exact I|apply filter_In in I; apply I]).
  destruct (rising_total (as_key a) (if as_ip_pass a then cs else finished cs) [] RI) as [r A]. destruct (rising_total (as_key a) (if as_ip_pass a then cs' else finished cs') [] RI) as [r' A']. rewrite A, A'.
  intro H. eapply Qle_trans; [exact H|]. eapply rising_sub; eauto.
Qed.
(** the classes an assertion looks at *)
Definition of_kind (a : assertion) (cs : list course) : list course :=
  match as_where a with None => cs | Some w => filter (fun c => match apply_pred (ICourse c) w with Ok b => b | Err _ => false end) cs end.
Lemma audit_simple cx l a cs : cx_exc cx = group_exceptions l -> at_least a -> answerable (as_where a) -> untouched l (as_path a) ->
  audit_assertion cx (map ICourse cs) a = (let! r := evaluate_with_courses a (of_kind a cs) in Ok (with_outcome a (fst r) (snd r) [])).
Proof.
  intros EX (TY & OP & AM & OV & RI & SU & CO) W U. unfold audit_assertion, of_kind. rewrite OV, (no_inserts cx l _ EX U), (no_blocks cx l _ EX U).
  assert (F : match as_where a with Some w => filter_res (fun x => apply_pred x w) (map ICourse cs) | None => Ok (map ICourse cs) end
    = Ok (map ICourse (match as_where a with None => cs | Some w => filter (fun c => match apply_pred (ICourse c) w with Ok b => b | Err _ => false end) cs end))).
  { destruct (as_where a) as [w|]; [|reflexivity]. rewrite filter_courses. destruct (filter_res_total (fun c => apply_pred (ICourse c) w) cs) as [r R]; [intros c _; apply (W w eq_refl)|].
    rewrite R. apply filter_res_items in R. destruct R as [-> _]. reflexivity. }
  rewrite F. cbn [bind insert_items block_items fst snd]. unfold evaluate_items. rewrite TY, as_courses_map. cbn [bind].
  destruct (evaluate_with_courses _ _) as [[st calc]|]; reflexivity.
Qed.
Lemma of_kind_sub a cs cs' : subseq cs cs' -> subseq (of_kind a cs) (of_kind a cs').
Proof. intro S. unfold of_kind. destruct (as_where a); [apply subseq_filter_mono, S|exact S]. Qed.
Lemma of_kind_in a cs c : In c (of_kind a cs) -> In c cs.
Proof. unfold of_kind. destruct (as_where a); [|auto]. intro I. apply filter_In in I. apply I. Qed.
Lemma all_complete_iff cx l q cs : cx_exc cx = group_exceptions l -> simple_query l q -> (forall c, In c cs -> (0 <= dval (c_credits c))%Q) ->
  (all_complete cx q (map ICourse cs) <-> forall a, In (APlain a) (q_asserts q) -> done a (of_kind a cs)).
Proof.
  intros EX (_ & _ & _ & _ & _ & _ & _ & A) N.
  assert (N' : forall a c, In c (of_kind a cs) -> (0 <= dval (c_credits c))%Q) by (intros a c I; apply N; eapply of_kind_in; eauto).
  unfold all_complete. induction (q_asserts q) as [|x xs IH].
  - split; [intros _ a []|]. intros _. exists []. split; [reflexivity|intros a []].
  - assert (A' : forall y, In y xs -> exists a, y = APlain a /\ at_least a /\ answerable (as_where a) /\ untouched l (as_path a)) by (intros; apply A; simpl; auto). specialize (IH A').
    destruct (A x (or_introl eq_refl)) as [a [-> [AL [W U]]]]. assert (E := evaluate_done a (of_kind a cs) AL (N' a)). cbn [mapr audit_any]. rewrite (audit_simple cx l a cs EX AL W U). split.
    + intros [rs [M C]]. apply bind_ok in M. destruct M as [y [M1 M]]. apply bind_ok in M. destruct M as [ys [M2 M]]. injection M as <-.
      apply bind_ok in M1. destruct M1 as [r [M1 M3]]. injection M3 as <-. apply bind_ok in M1. destruct M1 as [[st calc] [M1 M3]]. injection M3 as <-.
      assert (D : done a (of_kind a cs)) by (apply E; exists st, calc; split; [exact M1|exact (C _ (or_introl eq_refl))]).
      intros b [Hb|Ib]; [injection Hb as <-; exact D|]. apply (proj1 IH); [|exact Ib]. exists ys. split; [exact M2|]. intros; apply C; simpl; auto.
    + intro H. destruct (proj2 E (H a (or_introl eq_refl))) as [st [calc [E1 E2]]]. destruct (proj2 IH) as [ys [M C]]; [intros; apply H; simpl; auto|].
      rewrite E1. cbn [bind fst snd]. rewrite M. cbn [bind]. eexists. split; [reflexivity|]. intros y [<-|I]; [exact E2|auto].
Qed.
Lemma read_more ord cx cx' l q v : set_order ord -> simple_query l q ->
  subseq (query_courses cx q) (query_courses cx' q) /\ (q_limit q = [] \/ query_courses cx' q = query_courses cx q \/ clear_limits (q_limit q) (query_courses cx' q)) ->
  read ord cx q v -> exists v', read ord cx' q v' /\ subseq v v'.
Proof.
  intros SO (_ & _ & QL & _) [SS CL] R. apply (limits_grow ord _ (picked cx q)); auto; [apply picked_more, SS|]. destruct CL as [H|[H|H]]; [auto| |].
  - right; left. unfold picked. rewrite H. reflexivity.
  - right; right. eapply limits_filter; [|exact H]. intro c. apply picked_in.
Qed.
Lemma query_more ord cx cx' l k q ks : set_order ord -> cx_exc cx = group_exceptions l -> cx_exc cx' = group_exceptions l -> simple_query l q ->
  subseq (query_courses cx q) (query_courses cx' q) /\ (q_limit q = [] \/ query_courses cx' q = query_courses cx q \/ clear_limits (q_limit q) (query_courses cx' q)) -> (forall c, In c (query_courses cx' q) -> (0 <= dval (c_credits c))%Q) ->
  meets ord cx l (NQuery k q) ks -> meets ord cx' l (NQuery k q) ks.
Proof.
  intros SO EX EX' SQ SS ND ME. assert (N : forall v c, read ord cx' q v -> In c v -> (0 <= dval (c_credits c))%Q) by (intros v c R I; eapply ND, picked_in, read_picked; eauto).
  destruct (simple_met ord cx l q EX SQ k ks ME) as [[QA [v [items [RV [S1 [AC ->]]]]]]|[QA [v [RV [AC ->]]]]]; destruct (read_more ord cx cx' l q v SO SQ SS RV) as [v' [RV' SP]].
  - apply simple_meets with (v := v'); auto; [exact (simple_audit cx cx' l q _ EX EX' SQ AC)|]. eapply subseq_trans; [exact S1|exact SP].
  - apply simple_meets_free with (v := v'); auto. apply (all_complete_iff cx' l q _ EX' SQ (fun c => N v' c RV')). intros a I.
    assert (N0 : forall c, In c v -> (0 <= dval (c_credits c))%Q) by (intros c J; apply (N v' c RV'); eapply subseq_in; eauto).
    assert (D := proj1 (all_complete_iff cx l q _ EX SQ N0) AC a I). assert (S' := SQ). destruct S' as (_ & _ & _ & _ & _ & _ & _ & A). destruct (A _ I) as [a0 [E [AL _]]]. injection E as <-.
    refine (done_larger a _ _ AL _ (of_kind_sub a _ _ SP) D). intros c J. apply (N v' c RV'). eapply of_kind_in; eauto.
Qed.
Lemma query_answer cx q : answerable (q_where q) -> q_source q = QCourses -> exists b, q_potential cx q = Ok b.
Proof.
  intros W QS. unfold q_potential. destruct (has_exception_beneath _ _); [eauto|]. destruct (existsb any_is_lt _); [eauto|]. destruct (existsb any_at_least_0 _); [eauto|]. destruct (qsource_eqb _ _); [eauto|].
  destruct (q_where q) as [w|]; [|eauto]. unfold q_data. rewrite QS. set (cs := filter _ _). induction cs as [|c cs [b IH]]; [exists false; reflexivity|]. cbn [map any_res]. destruct (W w eq_refl c) as [[|] ->]; cbn [bind]; eauto.
Qed.
Lemma query_promising cx cx' l q : (forall c, In c (query_courses cx q) -> In c (query_courses cx' q)) -> q_source q = QCourses -> promising_query cx l q -> promising_query cx' l q.
Proof.
  intros M QS [H|[H|[H|[x [H P]]]]]; [left; exact H|right; left; exact H|right; right; left; exact H|]. right; right; right. exists x. split; [|exact P]. unfold readable in *. rewrite QS in *.
  destruct H as [c [-> [I N]]]. exists c. auto.
Qed.
