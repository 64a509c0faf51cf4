(** Property theorems about potential, matches and required courses (C76, C79, C80, C81). *)
From Coq Require Import List ZArith QArith Bool String Lia Permutation.
From Verif Require Import Prelude Dec Status Course Claims Exceptions Op Context CondExpr Paths Predicate Limit Apply Assertion Query CourseRule Tree LazyRun.
From Verif Require TranscriptProofs.
From Verif Require Import ListFacts OpProofs LimitSpec LimitProps AssertionSpec AssertionProofs PredicateProofs ExceptionsProofs QuerySpec QueryProofs QueryProps CourseRuleSpec CourseRuleProofs CourseRuleProps TreeSpec TreeProofs TreeStatusProps TreeSolSpec TreeSolProofs TreeSolProps TreeAskSpec.
Import ListNotations.
Local Open Scope string_scope.
Local Open Scope list_scope.

Lemma under_iff cx l p : cx_exc cx = group_exceptions l -> (has_exception_beneath (cx_exc cx) p = true <-> exception_under l p).
Proof. intro EX. rewrite EX. apply beneath_iff. Qed.
Lemma any_res_true {A} (f : A -> res bool) l : any_res f l = Ok true -> exists x, In x l /\ f x = Ok true.
Proof.
  induction l as [|x l IH]; cbn [any_res]; [discriminate|]. destruct (f x) as [[|]|] eqn:E; cbn [bind]; try discriminate.
  - intros _. exists x. simpl. auto.
  - intro H. destruct (IH H) as [y [I J]]. exists y. simpl. auto.
Qed.
Lemma any_res_false {A} (f : A -> res bool) l : any_res f l = Ok false -> forall x, In x l -> f x = Ok false.
Proof.
  induction l as [|x l IH]; cbn [any_res]; [intros _ x []|]. destruct (f x) as [[|]|] eqn:E; cbn [bind]; try discriminate.
  intros H y [<-|I]; auto.
Qed.
Lemma readable_iff cx q x : In x (q_data cx q) <-> readable cx q x.
Proof.
  unfold q_data, readable, query_courses. destruct (q_source q).
  - rewrite in_map_iff. split.
    + intros [c [<- I]]. apply filter_In in I. destruct I as [I N]. exists c. split; auto. split; auto. intro J. apply negb_true_iff in N.
      assert (X : instr (c_clbid c) (q_excluded q) = true) by (unfold instr; apply existsb_exists; exists (c_clbid c); split; [exact J|apply String.eqb_refl]). congruence.
    + intros [c [-> [I N]]]. exists c. split; auto. apply filter_In. split; auto. apply negb_true_iff. destruct (instr _ _) eqn:E; auto.
      exfalso. apply N. unfold instr in E. apply existsb_exists in E. destruct E as [k [J E]]. apply String.eqb_eq in E. subst. exact J.
  - reflexivity.
  - rewrite in_map_iff. split; intros [a H]; exists a; intuition congruence.
  - rewrite in_map_iff. split; intros [a H]; exists a; intuition congruence.
  - rewrite in_map_iff. split; intros [a H]; exists a; intuition congruence.
Qed.
Lemma on_any_iff (f : assertion -> bool) q : existsb (on_any f) (q_asserts q) = true <-> exists a, asserted q a /\ f a = true.
Proof.
  rewrite existsb_exists. split.
  - intros [x [I H]]. destruct x as [a|p c t e|p c t]; cbn in H.
    + exists a. split; auto. exists (APlain a). auto.
    + apply orb_true_iff in H. destruct H as [H|H]; [exists t; split; auto; exists (AIf p c t e); auto|].
      destruct e as [a|]; [|discriminate]. exists a. split; auto. exists (AIf p c t (Some a)). auto.
    + exists t. split; auto. exists (AWhen p c t). auto.
  - intros [a [[x [I X]] H]]. exists x. split; auto. destruct x as [b|p c t e|p c t]; cbn.
    + congruence.
    + destruct X as [->| ->]; [rewrite H; reflexivity|]. rewrite H. apply orb_true_r.
    + congruence.
Qed.
Lemma bounds_iff a : (as_is_lt a = true \/ as_at_least_0 a = true) <-> (upper_bound a \/ no_minimum a).
Proof.
  unfold as_is_lt, as_at_least_0, upper_bound, no_minimum. rewrite <- (TranscriptProofs.Qeqb_iff (dval (as_expected a)) 0).
  destruct (as_op a); intuition (try discriminate; try congruence).
Qed.

(** ** C76 *)
Theorem query_potential_exact :
  forall cx l q b, cx_exc cx = group_exceptions l -> q_potential cx q = Ok b -> (b = true <-> promising_query cx l q).
Proof.
  intros cx l q b EX H. unfold q_potential in H. unfold promising_query.
  destruct (has_exception_beneath (cx_exc cx) (q_path q)) eqn:B.
  { apply (under_iff cx l _ EX) in B. injection H as <-. tauto. }
  assert (NB : ~ exception_under l (q_path q)) by (intro X; apply (under_iff cx l _ EX) in X; congruence).
  destruct (existsb any_is_lt (q_asserts q)) eqn:L1.
  { injection H as <-. split; auto. intros _. right. left. apply on_any_iff in L1. destruct L1 as [a [A L1]]. exists a. split; auto. apply bounds_iff. auto. }
  destruct (existsb any_at_least_0 (q_asserts q)) eqn:L2.
  { injection H as <-. split; auto. intros _. right. left. apply on_any_iff in L2. destruct L2 as [a [A L2]]. exists a. split; auto. apply bounds_iff. auto. }
  assert (NL : ~ exists a, asserted q a /\ (upper_bound a \/ no_minimum a)).
  { intros [a [A X]]. apply bounds_iff in X. destruct X as [X|X].
    - assert (existsb any_is_lt (q_asserts q) = true) by (apply on_any_iff; eauto). congruence.
    - assert (existsb any_at_least_0 (q_asserts q) = true) by (apply on_any_iff; eauto). congruence. }
  destruct (qsource_eqb (q_source q) QClaimed) eqn:S.
  { injection H as <-. assert (q_source q = QClaimed) by (destruct (q_source q); try discriminate; reflexivity). tauto. }
  assert (NS : q_source q <> QClaimed) by (intro X; rewrite X in S; discriminate).
  assert (R : b = true <-> exists x, readable cx q x /\ passes_where (q_where q) x).
  { unfold passes_where. destruct (q_where q) as [w|].
    - destruct b.
      + apply any_res_true in H. destruct H as [x [I J]]. split; auto. intros _. exists x. split; auto. apply readable_iff. exact I.
      + split; [discriminate|]. intros [x [I J]]. apply readable_iff in I. apply (any_res_false _ _ H) in I. congruence.
    - injection H as <-. destruct (q_data cx q) as [|x t] eqn:D.
      + split; [discriminate|]. intros [x [I _]]. apply readable_iff in I. rewrite D in I. destruct I.
      + split; auto. intros _. exists x. split; auto. apply readable_iff. rewrite D. simpl. auto. }
  tauto.
Qed.
Print Assumptions query_potential_exact.

(** A tree has potential exactly when it is promising, if the question is answered. *)
Theorem potential_exact :
  forall cx l n b, cx_exc cx = group_exceptions l -> years_have_terms n -> potential cx n = Ok b -> (b = true <-> promising cx l n).
Proof.
  intros cx l n b EX. revert b. induction n as [k r|k q|k i items IH|k i o IH|k i t f IHt IHf|k i c] using node_induction; intros b Y H; cbn [potential] in H.
  - destruct (course_potential_exact cx l r EX) as [b' [E IFF]]; [apply Y; left; exists k; constructor|]. rewrite E in H. injection H as ->.
    rewrite IFF. split; [intro; constructor; assumption|intro P; inversion P; assumption].
  - rewrite (query_potential_exact cx l q b EX H). split; [intro; constructor; assumption|intro P; inversion P; assumption].
  - assert (SUB : forall x, In x items -> years_have_terms x).
    { intros x I r [[k' P]|[k' [i' [k'' P]]]]; apply Y; [left|right]; repeat eexists; eapply pt_count; eauto. }
    destruct (has_exception_beneath _ _) eqn:B.
    + apply (under_iff cx l _ EX) in B. injection H as <-. split; auto. intros _. apply pr_count_exc. exact B.
    + assert (NB : ~ exception_under l (n_path i)) by (intro X; apply (under_iff cx l _ EX) in X; congruence).
      destruct b.
      * split; auto. intros _. apply any_res_true in H. destruct H as [x [I J]]. eapply pr_count; [exact I|]. apply (IH x I true (SUB x I) J). reflexivity.
      * split; [discriminate|]. intro P. inversion P; subst; [contradiction|]. eapply IH; eauto. eapply any_res_false; eauto.
  - destruct (has_exception_beneath _ _) eqn:B.
    + apply (under_iff cx l _ EX) in B. injection H as <-. split; auto. intros _. apply pr_req_exc. exact B.
    + assert (NB : ~ exception_under l (e_path i)) by (intro X; apply (under_iff cx l _ EX) in X; congruence).
      destruct (e_audited i) eqn:A.
      * injection H as <-. split; [discriminate|]. intro P. inversion P; subst; [contradiction|congruence].
      * destruct o as [x|].
        -- rewrite (IH x eq_refl b); auto; [split; [intro; apply pr_req; auto|intro P; inversion P; subst; [contradiction|assumption]]|].
           intros r [[k' P]|[k' [i' [k'' P]]]]; apply Y; [left|right]; repeat eexists; apply pt_req; eauto.
        -- injection H as <-. split; [discriminate|]. intro P. inversion P; subst. contradiction.
  - assert (YT : years_have_terms t) by (intros r [[k' P]|[k' [i' [k'' P]]]]; apply Y; [left|right]; repeat eexists; apply pt_true; eauto).
    assert (YF : forall x, f = Some x -> years_have_terms x) by (intros x -> r [[k' P]|[k' [i' [k'' P]]]]; apply Y; [left|right]; repeat eexists; apply pt_false; eauto).
    destruct (e_result (d_cond i)) as [[|]|] eqn:E.
    + rewrite (IHt b YT H). split; [intro; eapply pr_cond; [apply if_true; exact E|assumption]|]. intro P. inversion P as [| | | | | |? ? ? ? x F P'|]; subst. inversion F; subst; [assumption|congruence].
    + destruct f as [x|].
      * rewrite (IHf x eq_refl b (YF x eq_refl) H). split; [intro; eapply pr_cond; [eapply if_false; [exact E|reflexivity]|assumption]|].
        intro P. inversion P as [| | | | | |? ? ? ? y F P'|]; subst. inversion F; subst; congruence.
      * injection H as <-. split; [discriminate|]. intro P. inversion P as [| | | | | |? ? ? ? y F P'|]; subst. inversion F; subst; congruence.
    + assert (H' : b = false) by (destruct f; congruence). subst b. split; [discriminate|]. intro P. inversion P as [| | | | | |? ? ? ? y F P'|]; subst. inversion F; subst; congruence.
  - injection H as <-. split; auto. intros _. constructor.
Qed.
Print Assumptions potential_exact.
Example potential_example :
  let cx := c_ctx taken [] in
  potential cx (rules 1 false [named "C 1"; when (Some true) (named "A 1") None]) = Ok true /\
  potential cx (rules 1 false [named "C 1"; when (Some false) (named "A 1") None]) = Ok false /\
  potential (c_ctx taken [stuck_exc]) (rules 1 false [named "C 1"]) = Ok true.
Proof. vm_compute. auto. Qed.

(** ** C80: matches *)
Lemma course_matches_iff cx l r cs : cx_exc cx = group_exceptions l -> year_has_term r -> c_matches cx r = Ok cs ->
  forall c, In c cs <-> course_match cx l r c.
Proof.
  intros EX Y H c.
  assert (INS : In c (c_insert_matches cx r) <-> exists x k f, In x l /\ ex_path x = r_path r /\ ex_act x = AInsert k f /\ ~ In k (r_excluded r) /\ find_by_clbid cx k = Some c).
  { unfold c_insert_matches. rewrite in_flat_map, EX. split.
    - intros [x [I J]]. apply inserts_at in I. destruct I as [I [P [k [f E]]]]. unfold exc_clbid in J. rewrite E in J.
      destruct (excludes r k) eqn:EXC; [destruct J|]. apply excludes_no in EXC. destruct (find_by_clbid cx k) eqn:F; [|destruct J]. destruct J as [->|[]]. exists x, k, f. auto.
    - intros [x [k [f [I [P [E [N F]]]]]]]. exists x. split; [apply inserts_at; eauto|]. unfold exc_clbid. rewrite E. apply excludes_no in N. rewrite N, F. simpl. auto. }
  unfold c_matches in H. unfold course_match. destruct (r_from_claimed r) eqn:FC.
  - injection H as <-. rewrite INS. intuition discriminate.
  - unfold gall in H. destruct (g_exn (find_courses cx r)); cbn [bind] in H; [discriminate|]. injection H as <-.
    rewrite in_app_iff, INS, filter_In, negb_true_iff, excludes_no, (found_items cx r c Y). tauto.
Qed.
Lemma query_matches_iff cx l q xs : cx_exc cx = group_exceptions l -> q_matches cx q = Ok xs ->
  forall x, In x xs <-> query_match cx l q x.
Proof.
  intros EX H x. unfold q_matches in H. destruct (q_filtered cx q) as [[[data ins] forced]|] eqn:F; cbn [bind fst] in H; [|discriminate]. injection H as <-.
  unfold q_filtered in F. destruct (match q_where q with Some _ => _ | None => _ end) as [base|] eqn:W in F; cbn [bind] in F; [|discriminate].
  assert (BASE : In x base <-> readable cx q x /\ passes_where (q_where q) x).
  { rewrite <- readable_iff. unfold passes_where. destruct (q_where q) as [w|].
    - apply filter_res_items in W. destruct W as [-> T]. rewrite filter_In. split; intros [I J]; split; auto.
      + destruct (apply_pred x w) as [[|]|]; congruence.
      + rewrite J. reflexivity.
    - injection W as <-. tauto. }
  assert (INS : q_insert cx q (get_inserts (cx_exc cx) (q_path q)) base [] [] = Ok (data, ins, forced) ->
    (In x data <-> In x base \/ exists e k f c, In e l /\ ex_path e = q_path q /\ ex_act e = AInsert k f /\ ~ In k (q_excluded q) /\ x = ICourse c /\
       (if f then forced_by_clbid cx k = Ok c else find_by_clbid cx k = Some c))).
  { intro H. apply ins_step in H. destruct H as [more [-> [M _]]]. rewrite in_app_iff, in_map_iff. rewrite EX in M. split; (intros [H|H]; [auto|right]).
    - destruct H as [c [<- I]]. apply M in I. destruct I as [e [I [N J]]]. apply inserts_at in I. destruct I as [I [P [k [f E]]]]. exists e, k, f, c.
      unfold exc_clbid, exc_forced in *. rewrite E in *. auto 10.
    - destruct H as [e [k [f [c [I [P [E [N [-> J]]]]]]]]]. exists c. split; auto. apply M. exists e. split; [apply inserts_at; eauto|]. unfold exc_clbid, exc_forced. rewrite E. auto. }
  unfold query_match. rewrite <- BASE. destruct (q_source q) eqn:S.
  - rewrite (INS F). intuition.
  - rewrite (INS F). intuition.
  - injection F as <- _ _. intuition discriminate.
  - injection F as <- _ _. intuition discriminate.
  - injection F as <- _ _. intuition discriminate.
Qed.
Lemma mapr_concat {A B} (f : A -> res (list B)) l ls x : mapr f l = Ok ls -> (In x (List.concat ls) <-> exists a xs, In a l /\ f a = Ok xs /\ In x xs).
Proof.
  intro H. apply mapr_ok in H. rewrite in_concat. split.
  - intros [xs [I J]]. destruct (F2_in_r _ _ _ _ H I) as [a [Ia E]]. exists a, xs. auto.
  - intros [a [xs [I [E J]]]]. destruct (F2_in_l _ _ _ _ H I) as [ys [Iy E']]. rewrite E in E'. injection E' as <-. exists xs. auto.
Qed.
Lemma mapr_each {A B} (f : A -> res B) l ls : mapr f l = Ok ls -> forall a, In a l -> exists y, f a = Ok y.
Proof. intro H. apply mapr_ok in H. intros a I. destruct (F2_in_l _ _ _ _ H I) as [y [_ E]]. eauto. Qed.

Theorem matches_exact :
  forall cx l n xs, cx_exc cx = group_exceptions l -> years_have_terms n -> matches_of cx n = Ok xs ->
  forall x, In x xs <-> matching cx l n x.
Proof.
  intros cx l n xs EX. revert xs.
  assert (CM : forall r xs, year_has_term r -> course_matches cx r = Ok xs -> forall x, In x xs <-> exists c, x = ICourse c /\ course_match cx l r c).
  { intros r xs Y H x. unfold course_matches in H. destruct (c_matches cx r) as [cs|] eqn:E; cbn [bind] in H; [|discriminate]. injection H as <-.
    rewrite in_map_iff. assert (M := course_matches_iff cx l r cs EX Y E). split; intros [c H]; exists c; rewrite M in *; intuition. }
  induction n as [k r|k q|k i items IH|k i o IH|k i t f IHt IHf|k i c] using node_induction; intros xs Y H x; cbn [matches_of] in H.
  - rewrite (CM r xs); auto; [|apply Y; left; exists k; constructor]. split; [intros [c [-> M]]; constructor; auto|intro M; inversion M; eauto].
  - rewrite (query_matches_iff cx l q xs EX H). split; [intro; constructor; auto|intro M; inversion M; auto].
  - assert (SUB : forall x, In x items -> years_have_terms x).
    { intros y I r [[k' P]|[k' [i' [k'' P]]]]; apply Y; [left|right]; repeat eexists; eapply pt_count; eauto. }
    destruct (mapr _ items) as [ls|] eqn:E; cbn [bind] in H; [|discriminate]. injection H as <-. rewrite (mapr_concat _ _ _ x E). split.
    + intros [y [ys [I [F J]]]]. eapply ma_count; [exact I|]. apply (IH y I ys (SUB y I) F). exact J.
    + intro M. inversion M; subst. destruct (mapr_each _ _ _ E y) as [ys F]; auto. exists y, ys. split; auto. split; auto. eapply IH; eauto.
  - destruct o as [y|]; [|injection H as <-; split; [intros []|intro M; inversion M]].
    rewrite (IH y eq_refl xs); auto; [split; [intro; constructor; auto|intro M; inversion M; auto]|].
    intros r [[k' P]|[k' [i' [k'' P]]]]; apply Y; [left|right]; repeat eexists; apply pt_req; eauto.
  - assert (YT : years_have_terms t) by (intros r [[k' P]|[k' [i' [k'' P]]]]; apply Y; [left|right]; repeat eexists; apply pt_true; eauto).
    assert (YF : forall x, f = Some x -> years_have_terms x) by (intros y -> r [[k' P]|[k' [i' [k'' P]]]]; apply Y; [left|right]; repeat eexists; apply pt_false; eauto).
    destruct (e_result (d_cond i)) as [[|]|] eqn:E.
    + rewrite (IHt xs YT H). split; [intro; eapply ma_cond; [apply if_true; exact E|assumption]|]. intro P. inversion P as [| | | |? ? ? ? y z F P'|]; subst. inversion F; subst; [assumption|congruence].
    + destruct f as [y|].
      * rewrite (IHf y eq_refl xs (YF y eq_refl) H). split; [intro; eapply ma_cond; [eapply if_false; [exact E|reflexivity]|assumption]|].
        intro P. inversion P as [| | | |? ? ? ? y' z F P'|]; subst. inversion F; subst; congruence.
      * injection H as <-. split; [intros []|]. intro P. inversion P as [| | | |? ? ? ? y' z F P'|]; subst. inversion F; subst; congruence.
    + assert (H' : xs = []) by (destruct f; congruence). subst xs. split; [intros []|]. intro P. inversion P as [| | | |? ? ? ? y' z F P'|]; subst. inversion F; subst; congruence.
  - destruct c as [[k' r]|]; [|injection H as <-; split; [intros []|intro M; inversion M]].
    rewrite (CM r xs); auto; [|apply Y; right; exists k, i, k'; constructor]. split; [intros [c [-> M]]; econstructor; eauto|intro M; inversion M; eauto].
Qed.
Print Assumptions matches_exact.
Example matches_example :
  matches_of (c_ctx taken []) (rules 1 false [named "A 1"; when (Some true) (named "B 1") (Some (named "A 1"))]) =
    Ok [ICourse (mk_simple "100" "A" "1"); ICourse (mk_simple "200" "B" "1")].
Proof. vm_compute. reflexivity. Qed.

(** ** C79: required courses *)
Lemma c_required_iff cx r cs c : c_required cx r = Ok cs -> (In c cs <-> c_required cx r = Ok [c]).
Proof.
  intro H. rewrite H. unfold c_required in H. destruct (r_from_claimed r); [injection H as <-; split; [intros []|discriminate]|].
  destruct (c_matches cx r) as [ms|]; cbn [bind] in H; [|discriminate]. cbv zeta in H. injection H as <-.
  destruct (fold_left _ _ ms) as [|a [|b t]]; split; try (intros []; fail); try discriminate.
  - intros [->|[]]. reflexivity.
  - intro E. injection E as ->. simpl. auto.
Qed.
Theorem required_courses_exact :
  forall cx n cs, required_of cx n = Ok cs -> forall c, In c cs <-> requires cx n c.
Proof.
  intros cx n. induction n as [k r|k q|k i items IH|k i o IH|k i t f IHt IHf|k i c] using node_induction; intros cs H x; cbn [required_of] in H.
  - rewrite (c_required_iff cx r cs x H). split; [intro; constructor; auto|intro M; inversion M; auto].
  - injection H as <-. split; [intros []|intro M; inversion M].
  - destruct (n_count i =? Z.of_nat (List.length items))%Z eqn:C; cbn [negb] in H.
    + apply Z.eqb_eq in C. destruct (mapr _ items) as [ls|] eqn:E; cbn [bind] in H; [|discriminate]. injection H as <-. rewrite (mapr_concat _ _ _ x E). split.
      * intros [y [ys [I [F J]]]]. eapply rq_count; [exact C|exact I|]. apply (IH y I ys F). exact J.
      * intro M. inversion M as [|? ? ? y ? _ I M'| | |]; subst. destruct (mapr_each _ _ _ E y I) as [ys F]. exists y, ys. split; auto. split; auto. eapply IH; eauto.
    + apply Z.eqb_neq in C. injection H as <-. split; [intros []|intro M; inversion M; subst; contradiction].
  - destruct o as [y|]; [|injection H as <-; split; [intros []|intro M; inversion M]].
    rewrite (IH y eq_refl cs H). split; [intro; constructor; auto|intro M; inversion M; auto].
  - destruct (e_result (d_cond i)) as [[|]|] eqn:E.
    + rewrite (IHt cs H). split; [intro; eapply rq_cond; [apply if_true; exact E|assumption]|]. intro P. inversion P as [| | |? ? ? ? y z F P'|]; subst. inversion F; subst; [assumption|congruence].
    + destruct f as [y|].
      * rewrite (IHf y eq_refl cs H). split; [intro; eapply rq_cond; [eapply if_false; [exact E|reflexivity]|assumption]|].
        intro P. inversion P as [| | |? ? ? ? y' z F P'|]; subst. inversion F; subst; congruence.
      * injection H as <-. split; [intros []|]. intro P. inversion P as [| | |? ? ? ? y' z F P'|]; subst. inversion F; subst; congruence.
    + assert (H' : cs = []) by (destruct f; congruence). subst cs. split; [intros []|]. intro P. inversion P as [| | |? ? ? ? y' z F P'|]; subst. inversion F; subst; congruence.
  - destruct c as [[k' r]|]; [|injection H as <-; split; [intros []|intro M; inversion M]].
    rewrite (c_required_iff cx r cs x H). split; [intro; econstructor; eauto|intro M; inversion M; auto].
Qed.
Print Assumptions required_courses_exact.
Example required_example :
  let both := rules 2 false [named "A 1"; named "B 1"] in
  required_of (c_ctx taken []) both = Ok taken /\ required_of (c_ctx taken []) (rules 1 false [named "A 1"; named "B 1"]) = Ok [].
Proof. vm_compute. auto. Qed.

(** Excluding courses keeps them out of every query of the tree, and leaves the course rules
    and the shape alone. *)
Lemma part_exclude ks n m : part_of (exclude ks n) m <-> exists m0, part_of n m0 /\ m = exclude ks m0.
Proof.
  split.
  - remember (exclude ks n) as b. intro P. revert n Heqb. induction P as [b|kd i items x y I P IH|kd i x y P IH|kd i t f y P IH|kd i t x y P IH]; intros n E.
    + exists n. split; [constructor|exact E].
    + destruct n; try discriminate E. injection E as -> -> ->. apply in_map_iff in I. destruct I as [z [<- I]]. destruct (IH z eq_refl) as [m0 [P0 ->]]. exists m0. split; auto. eapply pt_count; eauto.
    + destruct n as [| | |? ? [z|]| |]; try discriminate E. injection E as -> -> ->. destruct (IH z eq_refl) as [m0 [P0 ->]]. exists m0. split; auto. apply pt_req; auto.
    + destruct n; try discriminate E. injection E as -> -> -> _. destruct (IH _ eq_refl) as [m0 [P0 ->]]. exists m0. split; auto. apply pt_true; auto.
    + destruct n as [| | | |? ? ? [z|]|]; try discriminate E. injection E as -> -> -> ->. destruct (IH _ eq_refl) as [m0 [P0 ->]]. exists m0. split; auto. apply pt_false; auto.
  - intros [m0 [P ->]]. induction P; cbn [exclude]; [apply pt_self|eapply pt_count; [apply in_map; eassumption|assumption]|apply pt_req; auto|apply pt_true; auto|apply pt_false; auto].
Qed.
Theorem excluded_courses_stay_out_of_queries :
  forall ord cx l n ks s q out, set_order ord -> keyed cx -> cx_exc cx = group_exceptions l ->
  rule_tree (exclude ks n) -> In s (g_items (solutions ord cx (exclude ks n))) ->
  (forall kd' q', part_of n (NQuery kd' q') -> coherent (q_limit q') /\ q_overridden q' = false) ->
  part_of s (NQuery KSol q) -> q_source q = QCourses -> q_output q = map ICourse out ->
  forall c, In c out -> ~ In (c_clbid c) ks.
Proof.
  intros ord cx l n ks s q out SO KE EX RT I Y P QS M c Ic J.
  destruct (parts_from ord cx _ RT s _ I P eq_refl) as [m [Pm Im]]. apply part_exclude in Pm. destruct Pm as [m0 [P0 ->]].
  destruct m0 as [? ?|kd' q0|? i items|? i o|? i t f|? i c0]; try (apply solutions_class_not_query in Im; exact Im).
  cbn [exclude solutions gmap g_items] in Im. apply in_map_iff in Im. destruct Im as [q1 [E1 Im]]. injection E1 as ->.
  destruct (Y _ _ P0) as [CO OV].
  assert (QS0 : q_source q0 = QCourses) by (apply q_solutions_source in Im; rewrite Im in QS; exact QS).
  eapply (excluded_courses_are_not_offered ord cx l (q_exclude q0 ks) q out); eauto. cbn. apply in_or_app. right. exact J.
Qed.
Print Assumptions excluded_courses_stay_out_of_queries.
Theorem exclude_leaves_course_rules :
  forall ks n k r, part_of (exclude ks n) (NCourse k r) <-> part_of n (NCourse k r).
Proof.
  intros ks n k r. rewrite part_exclude. split.
  - intros [m0 [P E]]. destruct m0; try discriminate E. cbn in E. rewrite E. exact P.
  - intro P. exists (NCourse k r). auto.
Qed.
Print Assumptions exclude_leaves_course_rules.
Fixpoint query_outputs (n : node) : list (list string) :=
  match n with
  | NQuery KSol q => [flat_map (fun x => match x with ICourse c => [c_clbid c] | _ => [] end) (q_output q)]
  | NCount _ _ items => flat_map query_outputs items
  | _ => []
  end.
Example excluded_example :
  let n := rules 1 false [NQuery KRule two_of] in
  map query_outputs (g_items (solutions ident three_ctx n)) = [[["1"; "2"]]; [["1"; "3"]]; [["2"; "3"]]; [["1"; "2"; "3"]]] /\
  map query_outputs (g_items (solutions ident three_ctx (exclude ["2"] n))) = [[["1"; "3"]]].
Proof. vm_compute. auto. Qed.
