(** Loading a specification for two students who answer its questions alike (C186). *)
From Coq Require Import List ZArith QArith Bool Ascii String Lia Permutation.
From Verif Require Import Transcript Prelude Dec Status Course Claims Exceptions Op Context CondExpr Paths Predicate Limit LimitLoad Apply Assertion Query CourseRule Tree Solve Driver Area StudentLoad Run Loader AreaLoad.
From Verif Require Import ListFacts LimitSpec PredicateProofs CondExprProofs ExceptionsProofs LoaderSpec LoaderProofs CourseRuleSpec TreeSpec TreeSolSpec AreaLoadSpec AreaLoadProofs LoaderProps GoneProofs IdleLoadSpec.
Import ListNotations.
Local Open Scope string_scope.
Local Open Scope list_scope.

Section Alike.
  Variables (ok : pfun -> string -> Prop) (cx cx' : ctx) (c : constants) (tm : list (string * list template)).
  Hypothesis EV : forall f a, ok f a -> eval_pfun cx f a = eval_pfun cx' f a.
  Hypothesis EX : cx_exc cx = cx_exc cx'.
  Hypothesis FO : forall p e, In e (get_inserts (cx_exc cx) p) -> forced_by_clbid cx (exc_clbid e) = forced_by_clbid cx' (exc_clbid e).

  Lemma mapr_in {A B} (f g : A -> res B) l : (forall x, In x l -> f x = g x) -> mapr f l = mapr g l.
  Proof. intro H. apply mapr_each. apply Forall_forall. exact H. Qed.
  Lemma expr_alike x : (forall f a, asks x f a -> ok f a) -> load_expr cx x = load_expr cx' x.
  Proof.
    induction x as [l IH|l IH|x IH|f a|f a|] using xdata_ind'; intro K; cbn [load_expr]; try reflexivity.
    - rewrite (mapr_in (load_expr cx) (load_expr cx')); [reflexivity|]. intros y I. rewrite Forall_forall in IH. apply (IH y I). intros f a A. apply K. eapply ak_and; eauto.
    - rewrite (mapr_in (load_expr cx) (load_expr cx')); [reflexivity|]. intros y I. rewrite Forall_forall in IH. apply (IH y I). intros f a A. apply K. eapply ak_or; eauto.
    - rewrite IH; [reflexivity|]. intros f a A. apply K. constructor. exact A.
    - rewrite EV; [reflexivity|]. apply K. constructor.
  Qed.
  Lemma predicate_alike m w : (forall f a, where_asks w f a -> ok f a) -> load_predicate cx c m w = load_predicate cx' c m w.
  Proof.
    induction w as [l IH|l IH|x IH|x t IH|x t e IHt IHe|l] using wdata_ind'; intro K; cbn [load_predicate]; try reflexivity.
    - rewrite (mapr_in (load_predicate cx c m) (load_predicate cx' c m)); [reflexivity|]. intros y I. rewrite Forall_forall in IH. apply (IH y I). intros f a A. apply K. eapply wk_and; eauto.
    - rewrite (mapr_in (load_predicate cx c m) (load_predicate cx' c m)); [reflexivity|]. intros y I. rewrite Forall_forall in IH. apply (IH y I). intros f a A. apply K. eapply wk_or; eauto.
    - rewrite IH; [reflexivity|]. intros f a A. apply K. constructor. exact A.
    - rewrite expr_alike, IH; [reflexivity| |]; intros f a A; apply K; [apply wk_then|apply wk_if]; exact A.
    - rewrite expr_alike, IHt, IHe; [reflexivity| | |]; intros f a A; apply K; [apply wk_else|apply wk_then|apply wk_if]; exact A.
  Qed.
  Lemma limits_alike o : (forall f a, limits_ask o f a -> ok f a) -> load_limits cx c o = load_limits cx' c o.
  Proof.
    destruct o as [l|]; [|reflexivity]. intro K. cbn [load_limits]. rewrite (mapr_in (load_limit cx c) (load_limit cx' c) l); [reflexivity|]. intros r I. unfold load_limit.
    destruct (rl_where r) as [w|] eqn:W; [|reflexivity]. cbn [Keys.key bind]. rewrite (predicate_alike DtCourse w); [reflexivity|]. intros f a A. apply K. exists l, r, w. auto.
  Qed.
  Lemma single_alike m p r : (forall f a, assertion_asks r f a -> ok f a) -> load_single_assertion cx c m p r = load_single_assertion cx' c m p r.
  Proof.
    intro K. unfold load_single_assertion. rewrite EX.
    assert (W : match rw_where r with Some x => let! q := load_predicate cx c m x in Ok (Some q) | None => Ok None end = match rw_where r with Some x => let! q := load_predicate cx' c m x in Ok (Some q) | None => Ok None end).
    { destruct (rw_where r) as [w|] eqn:W; [|reflexivity]. rewrite predicate_alike; [reflexivity|]. intros f a A. apply K. left. eauto. }
    rewrite W. clear W. destruct (match rw_where r with Some _ => _ | None => _ end); cbn [bind]; [|reflexivity].
    destruct (rw_assert r) as [|[name v] [|? ?]] eqn:RA; try reflexivity.
    rewrite (mapr_in (load_change cx) (load_change cx') (av_changes v)); [reflexivity|]. intros d I. unfold load_change.
    rewrite expr_alike; [|intros f0 a0 A; apply K; right; exists name, v, d; rewrite RA; split; [apply in_eq|auto]].
    destruct (load_expr cx' (fst d)) as [e0|] eqn:E; cbn [bind]; [|reflexivity]. rewrite !(evaluated cx' _ _ E). reflexivity.
  Qed.
  Lemma any_alike m p r : (forall f a, any_asks r f a -> ok f a) -> load_any cx c m p r = load_any cx' c m p r.
  Proof.
    destruct r as [x|x t [e|]|x t]; cbn [any_asks load_any]; intro K; [rewrite single_alike|rewrite expr_alike, (single_alike _ _ t), (single_alike _ _ e)|rewrite expr_alike, (single_alike _ _ t)|rewrite (single_alike _ _ t)]; try reflexivity; intros f a A; apply K; eauto.
  Qed.
  Lemma all_alike m p l : (forall r f a, In r l -> any_asks r f a -> ok f a) -> forall i, load_all cx c m p i l = load_all cx' c m p i l.
  Proof.
    induction l as [|r l IH]; intros K i; [reflexivity|]. cbn [load_all]. rewrite any_alike by (intros f a A; eapply K; [apply in_eq|exact A]). rewrite IH by (intros r' f a I A; eapply K; [right; exact I|exact A]). reflexivity.
  Qed.
  Lemma query_alike p q : (forall f a, query_asks q f a -> ok f a) -> load_query cx c p q = load_query cx' c p q.
  Proof.
    intro K. unfold load_query. destruct (source_of _) as [s|]; cbn [bind]; [|reflexivity]. rewrite limits_alike by (intros f a A; apply K; right; left; exact A). rewrite EX.
    assert (W : match rq_where q with Some x => let! w := load_predicate cx c (type_of_source s) x in Ok (Some w) | None => Ok None end = match rq_where q with Some x => let! w := load_predicate cx' c (type_of_source s) x in Ok (Some w) | None => Ok None end).
    { destruct (rq_where q) as [w|] eqn:W; [|reflexivity]. rewrite predicate_alike; [reflexivity|]. intros f a A. apply K. left. eauto. }
    assert (AS : forall i pp, match rq_assert q with Some r => load_all cx c (type_of_source s) pp i [RwPlain r] | None => match rq_all q with Some l => load_all cx c (type_of_source s) pp i l | None => Ok [] end end =
      match rq_assert q with Some r => load_all cx' c (type_of_source s) pp i [RwPlain r] | None => match rq_all q with Some l => load_all cx' c (type_of_source s) pp i l | None => Ok [] end end).
    { intros i pp. destruct (rq_assert q) as [r|] eqn:RA; [apply all_alike; intros r' f a [<-|[]] A; apply K; right; right; left; eauto|]. destruct (rq_all q) as [l|] eqn:RL; [|reflexivity]. apply all_alike. intros r f a I A. apply K. right; right; right. eauto. }
    destruct (rq_where q) as [w|]; [destruct (load_predicate cx c _ w), (load_predicate cx' c _ w); cbn [bind] in W; try discriminate W; [injection W as <-|injection W as <-; reflexivity]; cbn [bind]|];
      (destruct (rq_assert q), (rq_all q); rewrite ?AS; reflexivity).
  Qed.

  Definition heard (d : rdata) : Prop := forall y f a, mentions d y -> rule_asks y f a -> ok f a.
  Definition heard_in (b : rbody) : Prop := forall y f a, mentions_in b y -> rule_asks y f a -> ok f a.
  Definition loads_alike (a b : loader) : Prop := forall p, a p = b p.
  Definition env_alike (a b : children) : Prop := Forall2 (fun x y => fst x = fst y /\ loads_alike (snd x) (snd y)) a b.
  Definition item_alike (a b : Loader.item) : Prop := fst a = fst b /\ forall e e' p, env_alike e e' -> snd a e p = snd b e' p.
  Definition adds_alike (a b : list addition) : Prop := Forall2 (fun x y => fst x = fst y /\ loads_alike (snd x) (snd y)) a b.
  Lemma dget_alike e e' k : env_alike e e' -> match dget e k, dget e' k with Some a, Some b => loads_alike a b | None, None => True | _, _ => False end.
  Proof. induction 1 as [|[a f] [b g] e e' [E H] _ IH]; cbn in *; [exact Logic.I|]. subst b. destruct (_ =? _); [exact H|exact IH]. Qed.
  Lemma named_alike e e' name p : env_alike e e' -> load_named e name p = load_named e' name p.
  Proof. intros E. unfold load_named. assert (H := dget_alike e e' name E). destruct (dget e name), (dget e' name); try contradiction; [apply H|reflexivity]. Qed.
  Lemma dset_alike e e' k f g : env_alike e e' -> loads_alike f g -> env_alike (dset e k f) (dset e' k g).
  Proof.
    intros E L. induction E as [|[a f0] [b g0] e e' [E0 H] E IH]; cbn in *; [constructor; [auto|constructor]|]. subst b. destruct (_ =? _); constructor; auto.
  Qed.
  Lemma added_alike a b : adds_alike a b -> forall e e', env_alike e e' ->
    env_alike (fold_left (fun d a => dset d (snd (fst a)) (snd a)) a e) (fold_left (fun d a => dset d (snd (fst a)) (snd a)) b e').
  Proof. induction 1 as [|[k f] [k' g] a b [E H] _ IH]; intros e e' EE; cbn [fold_left fst snd] in *; [exact EE|]. subst k'. apply IH. apply dset_alike; auto. Qed.
  Lemma load_items_alike l l' : Forall2 item_alike l l' -> forall i e e' p, env_alike e e' -> load_items i e p l = load_items i e' p l'.
  Proof.
    induction 1 as [|[em f] [em' g] l l' [E H] _ IH]; intros i e e' p EE; cbn [load_items]; [reflexivity|]. cbn [fst snd] in *. subst em'. rewrite (H e e' _ EE), (IH (S i) e e' p EE). reflexivity.
  Qed.
  Lemma item_same_refl r : item_alike (course_item r) (course_item r).
  Proof. split; reflexivity. Qed.
  Lemma emphasis_alike a b : adds_alike a b -> Forall2 item_alike (map emphasis_item a) (map emphasis_item b).
  Proof.
    induction 1 as [|[k f] [k' g] a b [E H] _ IH]; cbn [map]; constructor; auto. cbn [fst snd] in *. subst k'. split; [reflexivity|]. intros e e' p EE. cbn. f_equal. apply named_alike. exact EE.
  Qed.
  Lemma count_alike k own own' adds adds' e e' p : (forall l r f a, rk_audit k = Some l -> In r l -> any_asks r f a -> ok f a) -> res_same (Forall2 item_alike) own own' -> res_same adds_alike adds adds' -> env_alike e e' ->
    load_count cx c k own adds e p = load_count cx' c k own' adds' e' p.
  Proof.
    intros K O A EE. unfold load_count. destruct own as [o|], own' as [o'|]; cbn in O; try contradiction; cbn [bind]; [|congruence].
    destruct adds as [a|], adds' as [a'|]; cbn in A; try contradiction; cbn [bind]; [|congruence].
    rewrite (mapr_in (inserted_item cx) (inserted_item cx') (get_inserts (cx_exc cx) (p ++ [".count"]))) by (intros x I; unfold inserted_item; rewrite (FO _ x I); reflexivity). rewrite EX.
    destruct (mapr (inserted_item cx') _) as [ins|]; cbn [bind]; [|reflexivity].
    assert (AU : match rk_audit k with Some l => load_audits cx c (p ++ [".count"]) l | None => Ok [] end = match rk_audit k with Some l => load_audits cx' c (p ++ [".count"]) l | None => Ok [] end).
    { destruct (rk_audit k) as [l|] eqn:RK; [|reflexivity]. unfold load_audits. apply mapr_in. intros [i r] I. cbn [fst snd]. apply any_alike. intros f a0 B. apply (K l r f a0 eq_refl); [|exact B]. eapply in_combine_r. exact I. }
    rewrite AU. rewrite (load_items_alike (o ++ map emphasis_item a ++ map course_item ins) (o' ++ map emphasis_item a' ++ map course_item ins)) with (e' := fold_left (fun d a => dset d (snd (fst a)) (snd a)) a' e').
    - assert (LE : List.length o = List.length o') by (eapply f2_length; eauto). assert (LA : List.length a = List.length a') by (eapply f2_length; eauto).
      rewrite !app_length, !map_length, LE, LA. reflexivity.
    - apply Forall2_app; [exact O|]. apply Forall2_app; [apply emphasis_alike, A|]. clear - ins. induction ins; constructor; auto using item_same_refl.
    - apply added_alike; auto.
  Qed.
  Lemma conditional_alike x t t' f f' p : (forall g a, asks (rn_if x) g a -> ok g a) -> match t, t' with Some a, Some b => forall p, a p = b p | None, None => True | _, _ => False end ->
    match f, f' with Some a, Some b => forall p, a p = b p | None, None => True | _, _ => False end -> load_conditional cx x t f p = load_conditional cx' x t' f' p.
  Proof.
    intros K T F. unfold load_conditional. rewrite expr_alike by exact K. rewrite EX. destruct t, t'; try contradiction; rewrite ?T; destruct f, f'; try contradiction; rewrite ?F; reflexivity.
  Qed.
  Lemma requirement_alike b f f' name p : match f, f' with Some a, Some b => forall p, a p = b p | None, None => True | _, _ => False end -> load_requirement b f name p = load_requirement b f' name p.
  Proof. intros F. unfold load_requirement. destruct f, f'; try contradiction; rewrite ?F; reflexivity. Qed.

  Definition alike_data (d : rdata) : Prop := heard d -> forall adds adds' e e' p, res_same adds_alike adds adds' -> env_alike e e' -> load_rule cx c tm d adds e p = load_rule cx' c tm d adds' e' p.
  Definition alike_body (b : rbody) : Prop := heard_in b -> forall name p, load_body cx c tm b name p = load_body cx' c tm b name p.
  Lemma none_added : res_same adds_alike (Ok []) (Ok []).
  Proof. constructor. Qed.
  Lemma expand_alike l : (forall d, In d l -> alike_data d) -> (forall d, In d l -> heard d) -> res_same (Forall2 item_alike) (expand cx c tm l) (expand cx' c tm l).
  Proof.
    induction l as [|y l IH]; intros H K; [constructor|]. cbn [expand]. assert (IH' := IH (fun d I => H d (or_intror I)) (fun d I => K d (or_intror I))).
    assert (X : res_same (Forall2 item_alike) match rd_template y with Some key => template_items tm key | None => Ok [(None, load_rule cx c tm y (Ok []))] end
      match rd_template y with Some key => template_items tm key | None => Ok [(None, load_rule cx' c tm y (Ok []))] end).
    { destruct (rd_template y) as [key|].
      - unfold template_items. destruct (mapr _ _) as [os|]; cbn; [|reflexivity]. induction os as [|[r|] os IHo]; cbn; constructor; auto using item_same_refl. split; reflexivity.
      - cbn. constructor; [|constructor]. split; [reflexivity|]. intros e e' p EE. cbn. apply (H y (or_introl eq_refl)); [apply K; left; reflexivity|apply none_added|exact EE]. }
    destruct (match rd_template y with Some key => template_items tm key | None => Ok [(None, load_rule cx c tm y (Ok []))] end) as [h|], (match rd_template y with Some key => template_items tm key | None => Ok [(None, load_rule cx' c tm y (Ok []))] end) as [h'|];
      cbn in X; try contradiction; cbn [bind]; [|exact X].
    destruct (expand cx c tm l) as [r|], (expand cx' c tm l) as [r'|]; cbn in IH' |- *; try contradiction; [|exact IH']. apply Forall2_app; assumption.
  Qed.
  Lemma rules_alike : (forall d, alike_data d) /\ (forall b, alike_body b).
  Proof.
    apply spec_induction.
    - intros d IC IK IN OK adds adds' e e' p A EE. rewrite !load_rule_eq. assert (OWN := fun f a => OK d f a (mt_self d)). destruct (rd_prof d); [reflexivity|]. destruct (rd_course d); [reflexivity|].
      destruct (rd_query d) as [q|] eqn:EQ; [rewrite (query_alike p q); [reflexivity|]; intros f a B; apply OWN; left; eauto|].
      destruct (rd_cond d) as [x|] eqn:EC.
      { destruct IC as [IT IE]. apply conditional_alike; [intros f a B; apply OWN; right; right; eauto|destruct (rn_then x) as [y|] eqn:ET|destruct (rn_else x) as [y|] eqn:EF]; try exact Logic.I; intros q; [apply IT|apply IE]; auto using none_added; try constructor; intros n f a D; apply (OK n); [eapply mt_then|eapply mt_else]; eauto. }
      destruct (rd_count d) as [k|] eqn:EK.
      { destruct IK as (I1 & I2 & I3 & I4 & I5). unfold some_node. f_equal. apply count_alike; auto; [intros l r f a RK I B; apply OWN; right; left; exists k, l, r; auto|]. unfold rk_items.
        assert (OI : forall l, listed k l -> forall y, In y l -> heard y) by (intros l LI y I n f a D; apply (OK n); eapply mt_item; eauto).
        destruct (rk_all k) eqn:K1; [apply expand_alike; [exact I1|apply OI; constructor; assumption]|]. destruct (rk_any k) eqn:K2; [apply expand_alike; [exact I2|apply OI; constructor; assumption]|].
        destruct (rk_both k) eqn:K3; [apply expand_alike; [exact I3|apply OI; constructor; assumption]|]. destruct (rk_either k) eqn:K4; [apply expand_alike; [exact I4|apply OI; constructor; assumption]|].
        destruct (rk_of k) eqn:K5; [apply expand_alike; [exact I5|apply OI; constructor; assumption]|]. reflexivity. }
      destruct (rd_name d) as [[name b]|] eqn:EN; [unfold some_node; f_equal; apply IN; intros n f a D; apply (OK n); eapply mt_named; eauto|].
      destruct (rd_req d) as [name|]; [|reflexivity]. unfold some_node. f_equal. apply named_alike. exact EE.
    - intros b ID IR OK name p. rewrite !load_body_eq. apply requirement_alike. destruct (rb_result b) as [d|] eqn:ER; [|exact Logic.I]. intros q. apply ID; [intros n f a D; apply (OK n); eapply mi_result; eauto|apply none_added|].
      assert (OR : forall l, rb_reqs b = Some l -> forall s b', In (s, b') l -> heard_in b') by (intros l EL s b' I n f a D; apply (OK n); eapply mi_req; eauto).
      destruct (rb_reqs b) as [l|]; [|constructor]. specialize (OR l eq_refl). cbn [all_reqs] in IR. induction l as [|[s b'] l IH]; cbn [map]; constructor.
      + split; [reflexivity|]. intros q'. apply (IR s b'); [left; reflexivity|]. apply (OR s b'). apply in_eq.
      + apply IH; [intros s' b'' I; apply (IR s' b''); right; exact I|intros s' b'' I; apply (OR s' b''); right; exact I].
  Qed.
  Lemma additions_alike x : heard_in (em_body x) -> res_same adds_alike (additions_of cx c tm x) (additions_of cx' c tm x).
  Proof.
    intros OB. unfold additions_of. destruct (em_name x) as [name|]; cbn [bind]; [|reflexivity]. destruct (rb_result (em_body x)) as [d|] eqn:ER; cbn [bind]; [|reflexivity].
    destruct (if has (rb_reqs (em_body x)) then _ else _) as [h|]; cbn [bind]; [|reflexivity].
    destruct (_ && _ && _)%bool.
    - destruct (rb_reqs (em_body x)) as [l|] eqn:EQ.
      + cbn [bind res_same]. assert (OL : forall y, In y l -> heard_in (snd y)) by (intros [s b] I n f a D; apply (OB n); eapply mi_req; eauto).
        clear EQ. induction l as [|y l IH]; cbn [map]; constructor; [|apply IH; intros z I; apply OL; right; exact I]. split; [reflexivity|]. intros p. apply rules_alike. apply OL. apply in_eq.
      + destruct (mapr _ _) as [l|] eqn:EM; cbn [bind res_same]; [|reflexivity].
        assert (OL : forall y, In y l -> heard_in (snd y)).
        { intros y I. destruct (mapr_from _ _ _ EM y I) as [r [J R]]. destruct (rd_name r) as [[s b]|] eqn:EN; [|discriminate R]. injection R as <-. destruct (rd_count d) as [k|] eqn:EC; [|destruct J]. destruct (rk_all k) as [ll|] eqn:EA; [|destruct J].
          intros n f a D. apply (OB n). eapply mi_result; [exact ER|]. eapply mt_item; [exact EC|apply li_all; exact EA|exact J|]. eapply mt_named; eauto. }
        assert (OL' : forall y, In y (fold_left (fun d x => dset d (fst x) (snd x)) l []) -> heard_in (snd y)) by (apply dset_all; [exact OL|intros y []]).
        clear EM OL. revert OL'. generalize (fold_left (fun d x => dset d (fst x) (snd x)) l []). intros l' OL'.
        induction l' as [|y l' IH]; cbn [map]; constructor; [|apply IH; intros z I; apply OL'; right; exact I]. split; [reflexivity|]. intros p. apply rules_alike. apply OL'. apply in_eq.
    - cbn. constructor; [|constructor]. split; [reflexivity|]. intros p. apply rules_alike. exact OB.
  Qed.
  Lemma top_alike d reqs ems : (forall y, d = Some y -> heard y) -> (forall k b, In (k, b) (reqs_of reqs) -> heard_in b) -> (forall x, In x ems -> heard_in (em_body x)) ->
    load_top cx c tm d reqs ems = load_top cx' c tm d reqs ems.
  Proof.
    intros OD OR OE. unfold load_top. destruct d as [d|]; [|reflexivity].
    assert (A : res_same adds_alike (let! l := mapr (additions_of cx c tm) ems in Ok (List.concat l)) (let! l := mapr (additions_of cx' c tm) ems in Ok (List.concat l))).
    { assert (X : res_same (Forall2 adds_alike) (mapr (additions_of cx c tm) ems) (mapr (additions_of cx' c tm) ems)).
      { induction ems as [|x ems IH]; [constructor|]. cbn [mapr]. assert (H := additions_alike x (OE x (or_introl eq_refl))). specialize (IH (fun y I => OE y (or_intror I))). destruct (additions_of cx c tm x) as [a|], (additions_of cx' c tm x) as [a'|]; cbn in H; try contradiction; cbn [bind]; [|exact H].
        destruct (mapr (additions_of cx c tm) ems), (mapr (additions_of cx' c tm) ems); cbn in IH |- *; try contradiction; [constructor; auto|exact IH]. }
      destruct (mapr (additions_of cx c tm) ems), (mapr (additions_of cx' c tm) ems); cbn in X |- *; try contradiction; [|exact X]. induction X; cbn; [constructor|]. apply Forall2_app; assumption. }
    assert (E : env_alike (map (fun x => (fst x, load_body cx c tm (snd x) (fst x))) (reqs_of reqs)) (map (fun x => (fst x, load_body cx' c tm (snd x) (fst x))) (reqs_of reqs))).
    { induction (reqs_of reqs) as [|[k b] l IH]; cbn [map]; constructor; [|apply IH; intros k' b' I; apply (OR k' b'); right; exact I]. split; [reflexivity|]. intros p. apply rules_alike. apply (OR k b). apply in_eq. }
    rewrite (proj1 rules_alike d (OD d eq_refl) _ _ _ _ ["$"] A E). reflexivity.
  Qed.

  (** the rules common to all majors ask nothing *)
  Definition plain (q : raw_query) : Prop := forall f a, query_asks q f a -> False.
  (** a clause without conditions *)
  Fixpoint flat (w : wdata) : bool := match w with WAnd l | WOr l => forallb flat l | WNot w => flat w | WIf _ _ _ => false | WKeys _ => true end.
  Lemma flat_asks w f a : where_asks w f a -> flat w = true -> False.
  Proof. induction 1; cbn [flat]; intro F; try discriminate F; auto; rewrite forallb_forall in F; auto. Qed.
  Lemma common_plain w key op z : flat w = true -> plain (common_query w key op z).
  Proof.
    intros W f a [[w' [E A]]|[[l [r [w' [E _]]]]|[[r [E A]]|[l [r [E _]]]]]]; cbn in E; try discriminate E; injection E as <-; [exact (flat_asks _ f a A W)|]. destruct A as [[w' [E _]]|[k [v [d [I [J _]]]]]]; [discriminate E|]. cbn in I. destruct I as [I|[]]. injection I as <- <-. destruct J.
  Qed.
  Lemma common_heard o b : (forall q, o = Some q -> plain q) -> heard_in (common_body o b).
  Proof.
    intros P y f a M B. exfalso. inversion M as [? d ? ER MD|? ? ? ? ? EL]; subst; [|discriminate EL]. cbn in ER. destruct o as [q|]; [|discriminate ER]. injection ER as <-.
    inversion MD as [|? ? ? ? E|? ? ? ? E|? ? ? ? ? E|? ? ? ? E]; subst; try discriminate E. destruct B as [[q' [E B]]|[[k [l [r [E _]]]]|[x [E _]]]]; try discriminate E. injection E as <-. exact (P q eq_refl f a B).
  Qed.
  Lemma reference_heard name : heard (mkRd None None None None None None None (Some name)).
  Proof.
    intros y f a M B. exfalso. inversion M as [|? ? ? ? E|? ? ? ? E|? ? ? ? ? E|? ? ? ? E]; subst; try discriminate E. destruct B as [[q [E _]]|[[k [l [r [E _]]]]|[x [E _]]]]; discriminate E.
  Qed.
  Lemma load_common_alike name b i : heard_in b -> load_common cx c tm name b i = load_common cx' c tm name b i.
  Proof.
    intro H. unfold load_common. rewrite (proj1 rules_alike _ (reference_heard name) (Ok []) (Ok []) _ [(name, load_body cx' c tm b name)]); [reflexivity|apply none_added|].
    constructor; [|constructor]. split; [reflexivity|]. intro p. apply rules_alike. exact H.
  Qed.
  Lemma outside_plain d code others : plain (outside_query d code others).
  Proof. unfold outside_query. match goal with |- context [if ?b then _ else _] => destruct b end; [|destruct (code =? "450")]; apply common_plain; reflexivity. Qed.
  Lemma prepare_alike degree dept areas code : prepare_common cx c tm degree dept areas code = prepare_common cx' c tm degree dept areas code.
  Proof.
    unfold prepare_common. rewrite !load_common_alike; [reflexivity| | |].
    - unfold outside_body. destruct dept; apply common_heard; intros q E; [injection E as <-; apply outside_plain|discriminate E].
    - apply common_heard. intros q E. injection E as <-. unfold s_u_query. destruct (match degree with Some _ => _ | None => _ end); apply common_plain; reflexivity.
    - apply common_heard. intros q E. injection E as <-. apply common_plain. reflexivity.
  Qed.
End Alike.
