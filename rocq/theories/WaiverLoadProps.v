(** Property theorems about loading rules with waivers (C178). *)
From Coq Require Import List ZArith QArith Bool String Lia Permutation.
From Verif Require Import Transcript Prelude Dec Status Course Claims Exceptions Op Context CondExpr Paths Predicate Limit LimitLoad Apply Assertion Query CourseRule Tree Solve Driver Area StudentLoad Run Loader AreaLoad LoaderProps CommonProps.
From Verif Require Import ListFacts LimitSpec LimitProps PredicateProofs CondExprProofs ExceptionsProofs LoaderSpec LoaderProofs CourseRuleSpec SolveProps TreeSpec PlanSpec AreaProps AreaLoadProps AreaEndProps MonoSpec MonoProps MonoExcProps.
Import ListNotations.
Local Open Scope string_scope.
Local Open Scope list_scope.

(** the rules whose loaders look for waivers: conditionals, queries and assertions *)
Definition sees_waivers (s : string) : Prop := In s [".cond"; ".query"; ".assert"].
(** a waiver of a rule of another kind *)
Definition plain_waiver (x : exc) : Prop := AssertionSpec.waive_kind (ex_act x) /\ (exists a b p, ex_path x = a :: b :: p) /\ forall p s, ex_path x = p ++ [s] -> ~ sees_waivers s.
(** the same exceptions, in the same order, but for such waivers *)
Inductive but_for_waivers : list exc -> list exc -> Prop :=
| bw_nil : but_for_waivers [] []
| bw_same x l l' : but_for_waivers l l' -> but_for_waivers (x :: l) (x :: l')
| bw_left x l l' : plain_waiver x -> but_for_waivers l l' -> but_for_waivers (x :: l) l'
| bw_right x l l' : plain_waiver x -> but_for_waivers l l' -> but_for_waivers l (x :: l').

Lemma f2_length {A B} (R : A -> B -> Prop) l m : Forall2 R l m -> List.length l = List.length m.
Proof. induction 1; cbn; congruence. Qed.
Section Agree.
  Variables (cx cx' : ctx) (c : constants) (tm : list (string * list template)).
  Hypothesis SAME : forall d, mkCtx (cx_transcript cx) (cx_excluded cx) (cx_failed cx) (cx_forced cx) (cx_multi cx) d (cx_areas cx) (cx_perf cx) (cx_att cx) (cx_prof cx) =
    mkCtx (cx_transcript cx') (cx_excluded cx') (cx_failed cx') (cx_forced cx') (cx_multi cx') d (cx_areas cx') (cx_perf cx') (cx_att cx') (cx_prof cx').
  Hypothesis INS : forall p, get_inserts (cx_exc cx) p = get_inserts (cx_exc cx') p.
  Hypothesis VAL : forall p, get_value (cx_exc cx) p = get_value (cx_exc cx') p.
  Hypothesis WAI : forall p s, sees_waivers s -> get_waive (cx_exc cx) (p ++ [s]) = get_waive (cx_exc cx') (p ++ [s]).
  Hypothesis EXP : forall k, has_waive_for_expression (cx_exc cx) k = has_waive_for_expression (cx_exc cx') k.

  Lemma eval_same f a : eval_pfun cx f a = eval_pfun cx' f a.
  Proof.
    assert (S := SAME []). destruct cx as [x1 x2 x3 x4 x5 x6 x7 x8 x9 x10], cx' as [y1 y2 y3 y4 y5 y6 y7 y8 y9 y10]. cbn in S. injection S as <- <- <- <- <- <- <- <- <-. cbn [cx_exc] in EXP.
    destruct f; cbn [eval_pfun]; try reflexivity. cbn [cx_exc]. rewrite EXP. reflexivity.
  Qed.
  Lemma forced_same k : forced_by_clbid cx k = forced_by_clbid cx' k.
  Proof. assert (S := SAME []). destruct cx, cx'. cbn in S. injection S as <- <- <- <- <- <- <- <- <-. reflexivity. Qed.
  Lemma mapr_each {A B} (f g : A -> res B) l : Forall (fun x => f x = g x) l -> mapr f l = mapr g l.
  Proof. induction 1 as [|x l E _ IH]; cbn; [reflexivity|]. rewrite E, IH. reflexivity. Qed.
  Lemma expr_same x : load_expr cx x = load_expr cx' x.
  Proof. induction x as [l IH|l IH|x IH|f a|f a|] using xdata_ind'; cbn [load_expr]; try reflexivity; [rewrite (mapr_each _ _ _ IH)|rewrite (mapr_each _ _ _ IH)|rewrite IH|rewrite eval_same]; reflexivity. Qed.
  Lemma evaluated x e0 : load_expr cx' x = Ok e0 -> forall k, evaluate k e0 = Ok e0.
  Proof.
    destruct x; cbn [load_expr]; try discriminate; [destruct (mapr _ _)|destruct (mapr _ _)|destruct (load_expr cx' x)|destruct (eval_pfun cx' _ _)]; cbn [bind]; try discriminate; intro H; injection H as <-; reflexivity.
  Qed.
  Lemma predicate_same m w : load_predicate cx c m w = load_predicate cx' c m w.
  Proof.
    induction w as [l IH|l IH|x IH|x t IH|x t e IHt IHe|l] using wdata_ind'; cbn [load_predicate]; try reflexivity; [rewrite (mapr_each _ _ _ IH)|rewrite (mapr_each _ _ _ IH)|rewrite IH|rewrite expr_same, IH|rewrite expr_same, IHt, IHe]; reflexivity.
  Qed.
  Lemma limits_same o : load_limits cx c o = load_limits cx' c o.
  Proof.
    destruct o as [l|]; [|reflexivity]. cbn [load_limits]. rewrite (mapr_each (load_limit cx c) (load_limit cx' c) l); [reflexivity|]. apply Forall_forall. intros r _. unfold load_limit.
    destruct (get _ _); try reflexivity; destruct (rl_extra r); try reflexivity; destruct (rl_where r); cbn [bind Keys.key]; try reflexivity; rewrite predicate_same; reflexivity.
  Qed.
  Lemma single_same m p r : load_single_assertion cx c m p r = load_single_assertion cx' c m p r.
  Proof.
    unfold load_single_assertion. rewrite VAL, (WAI p ".assert") by (unfold sees_waivers; simpl; auto).
    assert (CH : forall l, mapr (load_change cx) l = mapr (load_change cx') l).
    { intro l. apply mapr_each. apply Forall_forall. intros d _. unfold load_change. rewrite expr_same. destruct (load_expr cx' (fst d)) as [e0|] eqn:E; cbn [bind]; [|reflexivity]. rewrite !(evaluated _ _ E). reflexivity. }
    destruct (rw_where r) as [w|]; [rewrite predicate_same; destruct (load_predicate cx' c m w); cbn [bind]; [|reflexivity]|cbn [bind]];
      (destruct (rw_assert r) as [|[name v] [|? ?]]; try reflexivity; destruct (find _ _); try reflexivity; destruct (av_ops v) as [|[op raw] [|? ?]]; try reflexivity; destruct op; try reflexivity; rewrite CH; reflexivity).
  Qed.
  Lemma any_same m p r : load_any cx c m p r = load_any cx' c m p r.
  Proof.
    destruct r as [x|x t [e|]|x t]; cbn [load_any]; rewrite ?expr_same, ?single_same; reflexivity.
  Qed.
  Lemma all_same m p l : forall i, load_all cx c m p i l = load_all cx' c m p i l.
  Proof. induction l as [|r l IH]; intro i; [reflexivity|]. cbn [load_all]. rewrite any_same, IH. reflexivity. Qed.
  Lemma query_same p q : load_query cx c p q = load_query cx' c p q.
  Proof.
    unfold load_query. destruct (source_of _) as [s|]; cbn [bind]; [|reflexivity]. rewrite limits_same, (WAI p ".query") by (unfold sees_waivers; simpl; auto).
    destruct (rq_where q) as [w|]; [rewrite predicate_same|]; destruct (rq_assert q), (rq_all q); rewrite ?all_same; reflexivity.
  Qed.

  Definition loads_same (a b : loader) : Prop := forall p, a p = b p.
  Definition env_same (a b : children) : Prop := Forall2 (fun x y => fst x = fst y /\ loads_same (snd x) (snd y)) a b.
  Definition item_same (a b : Loader.item) : Prop := fst a = fst b /\ forall e e' p, env_same e e' -> snd a e p = snd b e' p.
  Definition adds_same (a b : list addition) : Prop := Forall2 (fun x y => fst x = fst y /\ loads_same (snd x) (snd y)) a b.
  Definition res_same {A} (R : A -> A -> Prop) (a b : res A) : Prop := match a, b with Ok x, Ok y => R x y | Err e, Err e' => e = e' | _, _ => False end.
  Lemma dget_same e e' k : env_same e e' -> match dget e k, dget e' k with Some a, Some b => loads_same a b | None, None => True | _, _ => False end.
  Proof.
    induction 1 as [|[a f] [b g] e e' [E H] _ IH]; cbn in *; [exact Logic.I|]. subst b. destruct (_ =? _); [exact H|exact IH].
  Qed.
  Lemma named_same e e' name p : env_same e e' -> load_named e name p = load_named e' name p.
  Proof. intro E. unfold load_named. assert (H := dget_same e e' name E). destruct (dget e name), (dget e' name); try contradiction; [apply H|reflexivity]. Qed.
  Lemma dset_same e e' k f g : env_same e e' -> loads_same f g -> env_same (dset e k f) (dset e' k g).
  Proof.
    intros E L. induction E as [|[a f0] [b g0] e e' [E0 H] E IH]; cbn in *; [constructor; [auto|constructor]|]. subst b. destruct (_ =? _); constructor; auto.
  Qed.
  Lemma added_same a b : adds_same a b -> forall e e', env_same e e' ->
    env_same (fold_left (fun d a => dset d (snd (fst a)) (snd a)) a e) (fold_left (fun d a => dset d (snd (fst a)) (snd a)) b e').
  Proof. induction 1 as [|[k f] [k' g] a b [E H] _ IH]; intros e e' EE; cbn [fold_left fst snd] in *; [exact EE|]. subst k'. apply IH. apply dset_same; auto. Qed.
  Lemma load_items_same l l' : Forall2 item_same l l' -> forall i e e' p, env_same e e' -> load_items i e p l = load_items i e' p l'.
  Proof.
    induction 1 as [|[em f] [em' g] l l' [E H] _ IH]; intros i e e' p EE; cbn [load_items]; [reflexivity|]. cbn [fst snd] in *. subst em'.
    rewrite (H e e' _ EE), (IH (S i) e e' p EE). reflexivity.
  Qed.
  Lemma item_refl r : item_same (course_item r) (course_item r).
  Proof. split; reflexivity. Qed.
  Lemma emphasis_same a b : adds_same a b -> Forall2 item_same (map emphasis_item a) (map emphasis_item b).
  Proof.
    induction 1 as [|[k f] [k' g] a b [E H] _ IH]; cbn [map]; constructor; auto. cbn [fst snd] in *. subst k'. split; [reflexivity|]. intros e e' p EE. cbn. f_equal. apply named_same. exact EE.
  Qed.
  Lemma inserted_same e : inserted_item cx e = inserted_item cx' e.
  Proof. unfold inserted_item. rewrite forced_same. reflexivity. Qed.
  Lemma count_same k own own' adds adds' e e' p : res_same (Forall2 item_same) own own' -> res_same adds_same adds adds' -> env_same e e' ->
    load_count cx c k own adds e p = load_count cx' c k own' adds' e' p.
  Proof.
    intros O A EE. unfold load_count. destruct own as [o|], own' as [o'|]; cbn in O; try contradiction; cbn [bind]; [|congruence].
    destruct adds as [a|], adds' as [a'|]; cbn in A; try contradiction; cbn [bind]; [|congruence].
    rewrite INS, (mapr_each (inserted_item cx) (inserted_item cx')) by (apply Forall_forall; intros x _; apply inserted_same).
    destruct (mapr (inserted_item cx') _) as [ins|]; cbn [bind]; [|reflexivity].
    assert (AU : match rk_audit k with Some l => load_audits cx c (p ++ [".count"]) l | None => Ok [] end = match rk_audit k with Some l => load_audits cx' c (p ++ [".count"]) l | None => Ok [] end).
    { destruct (rk_audit k) as [l|]; [|reflexivity]. unfold load_audits. apply mapr_each. apply Forall_forall. intros x _. apply any_same. }
    rewrite AU. rewrite (load_items_same (o ++ map emphasis_item a ++ map course_item ins) (o' ++ map emphasis_item a' ++ map course_item ins)) with (e' := fold_left (fun d a => dset d (snd (fst a)) (snd a)) a' e').
    - assert (LE : List.length o = List.length o') by (eapply f2_length; eauto). assert (LA : List.length a = List.length a') by (eapply f2_length; eauto).
      rewrite !app_length, !map_length, LE, LA. reflexivity.
    - apply Forall2_app; [exact O|]. apply Forall2_app; [apply emphasis_same, A|]. clear - ins. induction ins; constructor; auto using item_refl.
    - apply added_same; auto.
  Qed.
  Lemma conditional_same x t t' f f' p : match t, t' with Some a, Some b => forall p, a p = b p | None, None => True | _, _ => False end ->
    match f, f' with Some a, Some b => forall p, a p = b p | None, None => True | _, _ => False end -> load_conditional cx x t f p = load_conditional cx' x t' f' p.
  Proof.
    intros T F. unfold load_conditional. rewrite expr_same, (WAI p ".cond") by (unfold sees_waivers; simpl; auto). destruct t, t'; try contradiction; rewrite ?T; destruct f, f'; try contradiction; rewrite ?F; reflexivity.
  Qed.
  Lemma requirement_same b f f' name p : match f, f' with Some a, Some b => forall p, a p = b p | None, None => True | _, _ => False end -> load_requirement b f name p = load_requirement b f' name p.
  Proof. intros F. unfold load_requirement. destruct f, f'; try contradiction; rewrite ?F; reflexivity. Qed.

  Definition same_data (d : rdata) : Prop := forall adds adds' e e' p, res_same adds_same adds adds' -> env_same e e' -> load_rule cx c tm d adds e p = load_rule cx' c tm d adds' e' p.
  Definition same_body (b : rbody) : Prop := forall name p, load_body cx c tm b name p = load_body cx' c tm b name p.
  Lemma no_adds : res_same adds_same (Ok []) (Ok []).
  Proof. constructor. Qed.
  Lemma expand_same l : (forall d, In d l -> same_data d) -> res_same (Forall2 item_same) (expand cx c tm l) (expand cx' c tm l).
  Proof.
    induction l as [|y l IH]; intro H; [constructor|]. cbn [expand]. assert (IH' := IH (fun d I => H d (or_intror I))).
    assert (X : res_same (Forall2 item_same) match rd_template y with Some key => template_items tm key | None => Ok [(None, load_rule cx c tm y (Ok []))] end
      match rd_template y with Some key => template_items tm key | None => Ok [(None, load_rule cx' c tm y (Ok []))] end).
    { destruct (rd_template y) as [key|].
      - unfold template_items. destruct (mapr _ _) as [os|]; cbn; [|reflexivity]. induction os as [|[r|] os IHo]; cbn; constructor; auto using item_refl. split; reflexivity.
      - cbn. constructor; [|constructor]. split; [reflexivity|]. intros e e' p EE. cbn. apply (H y (or_introl eq_refl)); [apply no_adds|exact EE]. }
    destruct (match rd_template y with Some key => template_items tm key | None => Ok [(None, load_rule cx c tm y (Ok []))] end) as [h|], (match rd_template y with Some key => template_items tm key | None => Ok [(None, load_rule cx' c tm y (Ok []))] end) as [h'|];
      cbn in X; try contradiction; cbn [bind]; [|exact X].
    destruct (expand cx c tm l) as [r|], (expand cx' c tm l) as [r'|]; cbn in IH' |- *; try contradiction; [|exact IH']. apply Forall2_app; assumption.
  Qed.
  Lemma rules_same : (forall d, same_data d) /\ (forall b, same_body b).
  Proof.
    apply spec_induction.
    - intros d IC IK IN adds adds' e e' p A EE. rewrite !load_rule_eq. destruct (rd_prof d); [reflexivity|]. destruct (rd_course d); [reflexivity|].
      destruct (rd_query d) as [q|]; [rewrite query_same; reflexivity|].
      destruct (rd_cond d) as [x|].
      { destruct IC as [IT IE]. apply conditional_same; [destruct (rn_then x) as [y|]|destruct (rn_else x) as [y|]]; try exact Logic.I; intro q; [apply IT|apply IE]; auto using no_adds. }
      destruct (rd_count d) as [k|].
      { destruct IK as (I1 & I2 & I3 & I4 & I5). unfold some_node. f_equal. apply count_same; auto. unfold rk_items.
        destruct (rk_all k); [apply expand_same, I1|]. destruct (rk_any k); [apply expand_same, I2|]. destruct (rk_both k); [apply expand_same, I3|]. destruct (rk_either k); [apply expand_same, I4|]. destruct (rk_of k); [apply expand_same, I5|]. reflexivity. }
      destruct (rd_name d) as [[name b]|]; [unfold some_node; f_equal; apply IN|].
      destruct (rd_req d) as [name|]; [|reflexivity]. unfold some_node. f_equal. apply named_same, EE.
    - intros b ID IR name p. rewrite !load_body_eq. apply requirement_same. destruct (rb_result b) as [d|]; [|exact Logic.I]. intro q. apply ID; [apply no_adds|].
      destruct (rb_reqs b) as [l|]; [|constructor]. cbn [all_reqs] in IR. induction l as [|[s b'] l IH]; cbn [map]; constructor.
      + split; [reflexivity|]. intro q'. apply (IR s b'). left. reflexivity.
      + apply IH. intros s' b'' I. apply (IR s' b''). right. exact I.
  Qed.
  Lemma common_same name b i : load_common cx c tm name b i = load_common cx' c tm name b i.
  Proof. unfold load_common. rewrite (proj1 rules_same _ (Ok []) (Ok []) _ [(name, load_body cx' c tm b name)]); [reflexivity|apply no_adds|]. constructor; [|constructor]. split; [reflexivity|]. intro p. apply rules_same. Qed.
  Lemma prepare_same degree dept areas code : prepare_common cx c tm degree dept areas code = prepare_common cx' c tm degree dept areas code.
  Proof. unfold prepare_common. rewrite !common_same. reflexivity. Qed.
  Lemma additions_same x : res_same adds_same (additions_of cx c tm x) (additions_of cx' c tm x).
  Proof.
    unfold additions_of. destruct (em_name x) as [name|]; cbn [bind]; [|reflexivity]. destruct (rb_result (em_body x)) as [d|]; cbn [bind]; [|reflexivity].
    destruct (if has (rb_reqs (em_body x)) then _ else _) as [h|]; cbn [bind]; [|reflexivity].
    destruct (_ && _ && _)%bool.
    - destruct (rb_reqs (em_body x)) as [l|].
      + cbn. induction l as [|y l IH]; cbn [map]; constructor; auto. split; [reflexivity|]. intro p. apply rules_same.
      + destruct (mapr _ _) as [l|]; cbn; [|reflexivity]. generalize (fold_left (fun d x => dset d (fst x) (snd x)) l []). intro l'.
        induction l' as [|y l' IH]; cbn [map]; constructor; auto. split; [reflexivity|]. intro p. apply rules_same.
    - cbn. constructor; [|constructor]. split; [reflexivity|]. intro p. apply rules_same.
  Qed.
  Lemma top_same d reqs ems : load_top cx c tm d reqs ems = load_top cx' c tm d reqs ems.
  Proof.
    unfold load_top. destruct d as [d|]; [|reflexivity].
    assert (A : res_same adds_same (let! l := mapr (additions_of cx c tm) ems in Ok (List.concat l)) (let! l := mapr (additions_of cx' c tm) ems in Ok (List.concat l))).
    { assert (X : res_same (Forall2 adds_same) (mapr (additions_of cx c tm) ems) (mapr (additions_of cx' c tm) ems)).
      { induction ems as [|x ems IH]; [constructor|]. cbn [mapr]. assert (H := additions_same x). destruct (additions_of cx c tm x) as [a|], (additions_of cx' c tm x) as [a'|]; cbn in H; try contradiction; cbn [bind]; [|exact H].
        destruct (mapr (additions_of cx c tm) ems), (mapr (additions_of cx' c tm) ems); cbn in IH |- *; try contradiction; [constructor; auto|exact IH]. }
      destruct (mapr (additions_of cx c tm) ems), (mapr (additions_of cx' c tm) ems); cbn in X |- *; try contradiction; [|exact X]. induction X; cbn; [constructor|]. apply Forall2_app; assumption. }
    assert (E : env_same (map (fun x => (fst x, load_body cx c tm (snd x) (fst x))) (reqs_of reqs)) (map (fun x => (fst x, load_body cx' c tm (snd x) (fst x))) (reqs_of reqs))).
    { induction (reqs_of reqs) as [|y l IH]; cbn [map]; constructor; auto. split; [reflexivity|]. intro p. apply rules_same. }
    rewrite (proj1 rules_same d _ _ _ _ ["$"] A E). reflexivity.
  Qed.
  Lemma required_same n : required_of cx n = required_of cx' n.
  Proof.
    assert (R : forall r, c_required cx r = c_required cx' r).
    { intro r. unfold c_required, c_matches, c_insert_matches. rewrite INS. generalize (get_inserts (cx_exc cx') (r_path r)). intro is. assert (S := SAME []). destruct cx, cx'. cbn in S. injection S as <- <- <- <- <- <- <- <- <-. reflexivity. }
    induction n as [k x|k q|k i items IH|k i o IH|k i bt f IHt IHf|k i co] using node_induction; cbn [required_of]; try reflexivity.
    - apply R.
    - rewrite (mapr_each (required_of cx) (required_of cx')); [reflexivity|]. apply Forall_forall. exact IH.
    - destruct o as [x|]; [apply (IH x eq_refl)|reflexivity].
    - destruct (e_result _) as [[|]|]; [exact IHt| |reflexivity]. destruct f as [x|]; [apply (IHf x eq_refl)|reflexivity].
    - destruct co as [[k' r]|]; [apply R|reflexivity].
  Qed.
End Agree.

(** ** C178 *)
Lemma waiver_kind x : plain_waiver x -> is_insert x = false /\ is_value x = false /\ Exceptions.is_override x = true /\ (forall k, ex_act x <> ABlock k).
Proof. intros [[s H] _]. unfold is_insert, is_value, Exceptions.is_override. rewrite H. split; [reflexivity|]. split; [reflexivity|]. split; [reflexivity|]. intros k E. discriminate E. Qed.
Lemma kinds_same (f : exc -> bool) l l' : (forall x, plain_waiver x -> f x = false) -> but_for_waivers l l' -> filter f l = filter f l'.
Proof.
  intros F B. induction B as [|x l l' B IH|x l l' W B IH|x l l' W B IH]; cbn [filter]; [reflexivity| | |]; [rewrite IH; reflexivity|rewrite (F x W); exact IH|rewrite (F x W); exact IH].
Qed.
Lemma at_path l p : exc_at (group_exceptions l) p = filter (fun x => path_eqb (ex_path x) p) l.
Proof. apply groups_ok. Qed.
Lemma filter_twice {A} (f g : A -> bool) l : filter f (filter g l) = filter (fun x => g x && f x)%bool l.
Proof. induction l as [|x l IH]; cbn; [reflexivity|]. destruct (g x); cbn; [destruct (f x)|]; rewrite IH; reflexivity. Qed.
Lemma find_filter {A} (f : A -> bool) l : find f l = match filter f l with x :: _ => Some x | [] => None end.
Proof. induction l as [|x l IH]; cbn; [reflexivity|]. destruct (f x); [reflexivity|exact IH]. Qed.
Lemma inserts_agree l l' p : but_for_waivers l l' -> get_inserts (group_exceptions l) p = get_inserts (group_exceptions l') p.
Proof.
  intro B. unfold get_inserts. rewrite !at_path, !filter_twice. apply kinds_same; [|exact B]. intros x W. destruct (waiver_kind x W) as [-> _]. apply andb_false_r.
Qed.
Lemma values_agree l l' p : but_for_waivers l l' -> get_value (group_exceptions l) p = get_value (group_exceptions l') p.
Proof.
  intro B. unfold get_value. rewrite !at_path, !find_filter, !filter_twice. rewrite (kinds_same (fun x => path_eqb (ex_path x) p && is_value x)%bool l l'); [reflexivity| |exact B]. intros x W. destruct (waiver_kind x W) as [_ [-> _]]. apply andb_false_r.
Qed.
Lemma waives_agree l l' p : but_for_waivers l l' -> (forall x, plain_waiver x -> ex_path x <> p) -> exc_at (group_exceptions l) p = exc_at (group_exceptions l') p.
Proof.
  intros B N. rewrite !at_path. apply kinds_same; [|exact B]. intros x W. destruct (path_eqb (ex_path x) p) eqn:E; [|reflexivity]. apply path_eqb_iff in E. destruct (N x W E).
Qed.
Lemma blocked_agree l l' : but_for_waivers l l' -> forall n, blocked l n = blocked l' n.
Proof.
  unfold blocked. induction 1 as [|x l l' B IH|x l l' W B IH|x l l' W B IH]; intro n; cbn [fold_left]; [reflexivity|apply IH| |];
    destruct (waiver_kind x W) as [_ [_ [_ NB]]]; destruct (ex_act x) as [| |k| | |]; try apply IH; destruct (NB k eq_refl).
Qed.
(** A waiver of a course, a count, a requirement or a proficiency changes nothing about the rules
    that are loaded: neither the rule tree, nor the limits, nor the common requirements, nor whether the specification can be loaded at
    all. *)
Theorem waivers_leave_the_rules_alone :
  forall c tm st es es' all_emphases s, but_for_waivers es es' -> load_area c tm st es all_emphases s = load_area c tm st es' all_emphases s.
Proof.
  intros c tm st es es' all s B. unfold load_area. cbv zeta.
  assert (SAME : forall d, mkCtx (cx_transcript (load_ctx st es)) (cx_excluded (load_ctx st es)) (cx_failed (load_ctx st es)) (cx_forced (load_ctx st es)) (cx_multi (load_ctx st es)) d (cx_areas (load_ctx st es)) (cx_perf (load_ctx st es)) (cx_att (load_ctx st es)) (cx_prof (load_ctx st es)) =
    mkCtx (cx_transcript (load_ctx st es')) (cx_excluded (load_ctx st es')) (cx_failed (load_ctx st es')) (cx_forced (load_ctx st es')) (cx_multi (load_ctx st es')) d (cx_areas (load_ctx st es')) (cx_perf (load_ctx st es')) (cx_att (load_ctx st es')) (cx_prof (load_ctx st es'))) by reflexivity.
  assert (INS : forall p, get_inserts (cx_exc (load_ctx st es)) p = get_inserts (cx_exc (load_ctx st es')) p) by (intro p; apply inserts_agree, B).
  assert (VAL : forall p, get_value (cx_exc (load_ctx st es)) p = get_value (cx_exc (load_ctx st es')) p) by (intro p; apply values_agree, B).
  assert (WAI : forall p s, sees_waivers s -> get_waive (cx_exc (load_ctx st es)) (p ++ [s]) = get_waive (cx_exc (load_ctx st es')) (p ++ [s])).
  { intros p x SW. unfold get_waive. cbn [load_ctx with_transcript cx_exc]. rewrite (waives_agree es es'); [reflexivity|exact B|]. intros y [_ [_ W]] E. exact (W _ _ E SW). }
  assert (EXP : forall k, has_waive_for_expression (cx_exc (load_ctx st es)) k = has_waive_for_expression (cx_exc (load_ctx st es')) k).
  { intro k. unfold has_waive_for_expression. cbn [load_ctx with_transcript cx_exc]. rewrite (waives_agree es es'); [reflexivity|exact B|]. intros y [_ [[a [b [p E']]] _]] E. congruence. }
  destruct (mapr (check_emphasis c tm st) (ar_emphases s)); cbn [bind]; [|reflexivity].
  rewrite (top_same _ _ c tm SAME INS VAL WAI EXP). destruct (load_top (load_ctx st es') _ _ _ _ _) as [n|]; cbn [bind]; [|reflexivity].
  rewrite (required_same _ _ SAME INS VAL WAI EXP n). destruct (required_of (load_ctx st es') n) as [r|]; cbn [bind]; [|reflexivity].
  rewrite (limits_same _ _ c SAME INS VAL WAI EXP), (prepare_same _ _ c tm SAME INS VAL WAI EXP), (blocked_agree _ _ B). reflexivity.
Qed.
Print Assumptions waivers_leave_the_rules_alone.

(** So an area that is not a major is still passed when such waivers are added (C177). *)
Theorem waivers_do_not_hurt_an_area :
  forall c tm all_emphases s ord nord u st es es' i items, load_area c tm st es all_emphases s = Ok u -> but_for_waivers es es' -> incl es es' ->
  (forall x, Permutation (nord x) x) -> set_order ord -> u_kind u <> "major" -> course_area u es' i items ->
  (forall lt, In lt (g_items (transcripts ord u st es)) -> no_debts (limited_ctx u st es lt) (u_result u) /\
    fair (limited_ctx u st es lt) es items /\ fair (limited_ctx u st es' lt) es' items) ->
  g_exn (area_solutions ord nord u st es) = None -> g_exn (area_solutions ord nord u st es') = None ->
  passed ord nord u st es -> load_area c tm st es' all_emphases s = Ok u /\ passed ord nord u st es'.
Proof.
  intros c tm all s ord nord u st es es' i items L B IN NO SO NM CA FA G G' P. split; [rewrite <- L; symmetry; apply waivers_leave_the_rules_alone, B|].
  apply (further_waivers_do_not_hurt_an_area ord nord u st es es' i items); auto. split; [exact IN|]. intros x k I A. exists x. split; [|exact A].
  clear - B I A. induction B as [|y l l' B IH|y l l' W B IH|y l l' W B IH]; [destruct I| | |].
  - destruct I as [<-|I]; [left; reflexivity|right; auto].
  - right; auto.
  - destruct I as [<-|I]; [|auto]. destruct W as [[s E] _]. congruence.
Qed.
Print Assumptions waivers_do_not_hurt_an_area.

(** A requirement with a count of courses, and a course; all of them are waived. *)
Definition some_rules : aspec :=
  mkAspec (Some "Sample") (Some "concentration") (Some "B.A.") (Some "100") [] (Some (d_all [d_ref "Core"; d_course "B 1"])) (Some [("Core", mkRbody (Some (d_any [d_course "A 1"; d_course "C 1"])) None false false true None false)]) None [] false.
Definition three_waivers : list exc :=
  [mkExc ["$"; ".count"; "[0]"; "%Core"] (AOverride Waived); mkExc ["$"; ".count"; "[1]"; "*B 1"] (AOverride Waived); mkExc ["$"; ".count"; "[0]"; "%Core"; ".count"] (AOverride Done)].
Example waived_rules_example :
  but_for_waivers [] three_waivers /\ incl [] three_waivers /\ Forall plain_waiver three_waivers /\
  (exists u, load_area sample_const [] both_taken three_waivers false some_rules = Ok u) /\
  statuses some_rules both_taken [] = [Some (Done, [Done; Done])] /\ statuses some_rules both_taken three_waivers = [Some (Waived, [Waived; Waived])].
Proof.
  assert (W : Forall plain_waiver three_waivers).
  { repeat constructor; try (eexists; reflexivity); try (eexists _, _, _; reflexivity);
      intros p s E SW; repeat (destruct p as [|? p]; cbn in E; [injection E as <-|injection E as _ E]; try discriminate); try (destruct SW as [SW|[SW|[SW|[]]]]; discriminate SW); destruct p; discriminate. }
  split; [|split; [intros x []|split; [exact W|split; [eexists; vm_compute; reflexivity|split; vm_compute; reflexivity]]]].
  induction W; [constructor|apply bw_right; assumption].
Qed.
(** A waiver of a query is seen when the rule is loaded, and so the rule is another one. *)
Definition query_rules : aspec :=
  mkAspec (Some "Sample") (Some "concentration") (Some "B.A.") (Some "100") [] (Some (mkRd None None None (Some (common_query (one_key "subject" OEq (str_value "A")) "count(courses)" OGte 1)) None None None None)) None None [] false.
Definition query_waiver : exc := mkExc ["$"; ".query"] (AOverride Waived).
Theorem every_waiver_leaves_the_rules_alone_refuted :
  ~ (forall c tm st es x all_emphases s, (exists v, ex_act x = AOverride v) -> load_area c tm st (x :: es) all_emphases s = load_area c tm st es all_emphases s).
Proof.
  intro H. specialize (H sample_const [] both_taken [] query_waiver false query_rules (ex_intro _ Waived eq_refl)). vm_compute in H. discriminate H.
Qed.
Print Assumptions every_waiver_leaves_the_rules_alone_refuted.
