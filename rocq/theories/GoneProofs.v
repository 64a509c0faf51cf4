(** Loading rules with exceptions at paths that the loaders never come to (C183). *)
From Coq Require Import List ZArith QArith Bool Ascii String Lia Permutation.
From Verif Require Import Transcript Prelude Dec Status Course Claims Exceptions Op Context CondExpr Paths Predicate Limit LimitLoad Apply Assertion Query CourseRule Tree Solve Driver Area StudentLoad Run Loader AreaLoad.
From Verif Require Import ListFacts LimitSpec PredicateProofs CondExprProofs ExceptionsProofs LoaderSpec LoaderProofs CourseRuleSpec TreeSpec TreeSolSpec AreaLoadSpec AreaLoadProofs LoaderProps FrameSpec GoneSpec.
Import ListNotations.
Local Open Scope string_scope.
Local Open Scope list_scope.

(** a component of a path that names no requirement *)
Definition unnamed (s : string) : Prop := match s with String "%"%char _ => False | _ => True end.
Lemma ref_defines name n : defines (mkRd None None None None None None None (Some name)) n -> False.
Proof. intro D. inversion D; discriminate. Qed.
Lemma mapr_from {A B} (f : A -> res B) l m : mapr f l = Ok m -> forall y, In y m -> exists x, In x l /\ f x = Ok y.
Proof.
  revert m. induction l as [|x l IH]; intros m E y I; cbn in E; [injection E as <-; destruct I|]. destruct (f x) eqn:F; cbn in E; [|discriminate]. destruct (mapr f l) as [r|]; cbn in E; [|discriminate]. injection E as <-.
  destruct I as [<-|I]; [exists x; split; [left; reflexivity|exact F]|]. destruct (IH r eq_refl y I) as [z [J G]]. exists z. split; [right; exact J|exact G].
Qed.
Lemma dset_all {A} (P : A -> Prop) l : forall (d : list (string * A)), (forall y, In y l -> P (snd y)) -> (forall y, In y d -> P (snd y)) -> forall y, In y (fold_left (fun d x => dset d (fst x) (snd x)) l d) -> P (snd y).
Proof.
  induction l as [|[k v] l IH]; intros d HL HD; cbn [fold_left fst snd]; [exact HD|]. apply IH; [intros y I; apply HL; right; exact I|].
  intros y I. assert (V : P v) by (apply (HL (k, v)); left; reflexivity). clear IH HL. induction d as [|[k' v'] d IHd]; cbn in I.
  - destruct I as [<-|[]]. exact V.
  - destruct (_ =? _); destruct I as [<-|I]; [exact V|apply HD; right; exact I|apply HD; left; reflexivity|apply IHd; [intros z Z; apply HD; right; exact Z|exact I]].
Qed.
Lemma f2_length {A B} (R : A -> B -> Prop) l m : Forall2 R l m -> List.length l = List.length m.
Proof. induction 1; cbn; congruence. Qed.
Section Agree.
  Variables (clean : path -> Prop) (okn : string -> Prop).
  Hypothesis CL : forall p s, clean p -> unnamed s -> clean (p ++ [s]).
  Hypothesis CN : forall p s, clean p -> okn s -> clean (p ++ [("%" ++ s)%string]).
  Variables (cx cx' : ctx) (c : constants) (tm : list (string * list template)).
  Hypothesis SAME : forall d, mkCtx (cx_transcript cx) (cx_excluded cx) (cx_failed cx) (cx_forced cx) (cx_multi cx) d (cx_areas cx) (cx_perf cx) (cx_att cx) (cx_prof cx) =
    mkCtx (cx_transcript cx') (cx_excluded cx') (cx_failed cx') (cx_forced cx') (cx_multi cx') d (cx_areas cx') (cx_perf cx') (cx_att cx') (cx_prof cx').
  Hypothesis AT : forall p, clean p -> exc_at (cx_exc cx) p = exc_at (cx_exc cx') p.
  Hypothesis EXP : forall k, has_waive_for_expression (cx_exc cx) k = has_waive_for_expression (cx_exc cx') k.

  Lemma INS p : clean p -> get_inserts (cx_exc cx) p = get_inserts (cx_exc cx') p.
  Proof. intro H. unfold get_inserts. rewrite (AT p H). reflexivity. Qed.
  Lemma VAL p : clean p -> get_value (cx_exc cx) p = get_value (cx_exc cx') p.
  Proof. intro H. unfold get_value. rewrite (AT p H). reflexivity. Qed.
  Lemma WAI p : clean p -> get_waive (cx_exc cx) p = get_waive (cx_exc cx') p.
  Proof. intro H. unfold get_waive. rewrite (AT p H). reflexivity. Qed.
  Lemma eval_same f a : eval_pfun cx f a = eval_pfun cx' f a.
  Proof.
    assert (S := SAME []). clear AT. destruct cx as [x1 x2 x3 x4 x5 x6 x7 x8 x9 x10], cx' as [y1 y2 y3 y4 y5 y6 y7 y8 y9 y10]. cbn in S. injection S as <- <- <- <- <- <- <- <- <-. cbn [cx_exc] in EXP.
    destruct f; cbn [eval_pfun]; try reflexivity. cbn [cx_exc]. rewrite EXP. reflexivity.
  Qed.
  Lemma forced_same k : forced_by_clbid cx k = forced_by_clbid cx' k.
  Proof. assert (S := SAME []). clear AT EXP. destruct cx, cx'. cbn in S. injection S as <- <- <- <- <- <- <- <- <-. reflexivity. Qed.
  Lemma mapr_each {A B} (f g : A -> res B) l : Forall (fun x => f x = g x) l -> mapr f l = mapr g l.
  Proof. induction 1 as [|x l E _ IH]; cbn; [reflexivity|]. rewrite E, IH. reflexivity. Qed.
  Lemma expr_same x : load_expr cx x = load_expr cx' x.
  Proof. induction x as [l IH|l IH|x IH|f a|f a|] using xdata_ind'; cbn [load_expr]; try reflexivity; [rewrite (mapr_each _ _ _ IH)|rewrite (mapr_each _ _ _ IH)|rewrite IH|rewrite eval_same]; reflexivity. Qed.
  Lemma evaluated x e0 : load_expr cx' x = Ok e0 -> forall k, evaluate k e0 = Ok e0.
  Proof.
    destruct x; cbn [load_expr]; try discriminate; [destruct (mapr _ _)|destruct (mapr _ _)|destruct (load_expr cx' x)|destruct (eval_pfun cx' _ _)]; cbn [bind]; try discriminate; intro H; injection H as <-; reflexivity.
  Qed.
  Lemma predicate_same m w : load_predicate cx c m w = load_predicate cx' c m w.
  Proof.
    induction w as [l IH|l IH|x IH|x t IH|x t e IHt IHe|l] using wdata_ind'; cbn [load_predicate]; try reflexivity; [rewrite (mapr_each _ _ _ IH)|rewrite (mapr_each _ _ _ IH)|rewrite IH|rewrite expr_same, IH|rewrite expr_same, IHt, IHe]; reflexivity.
  Qed.
  Lemma limits_same o : load_limits cx c o = load_limits cx' c o.
  Proof.
    destruct o as [l|]; [|reflexivity]. cbn [load_limits]. rewrite (mapr_each (load_limit cx c) (load_limit cx' c) l); [reflexivity|]. apply Forall_forall. intros r _. unfold load_limit.
    destruct (get _ _); try reflexivity; destruct (rl_extra r); try reflexivity; destruct (rl_where r); cbn [bind Keys.key]; try reflexivity; rewrite predicate_same; reflexivity.
  Qed.
  Lemma single_same m p r : clean p -> load_single_assertion cx c m p r = load_single_assertion cx' c m p r.
  Proof.
    intro CP. assert (CA : clean (p ++ [".assert"])) by (apply CL; [exact CP|exact Logic.I]). unfold load_single_assertion. rewrite (VAL _ CA), (WAI _ CA).
    assert (CH : forall l, mapr (load_change cx) l = mapr (load_change cx') l).
    { intro l. apply mapr_each. apply Forall_forall. intros d _. unfold load_change. rewrite expr_same. destruct (load_expr cx' (fst d)) as [e0|] eqn:E; cbn [bind]; [|reflexivity]. rewrite !(evaluated _ _ E). reflexivity. }
    destruct (rw_where r) as [w|]; [rewrite predicate_same; destruct (load_predicate cx' c m w); cbn [bind]; [|reflexivity]|cbn [bind]];
      (destruct (rw_assert r) as [|[name v] [|? ?]]; try reflexivity; destruct (find _ _); try reflexivity; destruct (av_ops v) as [|[op raw] [|? ?]]; try reflexivity; destruct op; try reflexivity; rewrite CH; reflexivity).
  Qed.
  Lemma any_same m p r : clean p -> load_any cx c m p r = load_any cx' c m p r.
  Proof.
    intro CP. assert (CT : clean (p ++ ["/t"])) by (apply CL; [exact CP|exact Logic.I]). assert (CF : clean (p ++ ["/f"])) by (apply CL; [exact CP|exact Logic.I]).
    destruct r as [x|x t [e|]|x t]; cbn [load_any]; rewrite ?expr_same, ?(single_same _ _ _ CP), ?(single_same _ _ _ CT), ?(single_same _ _ _ CF); reflexivity.
  Qed.
  Lemma two (p : path) s t : p ++ [s; t] = (p ++ [s]) ++ [t].
  Proof. rewrite <- app_assoc. reflexivity. Qed.
  Lemma clean_two p s t : clean p -> unnamed s -> unnamed t -> clean (p ++ [s; t]).
  Proof. intros. rewrite two. auto. Qed.
  Lemma all_same m p l : clean p -> forall i, load_all cx c m p i l = load_all cx' c m p i l.
  Proof. intro CP. induction l as [|r l IH]; intro i; [reflexivity|]. cbn [load_all]. rewrite any_same, IH by (apply clean_two; [exact CP|exact Logic.I|exact Logic.I]). reflexivity. Qed.
  Lemma query_same p q : clean p -> load_query cx c p q = load_query cx' c p q.
  Proof.
    intro CP. assert (CQ : clean (p ++ [".query"])) by (apply CL; [exact CP|exact Logic.I]). unfold load_query. destruct (source_of _) as [s|]; cbn [bind]; [|reflexivity]. rewrite limits_same, (WAI _ CQ).
    destruct (rq_where q) as [w|]; [rewrite predicate_same|]; destruct (rq_assert q), (rq_all q); rewrite ?(all_same _ _ _ CQ); reflexivity.
  Qed.

  Definition loads_same (a b : loader) : Prop := forall p, clean p -> a p = b p.
  Definition env_same (a b : children) : Prop := Forall2 (fun x y => fst x = fst y /\ loads_same (snd x) (snd y)) a b.
  Definition item_same (a b : Loader.item) : Prop := fst a = fst b /\ forall e e' p, env_same e e' -> clean p -> snd a e p = snd b e' p.
  Definition adds_same (a b : list addition) : Prop := Forall2 (fun x y => fst x = fst y /\ loads_same (snd x) (snd y)) a b.
  Definition res_same {A} (R : A -> A -> Prop) (a b : res A) : Prop := match a, b with Ok x, Ok y => R x y | Err e, Err e' => e = e' | _, _ => False end.
  Lemma dget_same e e' k : env_same e e' -> match dget e k, dget e' k with Some a, Some b => loads_same a b | None, None => True | _, _ => False end.
  Proof.
    induction 1 as [|[a f] [b g] e e' [E H] _ IH]; cbn in *; [exact Logic.I|]. subst b. destruct (_ =? _); [exact H|exact IH].
  Qed.
  Lemma named_same e e' name p : env_same e e' -> clean p -> load_named e name p = load_named e' name p.
  Proof. intros E CP. unfold load_named. assert (H := dget_same e e' name E). destruct (dget e name), (dget e' name); try contradiction; [apply H, CP|reflexivity]. Qed.
  Lemma dset_same e e' k f g : env_same e e' -> loads_same f g -> env_same (dset e k f) (dset e' k g).
  Proof.
    intros E L. induction E as [|[a f0] [b g0] e e' [E0 H] E IH]; cbn in *; [constructor; [auto|constructor]|]. subst b. destruct (_ =? _); constructor; auto.
  Qed.
  Lemma added_same a b : adds_same a b -> forall e e', env_same e e' ->
    env_same (fold_left (fun d a => dset d (snd (fst a)) (snd a)) a e) (fold_left (fun d a => dset d (snd (fst a)) (snd a)) b e').
  Proof. induction 1 as [|[k f] [k' g] a b [E H] _ IH]; intros e e' EE; cbn [fold_left fst snd] in *; [exact EE|]. subst k'. apply IH. apply dset_same; auto. Qed.
  Lemma load_items_same l l' : Forall2 item_same l l' -> forall i e e' p, env_same e e' -> clean p -> load_items i e p l = load_items i e' p l'.
  Proof.
    induction 1 as [|[em f] [em' g] l l' [E H] _ IH]; intros i e e' p EE CP; cbn [load_items]; [reflexivity|]. cbn [fst snd] in *. subst em'.
    rewrite (H e e' _ EE), (IH (S i) e e' p EE CP); [reflexivity|]. destruct em as [s|]; [destruct (s =? "")|]; (apply CL; [exact CP|exact Logic.I]).
  Qed.
  Lemma item_refl r : item_same (course_item r) (course_item r).
  Proof. split; reflexivity. Qed.
  Lemma emphasis_same a b : adds_same a b -> Forall2 item_same (map emphasis_item a) (map emphasis_item b).
  Proof.
    induction 1 as [|[k f] [k' g] a b [E H] _ IH]; cbn [map]; constructor; auto. cbn [fst snd] in *. subst k'. split; [reflexivity|]. intros e e' p EE CP. cbn. f_equal. apply named_same; [exact EE|exact CP].
  Qed.
  Lemma inserted_same e : inserted_item cx e = inserted_item cx' e.
  Proof. unfold inserted_item. rewrite forced_same. reflexivity. Qed.
  Lemma count_same k own own' adds adds' e e' p : res_same (Forall2 item_same) own own' -> res_same adds_same adds adds' -> env_same e e' -> clean p ->
    load_count cx c k own adds e p = load_count cx' c k own' adds' e' p.
  Proof.
    intros O A EE CP0. assert (CP : clean (p ++ [".count"])) by (apply CL; [exact CP0|exact Logic.I]). unfold load_count. destruct own as [o|], own' as [o'|]; cbn in O; try contradiction; cbn [bind]; [|congruence].
    destruct adds as [a|], adds' as [a'|]; cbn in A; try contradiction; cbn [bind]; [|congruence].
    rewrite (INS _ CP), (mapr_each (inserted_item cx) (inserted_item cx')) by (apply Forall_forall; intros x _; apply inserted_same).
    destruct (mapr (inserted_item cx') _) as [ins|]; cbn [bind]; [|reflexivity].
    assert (AU : match rk_audit k with Some l => load_audits cx c (p ++ [".count"]) l | None => Ok [] end = match rk_audit k with Some l => load_audits cx' c (p ++ [".count"]) l | None => Ok [] end).
    { destruct (rk_audit k) as [l|]; [|reflexivity]. unfold load_audits. apply mapr_each. apply Forall_forall. intros x _. apply any_same. apply clean_two; [exact CP|exact Logic.I|exact Logic.I]. }
    rewrite AU. rewrite (load_items_same (o ++ map emphasis_item a ++ map course_item ins) (o' ++ map emphasis_item a' ++ map course_item ins)) with (e' := fold_left (fun d a => dset d (snd (fst a)) (snd a)) a' e').
    - assert (LE : List.length o = List.length o') by (eapply f2_length; eauto). assert (LA : List.length a = List.length a') by (eapply f2_length; eauto).
      rewrite !app_length, !map_length, LE, LA. reflexivity.
    - apply Forall2_app; [exact O|]. apply Forall2_app; [apply emphasis_same, A|]. clear - ins. induction ins; constructor; auto using item_refl.
    - apply added_same; auto.
    - exact CP.
  Qed.
  Lemma conditional_same x t t' f f' p : match t, t' with Some a, Some b => forall p, clean p -> a p = b p | None, None => True | _, _ => False end ->
    match f, f' with Some a, Some b => forall p, clean p -> a p = b p | None, None => True | _, _ => False end -> clean p -> load_conditional cx x t f p = load_conditional cx' x t' f' p.
  Proof.
    intros T F CP0. assert (CP : clean (p ++ [".cond"])) by (apply CL; [exact CP0|exact Logic.I]). assert (CT : clean ((p ++ [".cond"]) ++ ["/t"])) by (apply CL; [exact CP|exact Logic.I]). assert (CF : clean ((p ++ [".cond"]) ++ ["/f"])) by (apply CL; [exact CP|exact Logic.I]).
    unfold load_conditional. rewrite expr_same, (WAI _ CP). destruct t, t'; try contradiction; rewrite ?(T _ CT); destruct f, f'; try contradiction; rewrite ?(F _ CF); reflexivity.
  Qed.
  Lemma requirement_same b f f' name p : match f, f' with Some a, Some b => forall p, clean p -> a p = b p | None, None => True | _, _ => False end -> okn name -> clean p -> load_requirement b f name p = load_requirement b f' name p.
  Proof. intros F ON CP. unfold load_requirement. destruct f, f'; try contradiction; rewrite ?(F _ (CN _ _ CP ON)); reflexivity. Qed.

  Definition ok_data (d : rdata) : Prop := forall n, defines d n -> okn n.
  Definition ok_body (b : rbody) : Prop := forall n, defines_in b n -> okn n.
  Definition same_data (d : rdata) : Prop := ok_data d -> forall adds adds' e e' p, res_same adds_same adds adds' -> env_same e e' -> clean p -> load_rule cx c tm d adds e p = load_rule cx' c tm d adds' e' p.
  Definition same_body (b : rbody) : Prop := ok_body b -> forall name p, okn name -> clean p -> load_body cx c tm b name p = load_body cx' c tm b name p.
  Lemma no_adds : res_same adds_same (Ok []) (Ok []).
  Proof. constructor. Qed.
  Lemma expand_same l : (forall d, In d l -> same_data d) -> (forall d, In d l -> ok_data d) -> res_same (Forall2 item_same) (expand cx c tm l) (expand cx' c tm l).
  Proof.
    induction l as [|y l IH]; intros H K; [constructor|]. cbn [expand]. assert (IH' := IH (fun d I => H d (or_intror I)) (fun d I => K d (or_intror I))).
    assert (X : res_same (Forall2 item_same) match rd_template y with Some key => template_items tm key | None => Ok [(None, load_rule cx c tm y (Ok []))] end
      match rd_template y with Some key => template_items tm key | None => Ok [(None, load_rule cx' c tm y (Ok []))] end).
    { destruct (rd_template y) as [key|].
      - unfold template_items. destruct (mapr _ _) as [os|]; cbn; [|reflexivity]. induction os as [|[r|] os IHo]; cbn; constructor; auto using item_refl. split; reflexivity.
      - cbn. constructor; [|constructor]. split; [reflexivity|]. intros e e' p EE CP. cbn. apply (H y (or_introl eq_refl)); [apply K; left; reflexivity|apply no_adds|exact EE|exact CP]. }
    destruct (match rd_template y with Some key => template_items tm key | None => Ok [(None, load_rule cx c tm y (Ok []))] end) as [h|], (match rd_template y with Some key => template_items tm key | None => Ok [(None, load_rule cx' c tm y (Ok []))] end) as [h'|];
      cbn in X; try contradiction; cbn [bind]; [|exact X].
    destruct (expand cx c tm l) as [r|], (expand cx' c tm l) as [r'|]; cbn in IH' |- *; try contradiction; [|exact IH']. apply Forall2_app; assumption.
  Qed.
  Lemma rules_same : (forall d, same_data d) /\ (forall b, same_body b).
  Proof.
    apply spec_induction.
    - intros d IC IK IN OK adds adds' e e' p A EE CP. rewrite !load_rule_eq. destruct (rd_prof d); [reflexivity|]. destruct (rd_course d); [reflexivity|].
      destruct (rd_query d) as [q|]; [rewrite (query_same p q CP); reflexivity|].
      destruct (rd_cond d) as [x|] eqn:EC.
      { destruct IC as [IT IE]. apply conditional_same; [destruct (rn_then x) as [y|] eqn:ET|destruct (rn_else x) as [y|] eqn:EF|exact CP]; try exact Logic.I; intros q CQ; [apply IT|apply IE]; auto using no_adds; intros n D; apply OK; [eapply df_then|eapply df_else]; eauto. }
      destruct (rd_count d) as [k|] eqn:EK.
      { destruct IK as (I1 & I2 & I3 & I4 & I5). unfold some_node. f_equal. apply count_same; auto. unfold rk_items.
        assert (OI : forall l, listed k l -> forall y, In y l -> ok_data y) by (intros l LI y I n D; apply OK; eapply df_item; eauto).
        destruct (rk_all k) eqn:K1; [apply expand_same; [exact I1|apply OI; constructor; assumption]|]. destruct (rk_any k) eqn:K2; [apply expand_same; [exact I2|apply OI; constructor; assumption]|].
        destruct (rk_both k) eqn:K3; [apply expand_same; [exact I3|apply OI; constructor; assumption]|]. destruct (rk_either k) eqn:K4; [apply expand_same; [exact I4|apply OI; constructor; assumption]|].
        destruct (rk_of k) eqn:K5; [apply expand_same; [exact I5|apply OI; constructor; assumption]|]. reflexivity. }
      destruct (rd_name d) as [[name b]|] eqn:EN; [unfold some_node; f_equal; apply IN; [intros n D; apply OK; eapply df_body; eauto|apply OK; eapply df_name; eauto|exact CP]|].
      destruct (rd_req d) as [name|]; [|reflexivity]. unfold some_node. f_equal. apply named_same; [exact EE|exact CP].
    - intros b ID IR OK name p ON CP. rewrite !load_body_eq. apply requirement_same; [|exact ON|exact CP]. destruct (rb_result b) as [d|] eqn:ER; [|exact Logic.I]. intros q CQ. apply ID; [intros n D; apply OK; eapply di_result; eauto|apply no_adds| |exact CQ].
      assert (OR : forall l, rb_reqs b = Some l -> forall s b', In (s, b') l -> okn s /\ ok_body b') by (intros l EL s b' I; split; [apply OK; eapply di_req; eauto|intros n D; apply OK; eapply di_body; eauto]).
      destruct (rb_reqs b) as [l|]; [|constructor]. specialize (OR l eq_refl). cbn [all_reqs] in IR. induction l as [|[s b'] l IH]; cbn [map]; constructor.
      + split; [reflexivity|]. intros q' CQ'. destruct (OR s b' (or_introl eq_refl)). apply (IR s b'); [left; reflexivity| | |]; assumption.
      + apply IH; [intros s' b'' I; apply (IR s' b''); right; exact I|intros s' b'' I; apply (OR s' b''); right; exact I].
  Qed.
  Lemma common_same name b i : okn name -> ok_body b -> clean (common_path i) -> load_common cx c tm name b i = load_common cx' c tm name b i.
  Proof.
    intros ON OB CP. unfold load_common. rewrite (proj1 rules_same _ (fun n D => match ref_defines name n D with end) (Ok []) (Ok []) _ [(name, load_body cx' c tm b name)]); [reflexivity|apply no_adds| |exact CP].
    constructor; [|constructor]. split; [reflexivity|]. intros p CP'. apply rules_same; assumption.
  Qed.
  Lemma prepare_same degree dept areas code : (forall s, okn s) -> (forall i, clean (common_path i)) -> prepare_common cx c tm degree dept areas code = prepare_common cx' c tm degree dept areas code.
  Proof. intros ON CP. unfold prepare_common. rewrite !common_same; try apply CP; try apply ON; try (intros n _; apply ON). reflexivity. Qed.
  Definition ok_emphasis (x : emphasis) : Prop := (forall t, okn ("Emphasis: " ++ t)) /\ ok_body (em_body x).
  Lemma additions_same x : ok_emphasis x -> res_same adds_same (additions_of cx c tm x) (additions_of cx' c tm x).
  Proof.
    intros [OE OB]. unfold additions_of. destruct (em_name x) as [name|]; cbn [bind]; [|reflexivity]. destruct (rb_result (em_body x)) as [d|] eqn:ER; cbn [bind]; [|reflexivity].
    destruct (if has (rb_reqs (em_body x)) then _ else _) as [h|]; cbn [bind]; [|reflexivity].
    assert (OK1 : forall k, okn (("Emphasis: " ++ name) ++ " → " ++ k)%string) by (intro k; exact (OE (name ++ " → " ++ k)%string)).
    destruct (_ && _ && _)%bool.
    - destruct (rb_reqs (em_body x)) as [l|] eqn:EQ.
      + cbn [bind res_same]. assert (OL : forall y, In y l -> ok_body (snd y)) by (intros [s b] I n D; apply OB; eapply di_body; eauto).
        clear EQ. induction l as [|y l IH]; cbn [map]; constructor; [|apply IH; intros z I; apply OL; right; exact I]. split; [reflexivity|]. intros p CP. apply rules_same; [apply OL; left; reflexivity|apply OK1|exact CP].
      + destruct (mapr _ _) as [l|] eqn:EM; cbn [bind res_same]; [|reflexivity].
        assert (OL : forall y, In y l -> ok_body (snd y)).
        { intros y I. destruct (mapr_from _ _ _ EM y I) as [r [J R]]. destruct (rd_name r) as [[s b]|] eqn:EN; [|discriminate R]. injection R as <-. destruct (rd_count d) as [k|] eqn:EC; [|destruct J]. destruct (rk_all k) as [ll|] eqn:EA; [|destruct J].
          intros n D. apply OB. eapply di_result; [exact ER|]. eapply df_item; [exact EC|apply li_all; exact EA|exact J|]. eapply df_body; eauto. }
        assert (OL' : forall y, In y (fold_left (fun d x => dset d (fst x) (snd x)) l []) -> ok_body (snd y)) by (apply dset_all; [exact OL|intros y []]).
        clear EM OL. revert OL'. generalize (fold_left (fun d x => dset d (fst x) (snd x)) l []). intros l' OL'.
        induction l' as [|y l' IH]; cbn [map]; constructor; [|apply IH; intros z I; apply OL'; right; exact I]. split; [reflexivity|]. intros p CP. apply rules_same; [apply OL'; left; reflexivity|apply OK1|exact CP].
    - cbn. constructor; [|constructor]. split; [reflexivity|]. intros p CP. apply rules_same; [exact OB|apply OE|exact CP].
  Qed.
  Lemma top_same d reqs ems : clean ["$"] -> (forall y, d = Some y -> ok_data y) -> (forall k b, In (k, b) (reqs_of reqs) -> okn k /\ ok_body b) -> (forall x, In x ems -> ok_emphasis x) ->
    load_top cx c tm d reqs ems = load_top cx' c tm d reqs ems.
  Proof.
    intros CP OD OR OE. unfold load_top. destruct d as [d|]; [|reflexivity].
    assert (A : res_same adds_same (let! l := mapr (additions_of cx c tm) ems in Ok (List.concat l)) (let! l := mapr (additions_of cx' c tm) ems in Ok (List.concat l))).
    { assert (X : res_same (Forall2 adds_same) (mapr (additions_of cx c tm) ems) (mapr (additions_of cx' c tm) ems)).
      { induction ems as [|x ems IH]; [constructor|]. cbn [mapr]. assert (H := additions_same x (OE x (or_introl eq_refl))). specialize (IH (fun y I => OE y (or_intror I))). destruct (additions_of cx c tm x) as [a|], (additions_of cx' c tm x) as [a'|]; cbn in H; try contradiction; cbn [bind]; [|exact H].
        destruct (mapr (additions_of cx c tm) ems), (mapr (additions_of cx' c tm) ems); cbn in IH |- *; try contradiction; [constructor; auto|exact IH]. }
      destruct (mapr (additions_of cx c tm) ems), (mapr (additions_of cx' c tm) ems); cbn in X |- *; try contradiction; [|exact X]. induction X; cbn; [constructor|]. apply Forall2_app; assumption. }
    assert (E : env_same (map (fun x => (fst x, load_body cx c tm (snd x) (fst x))) (reqs_of reqs)) (map (fun x => (fst x, load_body cx' c tm (snd x) (fst x))) (reqs_of reqs))).
    { induction (reqs_of reqs) as [|[k b] l IH]; cbn [map]; constructor; [|apply IH; intros k' b' I; apply (OR k' b'); right; exact I]. split; [reflexivity|]. intros p CQ. destruct (OR k b (or_introl eq_refl)). apply rules_same; assumption. }
    rewrite (proj1 rules_same d (OD d eq_refl) _ _ _ _ ["$"] A E CP). reflexivity.
  Qed.
  Lemma required_same n : (forall y p, part_of n y -> In p (FrameSpec.places y) -> clean p) -> required_of cx n = required_of cx' n.
  Proof.
    assert (R : forall r, clean (r_path r) -> c_required cx r = c_required cx' r).
    { intros r CP. unfold c_required, c_matches, c_insert_matches. rewrite (INS _ CP). generalize (get_inserts (cx_exc cx') (r_path r)). intro is. assert (S := SAME []). clear AT EXP. destruct cx, cx'. cbn in S. injection S as <- <- <- <- <- <- <- <- <-. reflexivity. }
    induction n as [k x|k q|k i items IH|k i o IH|k i bt f IHt IHf|k i co] using node_induction; cbn [required_of]; intro P; try reflexivity.
    - apply R. apply (P _ _ (pt_self _)). left. reflexivity.
    - rewrite (mapr_each (required_of cx) (required_of cx')); [reflexivity|]. apply Forall_forall. intros x I. apply (IH x I). intros y p Y. apply P. eapply pt_count; eauto.
    - destruct o as [x|]; [apply (IH x eq_refl); intros y p Y; apply P; apply pt_req; exact Y|reflexivity].
    - destruct (e_result _) as [[|]|]; [apply IHt; intros y p Y; apply P; apply pt_true; exact Y| |reflexivity]. destruct f as [x|]; [apply (IHf x eq_refl); intros y p Y; apply P; apply pt_false; exact Y|reflexivity].
    - destruct co as [[k' r]|]; [apply R; apply (P _ _ (pt_self _)); right; left; reflexivity|reflexivity].
  Qed.
End Agree.

Section Parts.
  Variables (clean : path -> Prop) (okn : string -> Prop).
  Hypothesis CL : forall p s, clean p -> unnamed s -> clean (p ++ [s]).
  Hypothesis CN : forall p s, clean p -> okn s -> clean (p ++ [("%" ++ s)%string]).
  Variables (cx : ctx) (c : constants) (tm : list (string * list template)).

  Definition fine_assertion (a : any_assertion) : Prop := decided_assertion a /\ forall v, In v (variants a) -> clean (as_path v).
  (** the paths of the parts of a tree lie at or beneath its own *)
  Definition tidy_tree (n : node) : Prop := forall x, part_of n x ->
    (forall q, In q (FrameSpec.places x) -> clean q /\ exists r, q = path_of n ++ r) /\ forall a, In a (own_assertions x) -> fine_assertion a.
  Definition good (p : path) (n : node) : Prop := tidy_tree n /\ exists s, path_of n = p ++ [s] /\
    match n with NCount _ _ items => s = ".count" /\ forall x, In x items -> tidy_tree x /\ exists a b, path_of x = p ++ [".count"; a; b] | _ => s <> ".count" end.

  Lemma expr_decided x e0 : load_expr cx x = Ok e0 -> e_result e0 <> None.
  Proof.
    destruct x; cbn [load_expr]; try discriminate; [destruct (mapr _ _)|destruct (mapr _ _)|destruct (load_expr cx x)|destruct (eval_pfun cx _ _)]; cbn [bind]; try discriminate; intro H; injection H as <-; discriminate.
  Qed.
  Lemma single_path m p r a : load_single_assertion cx c m p r = Ok a -> as_path a = p ++ [".assert"].
  Proof.
    unfold load_single_assertion. destruct (match rw_where r with Some _ => _ | None => _ end); cbn [bind]; [|discriminate]. destruct (rw_assert r) as [|[name v] [|? ?]]; try discriminate.
    destruct (find _ _); [|discriminate]. destruct (av_ops v) as [|[op raw] [|? ?]]; try discriminate.
    destruct op; try discriminate; destruct (mapr _ _); cbn [bind]; try discriminate; destruct (load_as_expected _ _); cbn [bind]; try discriminate; destruct (av_bad v); try discriminate; intro H; injection H as <-; reflexivity.
  Qed.
  Lemma any_fine m p r a : clean p -> load_any cx c m p r = Ok a -> fine_assertion a.
  Proof.
    intros CP L. assert (ONE : forall q r v, clean q -> load_single_assertion cx c m q r = Ok v -> clean (as_path v)) by (intros q r0 v CQ E; rewrite (single_path _ _ _ _ E); apply CL; [exact CQ|exact Logic.I]).
    assert (CT : clean (p ++ ["/t"])) by (apply CL; [exact CP|exact Logic.I]). assert (CF : clean (p ++ ["/f"])) by (apply CL; [exact CP|exact Logic.I]).
    destruct r as [x|x t e|x t]; cbn [load_any] in L.
    - destruct (load_single_assertion _ _ _ _ _) as [v|] eqn:E; cbn [bind] in L; [|discriminate]. injection L as <-. split; [exact Logic.I|]. intros y [<-|[]]. exact (ONE _ _ _ CP E).
    - destruct (load_expr cx x) as [ce|] eqn:EX; cbn [bind] in L; [|discriminate]. destruct (load_single_assertion _ _ _ _ t) as [v|] eqn:E; cbn [bind] in L; [|discriminate].
      destruct e as [y|].
      + destruct (load_single_assertion _ _ _ _ y) as [w|] eqn:EF; cbn [bind] in L; [|discriminate]. injection L as <-. split; [exact (expr_decided _ _ EX)|]. intros z [<-|[<-|[]]]; [exact (ONE _ _ _ CT E)|exact (ONE _ _ _ CF EF)].
      + cbn [bind] in L. injection L as <-. split; [exact (expr_decided _ _ EX)|]. intros z [<-|[]]. exact (ONE _ _ _ CT E).
    - destruct m; try discriminate L. destruct (load_dyn x); cbn [bind] in L; [|discriminate]. destruct (load_single_assertion _ _ _ _ t) as [v|] eqn:E; cbn [bind] in L; [|discriminate]. injection L as <-. split; [exact Logic.I|]. intros z [<-|[]]. exact (ONE _ _ _ CT E).
  Qed.
  Lemma clean2 p s t : clean p -> unnamed s -> unnamed t -> clean (p ++ [s; t]).
  Proof. intros A B C. change [s; t] with ([s] ++ [t]). rewrite app_assoc. auto. Qed.
  Lemma all_fine m p l : clean p -> forall i as', load_all cx c m p i l = Ok as' -> forall a, In a as' -> fine_assertion a.
  Proof.
    intro CP. induction l as [|r l IH]; intros i as' L a I; cbn [load_all] in L; [injection L as <-; destruct I|].
    destruct (load_any _ _ _ _ r) as [b|] eqn:E; cbn [bind] in L; [|discriminate]. destruct (load_all _ _ _ _ _ l) as [bs|] eqn:EL; cbn [bind] in L; [|discriminate]. injection L as <-.
    destruct I as [<-|I]; [|exact (IH _ _ EL a I)]. eapply any_fine; [|exact E]. apply clean2; [exact CP|exact Logic.I|exact Logic.I].
  Qed.
  Lemma query_fine p r q : clean p -> load_query cx c p r = Ok q -> q_path q = p ++ [".query"] /\ forall a, In a (q_asserts q) -> fine_assertion a.
  Proof.
    intros CP L. unfold load_query in L. assert (CQ : clean (p ++ [".query"])) by (apply CL; [exact CP|exact Logic.I]).
    destruct (source_of _) as [s|]; cbn [bind] in L; [|discriminate]. destruct (match rq_where r with Some _ => _ | None => _ end); cbn [bind] in L; [|discriminate]. destruct (load_limits _ _ _); cbn [bind] in L; [|discriminate].
    destruct (rq_limits_key r); [discriminate|]. destruct (match rq_assert r with Some _ => _ | None => _ end) as [as'|] eqn:EA; cbn [bind] in L; [|discriminate].
    assert (F : forall a, In a as' -> fine_assertion a) by (destruct (rq_assert r); [|destruct (rq_all r); [|discriminate EA]]; exact (all_fine _ _ _ CQ _ _ EA)).
    destruct as' as [|? ?]; [discriminate|]. destruct (rq_assert r), (rq_all r); try discriminate; destruct (rq_bad r); try discriminate; injection L as <-; (split; [reflexivity|exact F]).
  Qed.
  Lemma course_star p r x : load_course p r = Ok x -> exists s, r_path x = p ++ [String "*" s].
  Proof.
    unfold load_course. assert (N : forall s, c_path_name r = Ok s -> exists t, s = String "*" t).
    { unfold c_path_name. intros s H. destruct (c_label r) as [l|]; cbn [bind] in H; [|discriminate].
      destruct (given (rc_section r)), (given (rc_sub_type r)), (rc_year r); [destruct (rc_term r)| |destruct (rc_term r)| |destruct (rc_term r)| |destruct (rc_term r)|]; cbn [bind] in H; try discriminate;
        destruct (given (rc_institution r)), (given (rc_grade r)); injection H as <-; eexists; reflexivity. }
    destruct (c_path_name r) as [s|]; cbn [bind]; [|discriminate]. destruct (N s eq_refl) as [t ->]. destruct (rc_bad r); [discriminate|]. destruct (negb _); [discriminate|].
    destruct (match rc_grade r with Some _ => _ | None => _ end); cbn [bind]; [|discriminate]. destruct (if given _ then _ else _); cbn [bind]; [|discriminate]. intro H. injection H as <-. eexists. reflexivity.
  Qed.
  Lemma ext_refl (p : path) : exists r, p = p ++ r.
  Proof. exists []. symmetry. apply app_nil_r. Qed.
  Lemma course_good p r x k : clean p -> load_course p r = Ok x -> good p (NCourse k x).
  Proof.
    intros CP L. destruct (course_star _ _ _ L) as [s E]. split; [|exists (String "*" s); split; [exact E|discriminate]]. intros y Y. inversion Y; subst. split; [|intros a []]. intros q [<-|[]]. cbn [path_of]. split; [rewrite E; apply CL; [exact CP|exact Logic.I]|apply ext_refl].
  Qed.
  Definition ok_scope (sc : scope) : Prop := forall k b, sc k = Some b -> okn k /\ ok_body okn b.
  Definition ok_added (ems : list added) : Prop := forall a, In a ems -> okn (snd (fst a)) /\ ok_body okn (snd a).
  Definition ok_entry (e : entry) : Prop := match e with EData d => ok_data okn d | _ => True end.
  Lemma ok_with ems : forall sc, ok_scope sc -> ok_added ems -> ok_scope (with_added sc ems).
  Proof.
    induction ems as [|[[s k] b] ems IH]; intros sc S A; cbn [with_added]; [exact S|]. apply IH; [|intros a I; apply A; right; exact I].
    intros k' b' E. destruct (String.eqb_spec k' k) as [->|_]; [injection E as <-; exact (A _ (or_introl eq_refl))|exact (S _ _ E)].
  Qed.
  Lemma ok_own b : ok_body okn b -> ok_scope (own_scope b).
  Proof.
    intros OK k b' E. unfold own_scope in E. destruct (rb_reqs b) as [l|] eqn:R; [|discriminate].
    assert (I : In (k, b') l). { clear - E. induction l as [|[s y] l IH]; cbn in E; [discriminate|]. destruct (String.eqb_spec k s) as [->|_]; [injection E as <-; left; reflexivity|right; exact (IH E)]. }
    split; [apply OK; eapply di_req; eauto|]. intros n D. apply OK. eapply di_body; eauto.
  Qed.
  Lemma ok_none : ok_added [].
  Proof. intros a []. Qed.
  Lemma expands_ok l es : expands tm l es -> (forall d, In d l -> ok_data okn d) -> forall e, In e es -> ok_entry e.
  Proof.
    induction 1 as [|d l es T X IH|d l es key ts rs T G F X IH|d l es key T G X IH]; intros H e I; [destruct I| | |].
    - destruct I as [<-|I]; [apply H; left; reflexivity|]. apply IH; [|exact I]. intros d' J. apply H. right. exact J.
    - apply in_app_iff in I as [I|I]; [apply in_map_iff in I as [? [<- _]]; exact Logic.I|]. apply IH; [|exact I]. intros d' J. apply H. right. exact J.
    - apply IH; [|exact I]. intros d' J. apply H. right. exact J.
  Qed.
  Lemma audits_fine p i rs l : clean p -> audits_loaded cx c p i rs l -> forall a, In a l -> fine_assertion a.
  Proof. intro CP. induction 1 as [|i r a rs l L _ IH]; intros b I; [destruct I|]. destruct I as [<-|I]; [|exact (IH b I)]. eapply any_fine; [|exact L]. apply clean2; [exact CP|exact Logic.I|exact Logic.I]. Qed.
  Lemma wider (p : path) s r : exists r', (p ++ s) ++ r = p ++ r'.
  Proof. exists (s ++ r). symmetry. apply app_assoc. Qed.

  Lemma parts_all :
    (forall ems sc d p o, written cx c tm ems sc d p o -> clean p -> ok_data okn d -> ok_scope sc -> ok_added ems -> forall n, o = Some n -> good p n) /\
    (forall sc d p o, written_opt cx c tm sc d p o -> clean p -> (forall y, d = Some y -> ok_data okn y) -> ok_scope sc -> forall n, o = Some n -> good p n) /\
    (forall ems sc p i es ns, kids cx c tm ems sc p i es ns -> clean p -> (forall e, In e es -> ok_entry e) -> ok_scope sc -> ok_added ems ->
       forall n, In n ns -> tidy_tree n /\ exists a b, path_of n = p ++ [a; b]) /\
    (forall ems sc e p o, written_entry cx c tm ems sc e p o -> clean p -> ok_entry e -> ok_scope sc -> ok_added ems -> forall n, o = Some n -> good p n) /\
    (forall b name p n, written_body cx c tm b name p n -> clean p -> ok_body okn b -> okn name -> good p n).
  Proof.
    apply written_induction.
    - intros ems sc d p name Sh CP _ _ _ n [=<-]. split; [|eexists; split; [reflexivity|discriminate]]. intros y Y. inversion Y; subst. split; [|intros a []]. intros q [<-|[]]. split; [apply CL; [exact CP|exact Logic.I]|apply ext_refl].
    - intros ems sc d p name r x Sh L CP _ _ _ n [=<-]. split; [|eexists; split; [reflexivity|discriminate]]. intros y Y. inversion Y; subst. split; [|intros a []].
      assert (CF : clean (p ++ [(".proficiency=" ++ name)%string])) by (apply CL; [exact CP|exact Logic.I]). destruct (course_star _ _ _ L) as [s E].
      intros q [<-|[<-|[]]]; [split; [exact CF|apply ext_refl]|]. split; [rewrite E; apply CL; [exact CF|exact Logic.I]|]. rewrite E. cbn [path_of f_path]. eexists. reflexivity.
    - intros ems sc d p r x Sh L CP _ _ _ n [=<-]. exact (course_good _ _ _ _ CP L).
    - intros ems sc d p r x Sh L CP _ _ _ n [=<-]. destruct (query_fine _ _ _ CP L) as [E F]. split; [|exists ".query"; split; [exact E|discriminate]]. intros y Y. inversion Y; subst. split; [|exact F].
      intros q [<-|[]]. split; [rewrite E; apply CL; [exact CP|exact Logic.I]|apply ext_refl].
    - intros ems sc d p x cond t nt nf Sh BD L T WT IT WF IF waived o O H CP OK SC AD n [=<-].
      assert (CC : clean (p ++ [".cond"])) by (apply CL; [exact CP|exact Logic.I]). destruct Sh as (_ & _ & _ & EC).
      assert (GT : good (p ++ [".cond"; "/t"]) nt) by (apply IT; auto using ok_none; [apply clean2; [exact CP|exact Logic.I|exact Logic.I]|intros n D; apply OK; eapply df_then; eauto]).
      assert (GF : forall z, nf = Some z -> good (p ++ [".cond"; "/f"]) z) by (apply IF; auto; [apply clean2; [exact CP|exact Logic.I|exact Logic.I]|intros y E n D; apply OK; eapply df_else; eauto]).
      split; [|exists ".cond"; split; [reflexivity|discriminate]].
      assert (SUB : forall s z y, good (p ++ [".cond"; s]) z -> part_of z y -> (forall q, In q (FrameSpec.places y) -> clean q /\ exists r, q = (p ++ [".cond"]) ++ r) /\ forall a, In a (own_assertions y) -> fine_assertion a).
      { intros s z y [TT [s' [E _]]] Y. destruct (TT y Y) as [A B]. split; [|exact B]. intros q Q0. destruct (A q Q0) as [C0 [r ->]]. split; [exact C0|]. rewrite E. exists (s :: s' :: r). rewrite <- !app_assoc. reflexivity. }
      intros y Y. cbn [path_of d_path]. inversion Y; subst; [|eapply SUB; [exact GT|assumption]|eapply SUB; [apply GF; reflexivity|assumption]]. split; [intros q []|intros a []].
    - intros ems sc d p x cond t nt nf Sh BD L T WT IT WF IF H1 H2 H3 CP OK SC AD n [=].
    - intros ems sc d p k l es ins audits nodes z Sh LI X INS0 entries K IK AU AK BD Z0 Z1 CP OK SC AD n [=<-].
      assert (CC : clean (p ++ [".count"])) by (apply CL; [exact CP|exact Logic.I]). destruct Sh as (_ & _ & _ & _ & EC).
      assert (OE : forall e, In e entries -> ok_entry e).
      { intros e I. apply in_app_iff in I as [I|I]; [|apply in_app_iff in I as [I|I]; apply in_map_iff in I as [? [<- _]]; exact Logic.I]. eapply expands_ok; [exact X| |exact I]. intros d' J n D. apply OK. eapply df_item; eauto. }
      assert (G := IK CC OE SC AD). split.
      + intros y Y. cbn [path_of n_path]. inversion Y; subst.
        * split; [intros q [<-|[]]; split; [exact CC|apply ext_refl]|]. intros a I. eapply audits_fine; [exact CC|exact AU|exact I].
        * match goal with J : In ?w nodes, W : part_of ?w y |- _ => destruct (G w J) as [TT [a [b E]]]; destruct (TT y W) as [A B] end. split; [|exact B].
          intros q Q0. destruct (A q Q0) as [C0 [r ->]]. split; [exact C0|]. rewrite E, <- app_assoc. eexists. reflexivity.
      + exists ".count". split; [reflexivity|]. split; [reflexivity|]. intros w J. destruct (G w J) as [TT [a [b E]]]. split; [exact TT|]. exists a, b. rewrite E, <- app_assoc. reflexivity.
    - intros ems sc d p name b n Sh W IW CP OK SC AD n' [=<-]. destruct Sh as (_ & _ & _ & _ & _ & EN). apply IW; [exact CP|intros m D; apply OK; eapply df_body; eauto|apply OK; eapply df_name; eauto].
    - intros ems sc d p name b n Sh E W IW CP OK SC AD n' [=<-]. destruct (SC _ _ E). apply IW; assumption.
    - intros sc p CP _ _ n [=].
    - intros sc d p o W IW CP OK SC n E. apply IW; auto using ok_none.
    - intros ems sc p i CP _ _ _ n [].
    - intros ems sc p i e es n ns W IW K IK CP OE SC AD n' [<-|I]; [|apply IK; auto; intros e' J; apply OE; right; exact J].
      assert (EP : exists s, entry_path p i e = p ++ [s] /\ unnamed s) by (destruct e as [d|r|[|a s] k]; eexists; (split; [reflexivity|exact Logic.I])).
      destruct EP as [s [EP US]]. rewrite EP in IW. destruct (IW (CL _ _ CP US) (OE e (or_introl eq_refl)) SC AD n eq_refl) as [TT [s' [E _]]]. split; [exact TT|]. exists s, s'. rewrite E, <- app_assoc. reflexivity.
    - intros ems sc p i e es ns W IW K IK CP OE SC AD n I. apply IK; auto. intros e' J. apply OE. right. exact J.
    - intros ems sc d p o W IW CP OE SC AD n E. apply IW; auto using ok_none. apply ok_with; assumption.
    - intros ems sc r p x L CP OE SC AD n [=<-]. exact (course_good _ _ _ _ CP L).
    - intros ems sc s k b p n E W IW CP OE SC AD n' [=<-]. destruct (ok_with ems sc SC AD _ _ E). apply IW; assumption.
    - intros b name p d n BD ER NB W IW RF CP OK ON.
      assert (CC : clean (p ++ [("%" ++ name)%string])) by (apply CN; assumption).
      destruct (IW CC (fun m D => OK m (di_result _ _ _ ER D)) (ok_own _ OK) ok_none n eq_refl) as [TT [s [E _]]]. split; [|eexists; split; [reflexivity|discriminate]].
      intros y Y. cbn [path_of e_path]. inversion Y; subst; [split; [intros q [<-|[]]; split; [exact CC|apply ext_refl]|intros a []]|]. match goal with W : part_of n y |- _ => destruct (TT y W) as [A B] end. split; [|exact B].
      intros q Q0. destruct (A q Q0) as [C0 [r ->]]. split; [exact C0|]. rewrite E, <- app_assoc. eexists. reflexivity.
    - intros b name p BD ER AU NB CP OK ON. split; [|eexists; split; [reflexivity|discriminate]]. intros y Y. inversion Y; subst. split; [|intros a []]. intros q [<-|[]]. split; [apply CN; assumption|apply ext_refl].
  Qed.
  (** the parts that are asked about *)
  Lemma asked_names n q : asked_beneath n q -> names_part n q.
  Proof.
    induction 1 as [k i items x q I [y [Y J]]|k i t f q A [y [Y J]]|k i t x q A [y [Y J]]|n q _ N]; [| | |exact N]; exists y; split; auto; [eapply pt_count; eauto|apply pt_true; exact Y|apply pt_false; exact Y].
  Qed.
  Lemma good_asked p n q : good p n -> asked_beneath n q -> (exists a b r, q = p ++ ".count" :: a :: b :: r) \/ exists s r, s <> ".count" /\ q = p ++ s :: r.
  Proof.
    intros [TT [s [E G]]] A. assert (NC : match n with NCount _ _ _ => False | _ => True end -> s <> ".count" -> exists s0 r, s0 <> ".count" /\ q = p ++ s0 :: r).
    { intros _ N. apply asked_names in A. destruct A as [y [Y I]]. destruct (proj1 (TT y Y) q I) as [_ [r ->]]. exists s, r. split; [exact N|]. rewrite E, <- app_assoc. reflexivity. }
    destruct n as [| |k i items| | |]; try (right; apply NC; [exact Logic.I|exact G]). left. destruct G as [_ G]. inversion A as [? ? ? x p0 I N| | |? ? F]; subst; [|destruct F].
    destruct N as [y [Y J]]. destruct (G x I) as [TX [a [b EX]]]. destruct (proj1 (TX y Y) q J) as [_ [r ->]]. rewrite EX. exists a, b, r. rewrite <- app_assoc. reflexivity.
  Qed.
End Parts.
