(** Proofs: what loads for one student loads for others. *)
From Coq Require Import List ZArith QArith Bool Ascii String Lia.
From Verif Require Import Transcript Prelude Dec Status Course Claims Exceptions Op Context CondExpr Predicate Limit Apply Assertion Query CourseRule Tree Driver Area Loader LimitLoad AreaLoad Validate.
From Verif Require Import CondExprSpec CourseRuleSpec LoaderSpec AreaLoadSpec ValidateSpec OpProofs CondExprProofs PredicateProofs CourseRuleProofs LoaderProofs AreaLoadProofs ListFacts QueryProofs CommonProps.
Import ListNotations.
Local Open Scope string_scope.
Local Open Scope list_scope.

(** ** Lists *)
Lemma mapr_all {A B} (f : A -> res B) l : (forall x, In x l -> exists y, f x = Ok y) -> exists r, mapr f l = Ok r.
Proof.
  induction l as [|a l IH]; intro H; cbn; [eauto|]. destruct (H a (or_introl eq_refl)) as (y & ->). cbn.
  destruct IH as (r & ->); [intros; apply H; now right|]. cbn. eauto.
Qed.
Lemma mapr_each {A B} (f : A -> res B) l r x : mapr f l = Ok r -> In x l -> exists y, f x = Ok y.
Proof. intros H I'. destruct (F2_in_l _ _ _ _ (mapr_ok _ _ _ H) I') as (y & _ & E). eauto. Qed.
Lemma mapr_same {A B C} (f : A -> res B) (g : A -> res C) l r :
  (forall x y, In x l -> f x = Ok y -> exists z, g x = Ok z) -> mapr f l = Ok r -> exists r', mapr g l = Ok r' /\ List.length r' = List.length r.
Proof.
  revert r. induction l as [|a l IH]; cbn; intros r H E; [injection E as <-; eauto|].
  destruct (f a) as [y|] eqn:Fa; cbn in E; [|discriminate]. destruct (mapr f l) as [ys|]; cbn in E; [|discriminate]. injection E as <-.
  destruct (H a y (or_introl eq_refl) Fa) as (z & ->). destruct (IH ys) as (zs & -> & L); [intros; eapply H; [now right|eassumption]|reflexivity|]. cbn. exists (z :: zs). cbn. auto.
Qed.

(** ** Expressions *)
Lemma eval_same cx cx' f a b : eval_pfun cx f a = Ok b -> exists b', eval_pfun cx' f a = Ok b'.
Proof.
  intro H. destruct f; cbn in *; try (eexists; reflexivity).
  - unfold has_ip_course. destruct (any_res_spec (course_filter (by_course_ip a true)) (fun c => c_stolaf c = true /\ c_identity c = a /\ c_in_progress c = true) (cx_transcript cx')) as (x & E & _); [intros; apply filter_by_course_ip|eauto].
  - unfold has_completed_course. destruct (any_res_spec (course_filter (by_course_ip a false)) (fun c => c_stolaf c = true /\ c_identity c = a /\ c_in_progress c = false) (cx_transcript cx')) as (x & E & _); [intros; apply filter_by_course_ip|eauto].
  - unfold has_course. destruct (any_res_spec (course_filter (by_course a)) (fun c => c_stolaf c = true /\ c_identity c = a) (cx_transcript cx')) as (x & E & _); [intros; apply filter_by_course|eauto].
  - unfold passed_exam, proficiency_status, prof_of in *.
    repeat match goal with |- context [String.eqb a ?s] => destruct (String.eqb a s); [cbn; eauto|] end. discriminate.
  - destruct (any_res_spec (course_filter (by_attribute a)) (fun c => c_stolaf c = true /\ In a (c_attributes c)) (cx_transcript cx')) as (x & E & _); [intros; apply filter_by_attribute|eauto].
Qed.
Lemma expr_same cx cx' x : forall e, load_expr cx x = Ok e -> exists e', load_expr cx' x = Ok e'.
Proof.
  induction x as [l IH|l IH|x IH|f a|f a|] using xdata_ind'; cbn; intros e H; try discriminate.
  - destruct (mapr (load_expr cx) l) as [es|] eqn:M; cbn in H; [|discriminate].
    destruct (mapr_same (load_expr cx) (load_expr cx') l es) as (r & -> & _); [|exact M|cbn; eauto]. intros y z I' L. rewrite Forall_forall in IH. eauto.
  - destruct (mapr (load_expr cx) l) as [es|] eqn:M; cbn in H; [|discriminate].
    destruct (mapr_same (load_expr cx) (load_expr cx') l es) as (r & -> & _); [|exact M|cbn; eauto]. intros y z I' L. rewrite Forall_forall in IH. eauto.
  - destruct (load_expr cx x) as [e0|]; cbn in H; [|discriminate]. destruct (IH e0 eq_refl) as (e' & ->). cbn. eauto.
  - destruct (eval_pfun cx f a) as [b|] eqn:V; cbn in H; [|discriminate]. destruct (eval_same cx cx' f a b V) as (b' & ->). cbn. eauto.
Qed.
Lemma loaded_expr_result cx x e : load_expr cx x = Ok e -> exists b, e_result e = Some b.
Proof. destruct x; cbn; try discriminate; intro H; match type of H with bind ?y _ = _ => destruct y; cbn in H; [|discriminate] end; injection H as <-; cbn; eauto. Qed.

(** ** Where clauses *)
Section Wdata.
  Variable P : wdata -> Prop.
  Hypotheses (HAnd : forall l, Forall P l -> P (WAnd l)) (HOr : forall l, Forall P l -> P (WOr l)) (HNot : forall w, P w -> P (WNot w))
    (HIf : forall x t e, P t -> (forall w, e = Some w -> P w) -> P (WIf x t e)) (HKeys : forall l, P (WKeys l)).
  Fixpoint wdata_ind' (w : wdata) : P w :=
    let all := fix all (l : list wdata) : Forall P l := match l with [] => Forall_nil _ | y :: t => Forall_cons _ (wdata_ind' y) (all t) end in
    match w with
    | WAnd l => HAnd l (all l)
    | WOr l => HOr l (all l)
    | WNot w => HNot w (wdata_ind' w)
    | WIf x t None => HIf x t None (wdata_ind' t) (fun w (E : None = Some w) => match E with end)
    | WIf x t (Some e) => HIf x t (Some e) (wdata_ind' t) (fun w (E : Some e = Some w) => match E in _ = o return match o with Some w => P w | None => True end with eq_refl => wdata_ind' e end)
    | WKeys l => HKeys l
    end.
End Wdata.

Lemma dollar_iff s : starts_dollar s = true <-> constant_name s.
Proof.
  unfold constant_name. destruct s as [|a s]; cbn; [split; [discriminate|intros (t & [=])]|].
  rewrite Ascii.eqb_eq. split; [intros ->; eauto|intros (t & [= -> _]); reflexivity].
Qed.
Lemma plain_scalar c c' s : (forall t, s = SStr t -> ~ constant_name t) -> get_by_name c s = get_by_name c' s.
Proof.
  intro H. destruct s as [| | | |t| |]; try reflexivity. cbn. destruct (starts_dollar t) eqn:D; [|reflexivity].
  exfalso. apply (H t eq_refl), dollar_iff, D.
Qed.
(** what a scalar stands for is the same kind of thing for all constants *)
Definition alike (a b : list scalar + scalar) : Prop :=
  match a, b with
  | inl l, inl m => Forall (fun x => is_none x = false) l /\ Forall (fun x => is_none x = false) m
  | inr (SStr _), inr (SStr _) => True
  | inl l, inr (SStr _) | inr (SStr _), inl l => Forall (fun x => is_none x = false) l
  | inr (SInt _), inr (SInt _) => True
  | inr x, inr y => x = y
  | _, _ => False
  end.
Lemma scalar_same c c' s x : get_by_name c s = Ok x -> exists y, get_by_name c' s = Ok y /\ alike x y.
Proof.
  destruct s as [| | | |t| |]; cbn; try (intros [=<-]; eexists; split; [reflexivity|]; cbn; auto; fail).
  destruct (starts_dollar t); cbn; [|intros [=<-]; eexists; split; [reflexivity|exact Logic.I]].
  destruct (_ =? _); [intros [=<-]; eexists; split; [reflexivity|exact Logic.I]|].
  destruct (_ =? _); [intros [=<-]; eexists; split; [reflexivity|exact Logic.I]|].
  destruct (_ =? _).
  - assert (K : forall ms, Forall (fun x => is_none x = false) (map SStr ms)) by (intro ms; apply Forall_forall; intros z I'; apply in_map_iff in I'; destruct I' as (w & <- & _); reflexivity).
    destruct (k_medium c), (k_medium c'); intros [=<-]; eexists; (split; [reflexivity|]); cbn; auto.
  - destruct (_ =? _); [intros [=<-]; eexists; split; [reflexivity|exact Logic.I]|].
    destruct (_ =? _); [intros [=<-]; eexists; split; [reflexivity|exact Logic.I]|discriminate].
Qed.
Definition passes (op : operator) (v : value) : bool :=
  match op, v with
  | (OIn | ONin), VT l => forallb (fun s => negb (is_none s)) l
  | (OIn | ONin), VS (SStr _) => true
  | (OIn | ONin), VS _ => false
  | _, VS SNone => false
  | _, _ => true
  end.
Lemma single_passes c m key d x : load_single c m key d = Ok x <->
  exists keys op raw v cov, allowed_keys m = Ok keys /\ existsb (String.eqb key) keys = true /\ cd_ops d = [(op, raw)] /\ load_value c key raw = Ok v /\
    match cd_covid d with None => cov = None | Some w => exists y, load_value c key w = Ok y /\ cov = Some y end /\ passes op v = true /\ x = mkLeaf key op v cov.
Proof.
  unfold load_single. split.
  - destruct (allowed_keys m) as [keys|]; cbn [bind]; [|discriminate]. destruct (existsb (String.eqb key) keys) eqn:E; cbn [negb]; [|discriminate].
    destruct (cd_ops d) as [|[op raw] [|]]; try discriminate. destruct (load_value c key raw) as [v|] eqn:V; cbn [bind]; [|discriminate].
    destruct (cd_covid d) as [w|].
    + destruct (load_value c key w) as [y|] eqn:W; cbn [bind]; [|discriminate]. intro H. exists keys, op, raw, v, (Some y). do 5 (split; [eauto; fail|]).
      destruct op, v as [[]|l]; cbn in *; try discriminate; try destruct (forallb _ l); try discriminate; injection H as <-; auto.
    + cbn [bind]. intro H. exists keys, op, raw, v, None. do 5 (split; [eauto; fail|]).
      destruct op, v as [[]|l]; cbn in *; try discriminate; try destruct (forallb _ l); try discriminate; injection H as <-; auto.
  - intros (keys & op & raw & v & cov & -> & E & -> & V & C & PS & ->). cbn [bind]. rewrite E, V. cbn [negb bind].
    destruct (cd_covid d) as [w|]; [destruct C as (y & -> & ->)|subst cov]; cbn [bind]; destruct op, v as [[]|l]; cbn in PS; try discriminate; try rewrite PS; reflexivity.
Qed.
Lemma not_none x : is_none x = false -> negb (is_none x) = true. Proof. intros ->. reflexivity. Qed.
Lemma alike_passes op x y : alike x y -> passes op (match x with inl l => VT l | inr z => VS z end) = true -> passes op (match y with inl l => VT l | inr z => VS z end) = true.
Proof.
  assert (K : forall l, Forall (fun z => is_none z = false) l -> forallb (fun s => negb (is_none s)) l = true).
  { intros l F. apply forallb_forall. intros z I'. rewrite Forall_forall in F. apply not_none, F, I'. }
  intros A PS. destruct x as [l|x], y as [m|y]; cbn in A.
  - destruct op; cbn; auto; apply K, A.
  - destruct y; try contradiction. destruct op; reflexivity.
  - destruct x; try contradiction. destruct op; cbn; auto.
  - destruct x; try (subst y; exact PS); destruct y; try discriminate A; try contradiction; destruct op; try reflexivity; exact PS.
Qed.
Definition flat (xs : list (list scalar + scalar)) : list scalar := flat_map (fun x => match x with inl l => l | inr y => [y] end) xs.
Lemma alike_none xs ys : Forall2 alike xs ys -> forallb (fun s => negb (is_none s)) (flat xs) = true -> forallb (fun s => negb (is_none s)) (flat ys) = true.
Proof.
  induction 1 as [|x y xs ys A _ IH]; cbn; [auto|]. rewrite !forallb_app, !andb_true_iff. intros [Hx Ht]. split; [|apply IH, Ht].
  assert (B := alike_passes OIn x y A). destruct x as [l|x], y as [m|y]; cbn in *; auto.
  - destruct y; try contradiction; reflexivity.
  - destruct x; try contradiction; auto.
  - destruct x; try (subst y; exact Hx); destruct y; try discriminate A; try contradiction; auto.
Qed.
Lemma unconverted k v : ~ converted_key k -> process_value k v = Ok v.
Proof.
  unfold converted_key, process_value. cbn. intro N. destruct (String.eqb_spec k "grade"); [subst; tauto|]. destruct (String.eqb_spec k "grade_option"); [subst; tauto|].
  destruct (String.eqb_spec k "credits"); [subst; tauto|]. destruct (String.eqb_spec k "gpa"); [subst; tauto|]. reflexivity.
Qed.
Lemma converted_dec k : {converted_key k} + {~ converted_key k}.
Proof. apply in_dec, string_dec. Qed.
Lemma value_same c c' key v w : (forall s, value_mentions v s -> constant_name s -> ~ converted_key key) ->
  load_value c key v = Ok w -> exists w', load_value c' key v = Ok w' /\ forall op, passes op w = true -> passes op w' = true.
Proof.
  intros S H. destruct (converted_dec key) as [C|C].
  - exists w. split; [|auto]. rewrite <- H. destruct v as [s|l]; cbn in S.
    + assert (E : get_by_name c' s = get_by_name c s) by (apply plain_scalar; intros t -> D; exact (S t eq_refl D C)).
      destruct s; cbn [load_value]; rewrite ?E; reflexivity.
    + cbn [load_value]. assert (E : mapr (get_by_name c') l = mapr (get_by_name c) l); [|rewrite E; reflexivity].
      clear H. induction l as [|s l IH]; [reflexivity|]. cbn. rewrite (plain_scalar c' c s), IH; [reflexivity| |].
      * intros t I' D. apply (S t); [now right|exact D].
      * intros t -> D. apply (S t); [now left|exact D|exact C].
  - destruct v as [s|l].
    + assert (NS : match s with SNone | SGrade _ | SOpt _ => False | _ => True end) by (destruct s; try exact Logic.I; discriminate).
      assert (L : forall k, load_value k key (VS s) = bind (get_by_name k s) (fun x => Ok (match x with inl l => VT l | inr y => VS y end))).
      { intro k. destruct s; try contradiction; cbn [load_value]; destruct (get_by_name k _) as [x|]; cbn [bind]; try reflexivity; apply unconverted, C. }
      rewrite L in *. destruct (get_by_name c s) as [x|] eqn:G; cbn [bind] in H; [|discriminate]. injection H as <-.
      destruct (scalar_same c c' s x G) as (y & -> & A). cbn [bind]. eexists. split; [reflexivity|]. intro op. apply alike_passes, A.
    + cbn [load_value] in *. destruct (mapr (get_by_name c) l) as [xs|] eqn:M; cbn [bind] in H; [|discriminate]. rewrite unconverted in H by exact C. injection H as <-.
      assert (F : exists ys, mapr (get_by_name c') l = Ok ys /\ Forall2 alike xs ys).
      { clear S. revert xs M. induction l as [|s l IH]; cbn; intros xs M; [injection M as <-; eauto|].
        destruct (get_by_name c s) as [x|] eqn:G; cbn in M; [|discriminate]. destruct (mapr (get_by_name c) l) as [xs'|]; cbn in M; [|discriminate]. injection M as <-.
        destruct (scalar_same c c' s x G) as (y & -> & A). destruct (IH xs' eq_refl) as (ys & -> & F). cbn. eauto. }
      destruct F as (ys & -> & F). cbn [bind]. rewrite unconverted by exact C. eexists. split; [reflexivity|].
      intros op PS. destruct op; cbn in *; auto; apply (alike_none xs ys F PS).
Qed.
Lemma single_same c c' m key d x : (forall v s, (exists op, In (op, v) (cd_ops d)) \/ cd_covid d = Some v -> value_mentions v s -> constant_name s -> ~ converted_key key) ->
  load_single c m key d = Ok x -> exists y, load_single c' m key d = Ok y.
Proof.
  intros S H. apply single_passes in H. destruct H as (keys & op & raw & v & cov & K & E & O' & V & C & PS & ->).
  destruct (value_same c c' key raw v) as (v' & V' & PS'); [|exact V|].
  { intros s. apply S. left. exists op. rewrite O'. now left. }
  destruct (cd_covid d) as [w|] eqn:W.
  - destruct C as (y & Y & ->). destruct (value_same c c' key w y) as (y' & Y' & _); [|exact Y|].
    { intros s. apply S. now right. }
    exists (mkLeaf key op v' (Some y')). apply single_passes. exists keys, op, raw, v', (Some y'). rewrite W. repeat (split; [eauto; fail|]). eauto.
  - exists (mkLeaf key op v' None). apply single_passes. exists keys, op, raw, v', None. rewrite W. repeat (split; [eauto; fail|]). auto.
Qed.
Lemma where_same cx cx' c c' m w : steady_where w -> forall p, load_predicate cx c m w = Ok p -> exists p', load_predicate cx' c' m w = Ok p'.
Proof.
  induction w as [l IH|l IH|w IH|x t e IHt IHe|l] using wdata_ind'; intros S p H; cbn in *.
  - destruct (mapr (load_predicate cx c m) l) as [ps|] eqn:M; cbn in H; [|discriminate]. rewrite Forall_forall in IH.
    destruct (mapr_same (load_predicate cx c m) (load_predicate cx' c' m) l ps) as (r & -> & L); [|exact M|].
    { intros y z I' E. eapply IH; [exact I'| |exact E]. intros k d v s CO. apply (S k d v s). econstructor; eauto. }
    cbn. destruct ps; [discriminate|]. destruct r; [discriminate|]. cbn. eauto.
  - destruct (mapr (load_predicate cx c m) l) as [ps|] eqn:M; cbn in H; [|discriminate]. rewrite Forall_forall in IH.
    destruct (mapr_same (load_predicate cx c m) (load_predicate cx' c' m) l ps) as (r & -> & L); [|exact M|].
    { intros y z I' E. eapply IH; [exact I'| |exact E]. intros k d v s CO. apply (S k d v s). eapply co_or; eauto. }
    cbn. destruct ps; [discriminate|]. destruct r; [discriminate|]. cbn. eauto.
  - destruct (load_predicate cx c m w) as [q|]; cbn in H; [|discriminate]. destruct (IH (fun k d v s CO => S k d v s (co_not _ _ _ CO)) q eq_refl) as (q' & ->). cbn. eauto.
  - destruct (load_expr cx x) as [e0|] eqn:X; cbn in H; [|discriminate]. destruct (expr_same cx cx' x e0 X) as (e1 & ->). cbn.
    destruct (load_predicate cx c m t) as [q|]; cbn in H; [|discriminate]. destruct (IHt (fun k d v s CO => S k d v s (co_then _ _ _ _ _ CO)) q eq_refl) as (q' & ->). cbn.
    destruct e as [w|]; cbn; [|eauto]. destruct (load_predicate cx c m w) as [r|] eqn:W; cbn in H; [|discriminate].
    destruct (IHe w eq_refl (fun k d v s CO => S k d v s (co_else _ _ _ _ _ CO)) r W) as (r' & ->). cbn. eauto.
  - destruct (mapr _ l) as [ls|] eqn:M; cbn in H; [|discriminate].
    destruct (mapr_same (fun kd => load_single c m (fst kd) (snd kd)) (fun kd => load_single c' m (fst kd) (snd kd)) l ls) as (r & -> & _); [|exact M|].
    { intros [k d] z I' E. cbn in *. eapply single_same; [|exact E]. intros v s Q V D. apply (S k d v s); auto. now constructor. }
    cbn. destruct r as [|a [|]]; eauto.
Qed.
Lemma where_option_same cx cx' c c' m o q : (forall w, o = Some w -> steady_where w) ->
  match o with None => Ok None | Some x => let! y := load_predicate cx c m x in Ok (Some y) end = Ok q ->
  exists q', match o with None => Ok None | Some x => let! y := load_predicate cx' c' m x in Ok (Some y) end = Ok q'.
Proof.
  intros S H. destruct o as [w|]; [|eauto]. destruct (load_predicate cx c m w) as [p|] eqn:L; cbn in H; [|discriminate].
  destruct (where_same cx cx' c c' m w (S w eq_refl) p L) as (p' & ->). cbn. eauto.
Qed.

(** ** Assertions, limits, queries *)
Lemma change_same cx cx' d x : load_change cx d = Ok x -> exists y, load_change cx' d = Ok y.
Proof.
  unfold load_change. destruct (load_expr cx (fst d)) as [e|] eqn:L; cbn; [|discriminate]. destruct (expr_same cx cx' _ _ L) as (e' & L'). rewrite L'. cbn.
  destruct (loaded_expr_result _ _ _ L) as (b & R). rewrite (evaluate_fixed cx e b R). destruct (loaded_expr_result _ _ _ L') as (b' & R'). rewrite (evaluate_fixed cx' e' b' R'). cbn.
  destruct (snd d) as [|[[mode|] s] [|]]; try discriminate. destruct (dec_of_scalar s); cbn; [eauto|discriminate].
Qed.
Lemma expected_same c c' r x : (forall s, r = RStr s -> constant_name s -> numeric_constant s) -> load_as_expected c r = Ok x -> exists y, load_as_expected c' r = Ok y.
Proof.
  intros S H. destruct r as [z|s| | | |]; cbn in *; try discriminate; eauto.
  destruct (starts_dollar s) eqn:D; cbn in *; [|eauto].
  assert (N := S s eq_refl (proj1 (dollar_iff s) D)). destruct N as [<-|[<-|[]]]; cbn; eauto.
Qed.
Lemma assertion_same cx cx' c c' m p p' r x : steady_assertion r -> load_single_assertion cx c m p r = Ok x -> exists y, load_single_assertion cx' c' m p' r = Ok y.
Proof.
  intros [SW SV] H. unfold load_single_assertion in *.
  match type of H with bind ?o _ = _ => destruct o as [w|] eqn:W; cbn [bind] in H; [|discriminate] end.
  destruct (where_option_same cx cx' c c' m (rw_where r) w SW W) as (w' & ->). cbn [bind].
  destruct (rw_assert r) as [|[name v] [|]]; try discriminate. destruct (find _ _) as [key|]; [|discriminate].
  destruct (av_ops v) as [|[op raw] [|]] eqn:A; try discriminate.
  assert (G : forall X Y : res assertion, match op with OIn | ONin => Err AssertErr | _ => X end = Ok x -> (X = Ok x -> exists y, Y = Ok y) -> exists y, match op with OIn | ONin => Err AssertErr | _ => Y end = Ok y) by (intros X Y E K; destruct op; try discriminate; apply K, E).
  eapply G; [exact H|]. clear G H. intro H.
  destruct (mapr (load_change cx) (av_changes v)) as [ch|] eqn:C; cbn [bind] in H; [|discriminate].
  destruct (mapr_same (load_change cx) (load_change cx') (av_changes v) ch) as (ch' & -> & _); [intros y z _; apply change_same|exact C|]. cbn [bind].
  destruct (load_as_expected c raw) as [eo|] eqn:E; cbn [bind] in H; [|discriminate].
  destruct (expected_same c c' raw eo) as (eo' & ->); [|exact E|].
  { intros s -> D. eapply SV; [now left|rewrite A; now left|exact D]. }
  cbn [bind]. destruct (av_bad v); [discriminate|]. eauto.
Qed.
Lemma any_same cx cx' c c' m p p' r x : steady_any r -> load_any cx c m p r = Ok x -> exists y, load_any cx' c' m p' r = Ok y.
Proof.
  intros S H. destruct r as [a|e t f|e t]; cbn in *.
  - destruct (load_single_assertion cx c m p a) as [y|] eqn:L; cbn in H; [|discriminate]. destruct (assertion_same cx cx' c c' m p p' a y S L) as (z & ->). cbn. eauto.
  - destruct S as [St Sf]. destruct (load_expr cx e) as [e0|] eqn:X; cbn in H; [|discriminate]. destruct (expr_same cx cx' e e0 X) as (e1 & ->). cbn.
    destruct (load_single_assertion cx c m _ t) as [y|] eqn:L; cbn in H; [|discriminate]. destruct (assertion_same cx cx' c c' m _ (p' ++ ["/t"]) t y St L) as (z & ->). cbn.
    destruct f as [f|]; [|cbn; eauto]. destruct (load_single_assertion cx c m _ f) as [y'|] eqn:L'; cbn in H; [|discriminate].
    destruct (assertion_same cx cx' c c' m _ (p' ++ ["/f"]) f y' (Sf f eq_refl) L') as (z' & ->). cbn. eauto.
  - destruct m; try discriminate. destruct (load_dyn e) as [d|]; cbn in *; [|discriminate].
    destruct (load_single_assertion cx c DtCourse _ t) as [y|] eqn:L; cbn in H; [|discriminate]. destruct (assertion_same cx cx' c c' DtCourse _ (p' ++ ["/t"]) t y S L) as (z & ->). cbn. eauto.
Qed.
Lemma limits_same cx cx' c c' o x : steady_limits o -> load_limits cx c o = Ok x -> exists y, load_limits cx' c' o = Ok y.
Proof.
  intros S H. destruct o as [l|]; cbn in *; [|eauto]. destruct (mapr (load_limit cx c) l) as [ls|] eqn:M; cbn in H; [|discriminate].
  destruct (mapr_same (load_limit cx c) (load_limit cx' c') l ls) as (r & -> & _); [|exact M|cbn; eauto].
  intros r y I' L. unfold load_limit in *. destruct (Keys.get _ _) eqn:G; try discriminate; (destruct (rl_extra r); [discriminate|]);
    (destruct (rl_where r) as [w|] eqn:W; cbn [Keys.key bind] in *; [|discriminate]);
    (destruct (load_predicate cx c DtCourse w) as [q|] eqn:P; cbn [bind] in L; [|discriminate]);
    destruct (where_same cx cx' c c' DtCourse w (S l r w eq_refl I' W) q P) as (q' & ->); cbn [bind];
    match goal with |- context [load_amount ?v] => destruct (load_amount v) as [[dd what]|]; cbn [bind] in *; [eauto|discriminate] end.
Qed.
Lemma all_same cx cx' c c' m p p' l : forall i x, (forall a, In a l -> steady_any a) -> load_all cx c m p i l = Ok x -> exists y, load_all cx' c' m p' i l = Ok y /\ List.length y = List.length x.
Proof.
  induction l as [|a l IH]; cbn [load_all]; intros i x S H; [injection H as <-; eauto|].
  match type of H with bind ?o _ = _ => destruct o as [w|] eqn:W; cbn [bind] in H; [|discriminate] end.
  match type of H with bind ?o _ = _ => destruct o as [t|] eqn:T; cbn [bind] in H; [|discriminate] end. injection H as <-.
  match goal with |- context [load_any cx' c' m ?q a] => destruct (any_same cx cx' c c' m _ q a w (S a (or_introl eq_refl)) W) as (w' & ->) end. cbn [bind].
  destruct (IH _ t (fun a I' => S a (or_intror I')) T) as (t' & -> & L). cbn [bind]. eexists. split; [reflexivity|]. cbn. congruence.
Qed.
Lemma query_same cx cx' c c' p p' r x : steady_query r -> load_query cx c p r = Ok x -> exists y, load_query cx' c' p' r = Ok y.
Proof.
  intros (SW & SL & SA & SAll) H. unfold load_query in *. destruct (source_of (rq_from r)) as [src|]; cbn [bind] in *; [|discriminate].
  match type of H with bind ?o _ = _ => destruct o as [w|] eqn:W; cbn [bind] in H; [|discriminate] end.
  destruct (where_option_same cx cx' c c' _ (rq_where r) w SW W) as (w' & ->). cbn [bind].
  destruct (load_limits cx c (rq_limit r)) as [ls|] eqn:L; cbn [bind] in H; [|discriminate]. destruct (limits_same cx cx' c c' _ _ SL L) as (ls' & ->). cbn [bind].
  destruct (rq_limits_key r); [discriminate|].
  match type of H with bind ?o _ = _ => destruct o as [as_|] eqn:A; cbn [bind] in H; [|discriminate] end.
  destruct as_ as [|a0 as_]; [discriminate|].
  assert (E : exists b bs, match rq_assert r, rq_all r with
              | Some a, _ => load_all cx' c' (type_of_source src) (p' ++ [".query"]) 0 [RwPlain a]
              | None, Some l => load_all cx' c' (type_of_source src) (p' ++ [".query"]) 0 l
              | None, None => Err ValueErr end = Ok (b :: bs)).
  { destruct (rq_assert r) as [a|] eqn:RA; [|destruct (rq_all r) as [l|] eqn:RL; [|discriminate]].
    - destruct (all_same cx cx' c c' (type_of_source src) (p ++ [".query"]) (p' ++ [".query"]) [RwPlain a] 0 (a0 :: as_)) as (y & -> & LN); [|exact A|destruct y; [discriminate|eauto]].
      intros z [<-|[]]. cbn. apply SA. reflexivity.
    - destruct (all_same cx cx' c c' (type_of_source src) (p ++ [".query"]) (p' ++ [".query"]) l 0 (a0 :: as_)) as (y & -> & LN); [|exact A|destruct y; [discriminate|eauto]].
      intros z I'. apply (SAll l z eq_refl I'). }
  destruct E as (b & bs & ->). cbn [bind]. destruct (rq_assert r), (rq_all r); try discriminate; destruct (rq_bad r); try discriminate; eauto.
Qed.

(** ** Rules *)
Lemma loaded_year p r x : load_course p r = Ok x -> year_has_term x.
Proof.
  unfold load_course, c_path_name, year_has_term. destruct (c_label r); cbn -[append]; [|discriminate].
  destruct (rc_year r) as [y|] eqn:Y; [destruct (rc_term r) as [t|] eqn:T|]; cbn -[append]; try discriminate; (destruct (rc_bad r); [discriminate|]); (destruct (negb _); [discriminate|]);
    (match goal with |- bind ?o _ = _ -> _ => destruct o; cbn -[append]; [|discriminate] end); (match goal with |- bind ?o _ = _ -> _ => destruct o; cbn -[append]; [|discriminate] end);
    intros [=<-]; cbn; congruence.
Qed.
Lemma required_course r : year_has_term r -> forall k, exists cs, c_required k r = Ok cs.
Proof.
  intros Y k. unfold c_required, c_matches, gall. destruct (r_from_claimed r); [eauto|].
  destruct (g_exn (find_courses k r)) as [e|] eqn:G; [destruct (found_exn _ _ _ G) as [_ N]; contradiction|]. cbn [bind]. eauto.
Qed.
(** the same names are used, and the required courses can be found *)
Definition same_node (n n' : node) : Prop := requirement_names n = requirement_names n' /\ forall k, exists cs, required_of k n' = Ok cs.

Section Same.
  Variables (cx cx' : ctx) (c c' : constants) (tm tm' : list (string * list template)).
  Hypothesis NI : forall p, get_inserts (cx_exc cx) p = [].
  Hypothesis OI : forall p e, In e (get_inserts (cx_exc cx') p) -> exists x, forced_by_clbid cx' (exc_clbid e) = Ok x /\ c_clbid x <> "".

  Definition env_same (env env' : children) : Prop := forall k,
    match dget env k, dget env' k with
    | Some l, Some l' => forall p n, l p = Ok n -> exists n', l' p = Ok n' /\ same_node n n'
    | None, None => True
    | _, _ => False
    end.
  Definition P (d : rdata) : Prop := steady d -> forall env env' p o, env_same env env' -> load_rule cx c tm d (Ok []) env p = Ok o ->
    exists n n', o = Some n /\ load_rule cx' c' tm' d (Ok []) env' p = Ok (Some n') /\ same_node n n' /\ (names_nothing d -> requirement_names n = []).
  Definition R (b : rbody) : Prop := steady_in b -> forall name p n, load_body cx c tm b name p = Ok n -> exists n', load_body cx' c' tm' b name p = Ok n' /\ same_node n n'.

  Lemma course_same p r x : load_course p r = Ok x -> same_node (NCourse KRule x) (NCourse KRule x).
  Proof. intro L. split; [reflexivity|]. intro k. cbn. apply required_course. eapply loaded_year, L. Qed.
  Lemma inserted_loads p e : In e (get_inserts (cx_exc cx') p) -> exists r, inserted_item cx' e = Ok r /\ forall q, exists x, load_course q r = Ok x.
  Proof.
    intro I'. destruct (OI _ _ I') as (x & F & NE). unfold inserted_item. rewrite F. cbn [bind]. eexists. split; [reflexivity|]. intro q.
    unfold load_course, c_path_name, c_label. cbn -[append].
    unfold given, or_empty. destruct (c_clbid x) as [|a t]; [contradiction|]. destruct (course_ident x); cbn; eauto.
  Qed.
  (** items that load one after the other *)
  Definition item_same (silent : Prop) (a b : item) : Prop := fst a = fst b /\ forall env env' p o, env_same env env' -> snd a env p = Ok o ->
    exists n n', o = Some n /\ snd b env' p = Ok (Some n') /\ same_node n n' /\ (silent -> requirement_names n = []).
  Lemma items_same (silent : Prop) env env' p : env_same env env' -> forall l l', Forall2 (item_same silent) l l' -> forall i ns, load_items i env p l = Ok ns ->
    exists ns', load_items i env' p l' = Ok ns' /\ Forall2 same_node ns ns' /\ List.length ns = List.length l /\ (silent -> flat_map requirement_names ns = []).
  Proof.
    intros E l l' F. induction F as [|[em f] [em' f'] l l' [EM IS] F IH]; cbn [load_items]; intros i ns H; [injection H as <-; exists []; auto|]. cbn in EM. subst em'.
    match type of H with bind (f env ?q) _ = _ => destruct (f env q) as [o|] eqn:A; cbn [bind] in H; [|discriminate]; destruct (IS env env' q o E A) as (n & n' & -> & A' & SN & SL) end. cbn [snd] in A'.
    destruct (load_items (S i) env p l) as [rest|] eqn:B; cbn [bind] in H; [|discriminate]. injection H as <-. rewrite A'. cbn [bind].
    destruct (IH (S i) rest B) as (rest' & -> & F' & L & NR). cbn [bind]. eexists. split; [reflexivity|]. split; [constructor; assumption|]. cbn. split; [congruence|]. intro Q'. rewrite (SL Q'), (NR Q'). reflexivity.
  Qed.
  Lemma courses_load env' p rs : (forall r, In r rs -> forall q, exists x, load_course q r = Ok x) -> forall i,
    exists ns, load_items i env' p (map course_item rs) = Ok ns /\ List.length ns = List.length rs /\ flat_map requirement_names ns = [] /\ forall k n, In n ns -> exists cs, required_of k n = Ok cs.
  Proof.
    induction rs as [|r rs IH]; cbn [map load_items]; intros H i; [exists []; repeat split; intros k n []|].
    unfold course_item at 1. cbn [fst snd]. destruct (H r (or_introl eq_refl) (p ++ [index_part i])) as (x & L). rewrite L. cbn [bind some_node].
    destruct (IH (fun r I' => H r (or_intror I')) (S i)) as (ns & -> & LN & NN & RQ). cbn [bind]. eexists. split; [reflexivity|]. cbn. split; [congruence|]. split; [exact NN|].
    intros k n [<-|I']; [cbn; apply required_course; eapply loaded_year, L|apply RQ, I'].
  Qed.
  Lemma items_app env p a : forall b i ns, load_items i env p a = Ok ns -> forall ms, load_items (List.length a + i) env p b = Ok ms -> load_items i env p (a ++ b) = Ok (ns ++ ms).
  Proof.
    induction a as [|[em f] a IH]; cbn [load_items app List.length]; intros b i ns H ms K; [injection H as <-; exact K|].
    match type of H with bind (f env ?q) _ = _ => destruct (f env q) as [o|]; cbn [bind] in *; [|discriminate] end.
    destruct (load_items (S i) env p a) as [rest|] eqn:B; cbn [bind] in H; [|discriminate]. injection H as <-.
    rewrite (IH b (S i) rest B ms); [cbn [bind]; destruct o; reflexivity|]. rewrite Nat.add_succ_r. exact K.
  Qed.
  Lemma mention_item d k l y : rd_count d = Some k -> rk_items k = Some l -> In y l -> mentions d y.
  Proof. intros C L I'. eapply mt_item; [exact C|apply items_listed, L|exact I'|constructor]. Qed.
  Lemma expand_same (silent : Prop) l : (forall d, In d l -> rd_template d = None /\ P d /\ steady d /\ (silent -> names_nothing d)) -> forall its, expand cx c tm l = Ok its -> exists its', expand cx' c' tm' l = Ok its' /\ Forall2 (item_same silent) its its' /\ List.length its = List.length l.
  Proof.
    induction l as [|d l IH]; cbn [expand]; intros H its E; [injection E as <-; eauto|].
    destruct (H d (or_introl eq_refl)) as (T & PD & SD & SI). rewrite T in *. cbn [bind] in *. destruct (expand cx c tm l) as [rest|] eqn:X; cbn [bind] in E; [|discriminate]. injection E as <-.
    destruct (IH (fun d I' => H d (or_intror I')) rest eq_refl) as (rest' & -> & F & L). cbn [bind]. eexists. split; [reflexivity|]. split; [|cbn; congruence].
    constructor; [|exact F]. split; [reflexivity|]. cbn [snd]. intros env env' p o ES LR. destruct (PD SD env env' p o ES LR) as (n & n' & -> & LR' & SN & NN). exists n, n'. auto 6.
  Qed.
  Lemma asked_more k n m z b : asked_for k false n = Ok z -> (b = true <-> m <> 0%nat) -> exists z', asked_for k b (n + m) = Ok z' /\ ((0 <= z)%Z -> (0 <= z')%Z) /\ forall s, (z <= Z.of_nat (n + s))%Z -> (z' <= Z.of_nat (n + m + s))%Z.
  Proof.
    intros H B. unfold asked_for in *. destruct (has (rk_all k) || count_is k CvAll)%bool; [injection H as <-; eexists; split; [reflexivity|]; split; [lia|intros; lia]|].
    destruct (has (rk_any k) || count_is k CvAny)%bool; [injection H as <-; eexists; split; [reflexivity|]; split; [lia|intros; lia]|].
    destruct (has (rk_both k)).
    { destruct (Nat.eqb_spec n 2); [|discriminate]. injection H as <-. destruct b; [eexists; split; [reflexivity|]; split; [lia|intros; lia]|].
      assert (m = 0)%nat by (destruct m; [reflexivity|]; assert (false = true) by (apply B; lia); discriminate). subst. cbn. eexists; split; [reflexivity|]; split; [lia|intros; lia]. }
    destruct (has (rk_either k)).
    { destruct (Nat.eqb_spec n 2); [|discriminate]. injection H as <-. destruct b; [eexists; split; [reflexivity|]; split; [lia|intros; lia]|].
      assert (m = 0)%nat by (destruct m; [reflexivity|]; assert (false = true) by (apply B; lia); discriminate). subst. cbn. eexists; split; [reflexivity|]; split; [lia|intros; lia]. }
    destruct (rk_count k) as [[| |z0|]|]; try discriminate. injection H as <-. eexists; split; [reflexivity|]; split; [lia|intros; lia].
  Qed.
  Lemma audits_same p l x : (forall a, In a l -> steady_any a) -> load_audits cx c p l = Ok x -> exists y, load_audits cx' c' p l = Ok y.
  Proof.
    intros S H. unfold load_audits in *. match type of H with mapr ?f ?m = _ => destruct (mapr_same f (fun x => load_any cx' c' DtCourse (p ++ [".audit"; index_part (fst x)]) (snd x)) m x) as (y & E & _); [|exact H|eauto] end.
    intros [i a] z I' L. cbn [fst snd] in *. eapply any_same; [|exact L]. apply S. eapply in_combine_r, I'.
  Qed.
  Lemma same_names ns ns' : Forall2 same_node ns ns' -> flat_map requirement_names ns = flat_map requirement_names ns' /\ List.length ns = List.length ns' /\ forall k n, In n ns' -> exists cs, required_of k n = Ok cs.
  Proof. induction 1 as [|n n' ns ns' [SN RQ] F (IN & IL & IR)]; cbn; [split; [reflexivity|]; split; [reflexivity|intros k n []]|]. split; [congruence|]. split; [congruence|]. intros k m [<-|I']; auto. Qed.
  Lemma required_count i items : (forall k n, In n items -> exists cs, required_of k n = Ok cs) -> forall k, exists cs, required_of k (NCount KRule i items) = Ok cs.
  Proof.
    intros H k. cbn. destruct (negb _); [eauto|]. destruct (mapr_all (required_of k) items) as (r & ->); [apply H|]. cbn. eauto.
  Qed.

  Lemma count_same d k : rd_count d = Some k -> all_count P (rd_count d) -> steady d -> forall env env' p n, env_same env env' ->
    load_count cx c k (match rk_items k with Some l => expand cx c tm l | None => Err KeyErr end) (Ok []) env p = Ok n ->
    exists n', load_count cx' c' k (match rk_items k with Some l => expand cx' c' tm' l | None => Err KeyErr end) (Ok []) env' p = Ok n' /\ same_node n n' /\
      (names_nothing d -> requirement_names n = []).
  Proof.
    intros C A S env env' p n E H. assert (Y := S d (mt_self d)). unfold load_count in *.
    destruct (rk_items k) as [l|] eqn:L; [|discriminate]. destruct (expand cx c tm l) as [own|] eqn:X; cbn [bind] in H; [|discriminate].
    assert (HL : forall y, In y l -> rd_template y = None /\ P y /\ steady y /\ (names_nothing d -> names_nothing y)).
    { intros y I'. split; [apply (S y), (mention_item d k l y C L I')|]. split.
      - rewrite C in A. cbn in A. destruct A as (A1 & A2 & A3 & A4 & A5). unfold rk_items in L.
        destruct (rk_all k); [injection L as ->; apply A1, I'|]. destruct (rk_any k); [injection L as ->; apply A2, I'|]. destruct (rk_both k); [injection L as ->; apply A3, I'|].
        destruct (rk_either k); [injection L as ->; apply A4, I'|]. destruct (rk_of k); [injection L as ->; apply A5, I'|discriminate].
      - assert (T : forall z, mentions y z -> mentions d z) by (intros z M; eapply mt_item; [exact C|apply items_listed, L|exact I'|exact M]).
        split; [intros z M; apply S, T, M|intros Q' z M; apply Q', T, M]. }
    destruct (expand_same (names_nothing d) l HL own X) as (own' & -> & F & LO). cbn [bind fold_left map app] in *.
    rewrite NI in H. cbn [mapr bind map] in H. rewrite app_nil_r in H.
    assert (INS : exists ins', mapr (inserted_item cx') (get_inserts (cx_exc cx') (p ++ [".count"])) = Ok ins' /\ forall r, In r ins' -> forall q, exists x, load_course q r = Ok x).
    { assert (G : forall e, In e (get_inserts (cx_exc cx') (p ++ [".count"])) -> exists r, inserted_item cx' e = Ok r /\ forall q, exists x, load_course q r = Ok x) by (intros e; apply inserted_loads).
      induction (get_inserts (cx_exc cx') (p ++ [".count"])) as [|e es IH]; cbn; [exists []; split; [reflexivity|intros r []]|].
      destruct (G e (or_introl eq_refl)) as (r & -> & LC). destruct IH as (rs & -> & LR); [intros; apply G; now right|]. cbn. eexists; split; [reflexivity|]. intros r' [<-|I']; auto. }
    destruct INS as (ins' & -> & LI). cbn [bind].
    match type of H with bind ?o _ = _ => destruct o as [au|] eqn:AU; cbn [bind] in H; [|discriminate] end.
    assert (AU' : exists au', match rk_audit k with Some l => load_audits cx' c' (p ++ [".count"]) l | None => Ok [] end = Ok au').
    { destruct (rk_audit k) as [la|] eqn:RA; [|eauto]. eapply audits_same; [|exact AU]. intros a I'. eapply (sr_audit d Y k la a); eauto. }
    destruct AU' as (au' & ->). cbn [bind].
    destruct (load_items 0 env (p ++ [".count"]) own) as [ns|] eqn:NS; cbn [bind] in H; [|discriminate].
    destruct (items_same (names_nothing d) env env' (p ++ [".count"]) E own own' F 0%nat ns NS) as (ns' & NS' & FN & LL & NQ).
    destruct (courses_load env' (p ++ [".count"]) ins' LI (List.length own' + 0)) as (ms & MS & LM & NM & RM).
    rewrite (items_app env' (p ++ [".count"]) own' (map course_item ins') 0 ns' NS' ms MS). cbn [bind].
    destruct (asked_for k false (List.length ns)) as [z|] eqn:AF; cbn [bind] in H; [|discriminate].
    destruct (rk_bad k); [discriminate|]. destruct (Z.ltb_spec z 0) as [Zn|Z0]; [discriminate|].
    destruct (same_names ns ns' FN) as (NN & LN & RN).
    assert (LF : List.length own = List.length own') by (clear - F; induction F; cbn; congruence).
    assert (LI' : (match ins' with [] => false | _ => true end = true <-> List.length ins' <> 0%nat)) by (destruct ins'; cbn; split; congruence).
    destruct (asked_more k (List.length ns) (List.length ins') z _ AF LI') as (z' & AF' & Z0' & ZL).
    rewrite app_length, LM, <- LN, AF'. cbn [bind]. destruct (Z.ltb_spec z' 0) as [|_]; [lia|].
    rewrite app_length, map_length, <- LF, <- LL.
    assert (G : (negb (rk_at_most k) && (Z.of_nat (List.length ns + List.length ins') <? z')%Z)%bool = false).
    { destruct (rk_at_most k); [reflexivity|]. cbn [negb andb] in *. destruct (Z.ltb_spec (Z.of_nat (List.length own)) z) as [|Q']; [discriminate|].
      apply Z.ltb_ge. assert (W := ZL 0%nat). rewrite !Nat.add_0_r in W. apply W. rewrite LL. exact Q'. }
    rewrite G. destruct (negb (rk_at_most k) && _)%bool; [discriminate|]. injection H as <-.
    eexists. split; [reflexivity|]. split; [split|].
    - cbn. rewrite flat_map_app, NM, app_nil_r. exact NN.
    - apply required_count. intros k' m I'. apply in_app_or in I'. destruct I' as [I'|I']; [apply RN, I'|apply RM, I'].
    - exact NQ.
  Qed.

  Lemma same_all : (forall d, P d) /\ (forall b, R b).
  Proof.
    apply spec_induction.
    - intros d ACo ACn AN S env env' p o E H. assert (Y := S d (mt_self d)). rewrite load_rule_eq in *.
      destruct (rd_prof d) as [[[name co] bad]|].
      { apply some_node_ok in H. destruct H as (n & L & ->). exists n, n. split; [reflexivity|]. rewrite L. cbn [some_node bind]. split; [reflexivity|].
        unfold load_proficiency in L. destruct bad; [discriminate|]. destruct co as [r|]; cbn [bind] in L.
        - destruct (load_course _ r) as [x|] eqn:LC; cbn [bind] in L; [|discriminate]. injection L as <-. split; [split; [reflexivity|]|reflexivity]. intro k. cbn. apply required_course. eapply loaded_year, LC.
        - injection L as <-. split; [split; [reflexivity|]|reflexivity]. intro k. cbn. eauto. }
      destruct (rd_course d) as [r|].
      { apply some_node_ok in H. destruct H as (n & L & ->). exists n, n. split; [reflexivity|]. rewrite L. cbn [some_node bind]. split; [reflexivity|].
        destruct (load_course p r) as [x|] eqn:LC; cbn [bind] in L; [|discriminate]. injection L as <-. split; [eapply course_same, LC|reflexivity]. }
      destruct (rd_query d) as [q|] eqn:RQ.
      { apply some_node_ok in H. destruct H as (n & L & ->). destruct (load_query cx c p q) as [x|] eqn:LQ; cbn [bind] in L; [|discriminate]. injection L as <-.
        destruct (query_same cx cx' c c' p p q x (sr_query d Y q RQ) LQ) as (y & ->). cbn [bind some_node]. exists (NQuery KRule x), (NQuery KRule y).
        repeat split. intro k. cbn. eauto. }
      destruct (rd_cond d) as [x|] eqn:RC.
      { destruct ACo as [AT AE]. unfold load_conditional in *. destruct (rn_bad x); [discriminate|].
        destruct (load_expr cx (rn_if x)) as [e0|] eqn:X; cbn [bind] in H; [|discriminate]. destruct (expr_same cx cx' _ _ X) as (e1 & ->). cbn [bind].
        destruct (rn_then x) as [t|] eqn:RT; [|discriminate].
        assert (MT : forall z, mentions t z -> mentions d z) by (intros z M; eapply mt_then; eauto).
        destruct (load_rule cx c tm t (Ok []) env ((p ++ [".cond"]) ++ ["/t"])) as [ot|] eqn:LT; cbn [bind] in H; [|discriminate].
        destruct (AT (fun z M => S z (MT z M)) env env' _ ot E LT) as (nt & nt' & -> & -> & SNt & NNt). cbn [bind].
        specialize (NNt (sr_names d Y x t RC (or_introl RT))). rewrite (sr_hide d Y x RC) in *.
        assert (EL : exists of of', (match match rn_else x with Some y => Some (load_rule cx c tm y (Ok []) env) | None => None end with Some f => f ((p ++ [".cond"]) ++ ["/f"]) | None => Ok None end) = Ok of /\
                  (match match rn_else x with Some y => Some (load_rule cx' c' tm' y (Ok []) env') | None => None end with Some f => f ((p ++ [".cond"]) ++ ["/f"]) | None => Ok None end) = Ok of' /\
                  match of with Some f => requirement_names f = [] | None => True end /\ match of' with Some f => requirement_names f = [] /\ forall k, exists cs, required_of k f = Ok cs | None => True end).
        { destruct (rn_else x) as [f|] eqn:RE; [|exists None, None; auto].
          assert (ME : forall z, mentions f z -> mentions d z) by (intros z M; eapply mt_else; eauto).
          destruct (load_rule cx c tm f (Ok []) env ((p ++ [".cond"]) ++ ["/f"])) as [of|] eqn:LF; [|discriminate].
          destruct (AE (fun z M => S z (ME z M)) env env' _ of E LF) as (nf & nf' & -> & -> & [SNf RQf] & NNf). specialize (NNf (sr_names d Y x f RC (or_intror RE))).
          exists (Some nf), (Some nf'). repeat (split; [reflexivity|]). split; [exact NNf|]. split; [congruence|exact RQf]. }
        destruct EL as (of & of' & EO & EO' & NF & NF'). rewrite EO in H. rewrite EO'. cbn [bind] in *. rewrite !andb_false_r in *.
        assert (HO : forall (r : option bool) (w : option node), match r with Some false => Ok w | _ => Ok w end = Ok w) by (intros [[]|] w; reflexivity).
        rewrite HO in H |- *. injection H as <-. eexists. eexists. split; [reflexivity|]. split; [reflexivity|].
        assert (NN : forall i, requirement_names (NCond KRule i nt of) = []).
        { intro i. cbn. destruct (e_result (d_cond i)) as [[]|]; [exact NNt| |reflexivity]. destruct of; [exact NF|reflexivity]. }
        assert (NN' : forall i, requirement_names (NCond KRule i nt' of') = []).
        { intro i. cbn. destruct SNt as [SNt _]. destruct (e_result (d_cond i)) as [[]|]; [congruence| |reflexivity]. destruct of'; [apply NF'|reflexivity]. }
        split; [split|].
        - rewrite NN, NN'. reflexivity.
        - intro k. cbn [required_of d_cond]. destruct (e_result e1) as [[]|]; [apply SNt|destruct of'; [apply NF'|eauto]|destruct of'; eauto].
        - intros _. apply NN. }
      destruct (rd_count d) as [k|] eqn:RK.
      { apply some_node_ok in H. destruct H as (n & L & ->). rewrite <- RK in ACn.
        destruct (count_same d k RK ACn S env env' p n E L) as (n' & -> & SN & NN). exists n, n'. auto. }
      destruct (rd_name d) as [[name b]|] eqn:RN.
      { apply some_node_ok in H. destruct H as (n & L & ->). destruct (AN (fun z M => S z (mt_named d name b z RN M)) name p n L) as (n' & -> & SN). exists n, n'.
        split; [reflexivity|]. split; [reflexivity|]. split; [exact SN|]. intro Q'. destruct (Q' d (mt_self d)) as [Q1 _]. congruence. }
      destruct (rd_req d) as [name|] eqn:RR; [|discriminate].
      apply some_node_ok in H. destruct H as (n & L & ->). unfold load_named in *. specialize (E name). destruct (dget env name) as [l|], (dget env' name) as [l'|]; try contradiction; [|discriminate].
      destruct (E p n L) as (n' & -> & SN). exists n, n'. split; [reflexivity|]. split; [reflexivity|]. split; [exact SN|]. intro Q'. destruct (Q' d (mt_self d)) as [_ Q1]. congruence.
    - intros b AR ARs S name p n H. rewrite load_body_eq in *. unfold load_requirement in *. destruct (rb_bad b); [discriminate|].
      destruct (rb_result b) as [d|] eqn:RB.
      + match type of H with context [load_rule cx c tm d (Ok []) ?e ?q] => destruct (load_rule cx c tm d (Ok []) e q) as [o|] eqn:L; cbn [bind] in H; [|discriminate];
          match goal with |- context [load_rule cx' c' tm' d (Ok []) ?e' q] => assert (ES : env_same e e') end end.
        { intro k. destruct (rb_reqs b) as [l|] eqn:RR; [|exact Logic.I].
          assert (IN : forall s b', In (s, b') l -> R b' /\ steady_in b') by (intros s b' I'; split; [apply (ARs s b' I')|intros z M; apply S; eapply mi_req; eauto]).
          clear - IN. induction l as [|[s b'] l IH]; cbn; [exact Logic.I|]. destruct (String.eqb k s).
          - destruct (IN s b' (or_introl eq_refl)) as [RB SB]. intros p n. apply RB, SB.
          - apply IH. intros s0 b0 I'. apply (IN s0 b0). right. exact I'. }
        destruct (AR (fun z M => S z (mi_result b d z RB M)) _ _ _ o ES L) as (m & m' & -> & -> & [SN RQ] & _). cbn [bind].
        match type of H with context [forallb ?f ?l] => destruct (forallb f l) eqn:FB; [|discriminate] end. cbn [bind has negb] in H. rewrite <- SN. rewrite FB. cbn [bind has negb].
        rewrite andb_false_r in *. destruct (blank name); [discriminate|]. injection H as <-. eexists. split; [reflexivity|]. split; [reflexivity|]. exact RQ.
      + cbn [bind has negb] in *. destruct (rb_audited b); cbn [negb andb] in *; [|discriminate]. destruct (blank name); [discriminate|]. injection H as <-. eexists. split; [reflexivity|].
        split; [reflexivity|]. intro k. cbn. eauto.
  Qed.
End Same.

(** ** Areas *)
Lemma lookup_in l x : In x l -> exists y, lookup_clbid l (c_clbid x) = Some y /\ c_clbid y = c_clbid x.
Proof.
  intro I'. unfold lookup_clbid. destruct (find (fun c => String.eqb (c_clbid c) (c_clbid x)) (rev l)) as [y|] eqn:F.
  - exists y. split; [reflexivity|]. apply find_some in F. apply String.eqb_eq, F.
  - assert (X := find_none _ _ F x (proj1 (in_rev _ _) I')). cbn in X. rewrite String.eqb_refl in X. discriminate.
Qed.
Lemma no_inserts st es : inserts_nothing es -> forall p, get_inserts (cx_exc (load_ctx st es)) p = [].
Proof.
  intros H p. change (cx_exc (load_ctx st es)) with (group_exceptions es). destruct (get_inserts (group_exceptions es) p) as [|e l] eqn:E; [reflexivity|].
  assert (I' : In e (get_inserts (group_exceptions es) p)) by (rewrite E; now left). apply inserts_at in I'. destruct I' as (I' & _ & k & f & A). destruct (H e k f I' A).
Qed.
Lemma own_inserts st es : inserts_own st es -> forall p e, In e (get_inserts (cx_exc (load_ctx st es)) p) -> exists x, forced_by_clbid (load_ctx st es) (exc_clbid e) = Ok x /\ c_clbid x <> "".
Proof.
  intros H p e I'. change (cx_exc (load_ctx st es)) with (group_exceptions es) in I'. apply inserts_at in I'. destruct I' as (I' & _ & k & f & A).
  destruct (H e k f I' A) as (NE & x & X & <-). unfold exc_clbid. rewrite A. destruct (lookup_in (t_courses st) x X) as (y & L & E). exists y.
  unfold forced_by_clbid, find_by_clbid. change (cx_transcript (load_ctx st es)) with (t_courses st). rewrite L. split; [reflexivity|congruence].
Qed.
Lemma dept_plain st code : plain_departments st -> forall d, dept_of (t_areas st) code = Some d -> starts_dollar d = false.
Proof.
  intros P d. unfold dept_of. destruct (find _ (rev (t_areas st))) as [a|] eqn:F; [|discriminate]. intro D. apply find_some in F. destruct F as [F _]. apply in_rev in F. eapply P; eauto.
Qed.
Lemma nothing_own st es : inserts_nothing es -> inserts_own st es.
Proof. intros H e k f I' A. destruct (H e k f I' A). Qed.

Lemma top_same cx cx' c c' tm tm' data reqs n :
  (forall p, get_inserts (cx_exc cx) p = []) -> (forall p e, In e (get_inserts (cx_exc cx') p) -> exists x, forced_by_clbid cx' (exc_clbid e) = Ok x /\ c_clbid x <> "") ->
  (forall d, data = Some d -> steady d) -> (forall l n b, reqs = Some l -> In (n, b) l -> steady_in b) ->
  load_top cx c tm data reqs [] = Ok n -> exists n', load_top cx' c' tm' data reqs [] = Ok n' /\ forall k, exists cs, required_of k n' = Ok cs.
Proof.
  intros NI OI SD SR H. destruct (same_all cx cx' c c' tm tm' NI OI) as [PA RA]. unfold load_top in *. destruct data as [d|]; [|discriminate]. cbn [mapr bind List.concat] in *.
  match type of H with context [load_rule cx c tm d (Ok []) ?e ?q] => destruct (load_rule cx c tm d (Ok []) e q) as [o|] eqn:L; cbn [bind] in H; [|discriminate];
    match goal with |- context [load_rule cx' c' tm' d (Ok []) ?e' q] => assert (ES : env_same e e') end end.
  { intro k. assert (IN : forall s b, In (s, b) (reqs_of reqs) -> steady_in b) by (destruct reqs as [l|]; cbn; [intros s b I'; apply (SR l s b eq_refl I')|intros s b []]).
    clear - IN RA. induction (reqs_of reqs) as [|[s b] l IH]; cbn; [exact Logic.I|]. destruct (String.eqb k s); [intros p n; apply RA, (IN s b); now left|].
    apply IH. intros s0 b0 I'. apply (IN s0 b0). now right. }
  destruct (PA d (SD d eq_refl) _ _ _ o ES L) as (m & m' & -> & L' & SN & _). cbv zeta. rewrite L'. cbn [bind]. exists m'. split; [reflexivity|apply SN].
Qed.

Theorem area_same c c' tm tm' st st' es es' s u :
  steady_area s -> inserts_nothing es -> no_emphasis st s -> no_emphasis st' s -> plain_departments st' -> inserts_own st' es' ->
  load_area c tm st es false s = Ok u -> exists u', load_area c' tm' st' es' false s = Ok u'.
Proof.
  intros [SD SR SL SE] NI N N' PD OI H. unfold load_area in *.
  assert (CE : forall x, no_emphasis x s -> chosen_emphases x false (ar_emphases s) = []).
  { intros x NE. destruct (chosen_emphases x false (ar_emphases s)) as [|e l] eqn:E; [reflexivity|]. assert (I' : In e (chosen_emphases x false (ar_emphases s))) by (rewrite E; now left).
    apply chosen_iff in I'. destruct I' as [I' [D|D]]; [destruct (NE e I' D)|discriminate D]. }
  rewrite (CE st N) in H. rewrite (CE st' N').
  destruct (mapr (check_emphasis c tm st) (ar_emphases s)) as [us|] eqn:EM; cbn [bind] in H; [|discriminate].
  assert (EM' : exists us', mapr (check_emphasis c' tm' st') (ar_emphases s) = Ok us').
  { destruct (mapr_same (check_emphasis c tm st) (check_emphasis c' tm' st') (ar_emphases s) us) as (us' & E & _); [|exact EM|eauto].
    intros e x I' K. destruct (SE e I') as [SB SLe]. unfold check_emphasis in *.
    destruct (load_top (load_ctx st []) c tm (rb_result (em_body e)) (rb_reqs (em_body e)) []) as [n|] eqn:T; cbn [bind] in K; [|discriminate].
    assert (NO : inserts_nothing []) by (intros y k f []).
    destruct (top_same _ (load_ctx st' []) c c' tm tm' _ _ n (no_inserts st [] NO) (own_inserts st' [] (nothing_own st' [] NO))
                (fun d E y M => SB y (mi_result _ d y E M)) (fun l s b E I'' y M => SB y (mi_req _ s b l y E I'' M)) T) as (n' & -> & _). cbn [bind].
    destruct (load_limits (load_ctx st []) c (em_limit e)) as [ls|] eqn:LL; cbn [bind] in K; [|discriminate].
    destruct (limits_same _ (load_ctx st' []) c c' _ ls SLe LL) as (ls' & ->). cbn [bind]. destruct (em_bad e); [discriminate|].
    match goal with |- context [prepare_common ?a ?b ?t ?d ?o ?r ?q] => destruct (common_rules_load a b t d o r q) as (rs & -> & _); [apply dept_plain, PD|] end. cbn. eauto. }
  destruct EM' as (us' & ->). cbn [bind].
  destruct (load_top (load_ctx st es) c tm (ar_result s) (ar_reqs s) []) as [n|] eqn:T; cbn [bind] in H; [|discriminate].
  destruct (top_same _ (load_ctx st' es') c c' tm tm' _ _ n (no_inserts st es NI) (own_inserts st' es' OI) SD SR T) as (n' & -> & RQ). cbn [bind].
  destruct (RQ (load_ctx st' es')) as (cs & ->). cbn [bind]. destruct (required_of (load_ctx st es) n); cbn [bind] in H; [|discriminate].
  destruct (load_limits (load_ctx st es) c (ar_limit s)) as [ls|] eqn:LL; cbn [bind] in H; [|discriminate].
  destruct (limits_same _ (load_ctx st' es') c c' _ ls SL LL) as (ls' & ->). cbn [bind]. destruct (ar_bad s); [discriminate|].
  match goal with |- context [prepare_common ?a ?b ?t ?d ?o ?r ?q] => destruct (common_rules_load a b t d o r q) as (rs & -> & _); [apply dept_plain, PD|] end. cbn [bind]. eauto.
Qed.
