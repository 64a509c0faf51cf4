(** Proofs about the loaders. *)
From Coq Require Import List ZArith QArith Bool Ascii String Lia.
From Verif Require Import Prelude Dec Status Course Claims Exceptions Op Context CondExpr Predicate Limit Assertion Query CourseRule Tree Loader.
From Verif Require Import PathsSpec TreeSolSpec LoaderSpec ClaimsProofs PredicateProofs.
Import ListNotations.
Local Open Scope string_scope.
Local Open Scope list_scope.

Lemma blank_iff s : blank s = false <-> not_blank s.
Proof.
  assert (W : forall a, is_space a = true <-> white a).
  { intro a. unfold is_space, white. destruct (Ascii.nat_of_ascii a) as [|n] eqn:E.
    - cbn. intuition; lia.
    - rewrite orb_true_iff, !andb_true_iff, !Nat.leb_le. cbn [In]. lia. }
  unfold not_blank. induction s as [|a s IH]; cbn -[is_space white].
  - split; [discriminate|]. intros (a & _ & []).
  - rewrite andb_false_iff, IH. split.
    + intros [H|(b & N & I')].
      * exists a. split; [|auto]. rewrite <- W. congruence.
      * exists b. auto.
    + intros (b & N & [<-|I']).
      * left. destruct (is_space a) eqn:E; [|reflexivity]. exfalso. apply N, W, E.
      * right. exists b. auto.
Qed.

Lemma names_iff n s : In s (requirement_names n) <-> refers_to s n.
Proof.
  revert s. induction n as [k r|k q|k i items IH|k i result IH|k i t f IHt IHf|k i co] using TreeSpec.node_induction; intro s; cbn [requirement_names].
  - split; [intros []|intro H; inversion H].
  - split; [intros []|intro H; inversion H].
  - rewrite in_flat_map. split.
    + intros (x & X & H). apply (rt_count s k i items x X). apply (IH x X), H.
    + intro H. inversion H as [|? ? ? x X H'|]; subst. exists x. split; [assumption|]. apply (IH x X), H'.
  - split.
    + intros [<-|[]]. constructor. reflexivity.
    + intro H. inversion H; subst. now left.
  - split.
    + destruct (e_result (d_cond i)) as [[|]|] eqn:E.
      * intro H. apply (rt_cond s k i t f t); [constructor; exact E|]. now apply IHt.
      * destruct f as [x|]; [|intros []]. intro H. apply (rt_cond s k i t (Some x) x); [now apply TreeSpec.if_false|]. now apply (IHf x eq_refl).
      * intros [].
    + intro H. inversion H as [| |? ? ? ? x F H']; subst. destruct F as [E|x E ->]; rewrite E.
      * now apply IHt.
      * now apply (IHf x eq_refl).
  - split; [intros []|intro H; inversion H].
Qed.

Lemma if_given_spec s o : if_given s = o <-> (s = "" /\ o = None) \/ (s <> "" /\ o = Some s).
Proof. unfold if_given. destruct (String.eqb_spec s ""); split; intro H; subst; intuition congruence. Qed.

Lemma ok_iff {A} (x y : A) : Ok x = Ok y <-> x = y.
Proof. split; intro H; [now injection H|now rewrite H]. Qed.

Lemma template_rule_spec t r : template_rule t = Ok (Some r) <-> template_stands t r.
Proof.
  destruct t as [sub num sec st y term inst name cl]. unfold template_rule, template_stands. cbn [tp_subject tp_num tp_section tp_sub_type tp_year tp_term tp_institution tp_name tp_clbid].
  rewrite <- !if_given_spec.
  assert (S : forall o, ((if sub =? "" then None else Some (sub ++ " " ++ num)%string) = o) <-> ((sub = "" /\ o = None) \/ (sub <> "" /\ o = Some (sub ++ " " ++ num)%string))).
  { intro o. destruct (String.eqb_spec sub ""); split; intro H; subst; intuition congruence. }
  rewrite <- S. clear S. set (co := if sub =? "" then None else Some (sub ++ " " ++ num)%string).
  destruct r as [r1 r2 r3 r4 r5 r6 r7 r8 r9 r10 r11 r12 r13 r14 r15 r16 r17]. cbn [rc_course rc_ap rc_name rc_institution rc_grade rc_grade_option rc_clbid rc_crsid rc_inserted rc_section rc_sub_type rc_year rc_term rc_from_claimed rc_allow rc_optional rc_bad].
  assert (G : forall yy tt, (match co, if_given name, if_given cl with
      | None, None, None => None
      | _, ap, clbid => Some (mkRawCourse co ap None (if_given inst) None None clbid None false
                                  (if_given sec) (if_given st) yy tt false false false false) end
      = Some (mkRawCourse r1 r2 r3 r4 r5 r6 r7 r8 r9 r10 r11 r12 r13 r14 r15 r16 r17)) <->
      (co = r1 /\ if_given name = r2 /\ if_given cl = r7 /\ if_given inst = r4 /\ if_given sec = r10 /\ if_given st = r11 /\
       r12 = yy /\ r13 = tt /\ r3 = None /\ r5 = None /\ r6 = None /\ r8 = None /\ r9 = false /\ r14 = false /\ r15 = false /\ r16 = false /\ r17 = false /\
       ~ (r1 = None /\ r2 = None /\ r7 = None))).
  { intros yy tt. destruct co, (if_given name), (if_given cl); split;
      try (intro H; injection H; intros; subst; repeat split; try reflexivity; intros (? & ? & ?); discriminate);
      try discriminate;
      intros (? & ? & ? & ? & ? & ? & ? & ? & ? & ? & ? & ? & ? & ? & ? & ? & ? & N); subst; try reflexivity.
    exfalso. apply N. auto. }
  destruct y as [y|].
  - destruct (String.eqb_spec term "") as [E|E].
    + split; [discriminate|]. intros (_ & _ & _ & _ & _ & _ & _ & _ & H & _). destruct H as [H _]; [discriminate|congruence].
    + transitivity (match co, if_given name, if_given cl with
      | None, None, None => None
      | _, ap, clbid => Some (mkRawCourse co ap None (if_given inst) None None clbid None false
                                  (if_given sec) (if_given st) (Some y) (Some term) false false false false) end
      = Some (mkRawCourse r1 r2 r3 r4 r5 r6 r7 r8 r9 r10 r11 r12 r13 r14 r15 r16 r17)).
      { apply ok_iff. }
      rewrite G. split.
      * intros (? & ? & ? & ? & ? & ? & ? & ? & ? & ? & ? & ? & ? & ? & ? & ? & ? & N). subst r12 r13. repeat (split; [first [assumption|reflexivity|intro; congruence|split; [exact E|reflexivity]|intro; exfalso; congruence|intro; split; [exact E|reflexivity]]|]). assumption.
      * intros (? & ? & ? & ? & ? & ? & ? & ? & T & ? & ? & ? & ? & ? & ? & ? & ? & ? & N). destruct T as [_ T]; [congruence|].
        repeat (split; [first [assumption|congruence]|]). assumption.
  - transitivity (match co, if_given name, if_given cl with
      | None, None, None => None
      | _, ap, clbid => Some (mkRawCourse co ap None (if_given inst) None None clbid None false
                                  (if_given sec) (if_given st) None None false false false false) end
      = Some (mkRawCourse r1 r2 r3 r4 r5 r6 r7 r8 r9 r10 r11 r12 r13 r14 r15 r16 r17)).
    { apply ok_iff. }
    rewrite G. split.
    + intros (? & ? & ? & ? & ? & ? & ? & ? & ? & ? & ? & ? & ? & ? & ? & ? & ? & N). subst r12 r13. repeat (split; [first [assumption|reflexivity|intro; congruence|split; [exact E|reflexivity]|intro; exfalso; congruence|intro; split; [exact E|reflexivity]]|]). assumption.
    + intros (? & ? & ? & ? & ? & ? & ? & T & _ & ? & ? & ? & ? & ? & ? & ? & ? & ? & N). specialize (T eq_refl).
      repeat (split; [first [assumption|congruence]|]). assumption.
Qed.

Lemma asked_for_spec k ins n z (b : bool) : (b = true <-> ins) -> (asked_for k b n = Ok z <-> asks k ins n z).
Proof.
  intro B. unfold asked_for, count_is.
  assert (A : (has (rk_all k) || match rk_count k with Some CvAll => true | _ => false end = true)%bool <-> wants_all k).
  { unfold wants_all, has. rewrite orb_true_iff. destruct (rk_all k), (rk_count k) as [[]|]; intuition congruence. }
  assert (Y : (has (rk_any k) || match rk_count k with Some CvAny => true | _ => false end = true)%bool <-> wants_any k).
  { unfold wants_any, has. rewrite orb_true_iff. destruct (rk_any k), (rk_count k) as [[]|]; intuition congruence. }
  replace (match rk_count k with Some CvAll => match CvAll with CvAll => true | _ => false end | Some CvAny => match CvAll with CvAny => true | _ => false end | _ => false end)
    with (match rk_count k with Some CvAll => true | _ => false end) by (destruct (rk_count k) as [[]|]; reflexivity).
  replace (match rk_count k with Some CvAll => match CvAny with CvAll => true | _ => false end | Some CvAny => match CvAny with CvAny => true | _ => false end | _ => false end)
    with (match rk_count k with Some CvAny => true | _ => false end) by (destruct (rk_count k) as [[]|]; reflexivity).
  destruct (has (rk_all k) || _)%bool.
  { split; [intros [=<-]; apply ak_all, A; reflexivity|]. intro H; inversion H; subst; try reflexivity; exfalso; intuition. }
  assert (NA : ~ wants_all k) by (rewrite <- A; discriminate).
  destruct (has (rk_any k) || _)%bool.
  { split; [intros [=<-]; apply ak_any; [assumption|]; apply Y; reflexivity|]. intro H; inversion H; subst; try reflexivity; exfalso; intuition. }
  assert (NY : ~ wants_any k) by (rewrite <- Y; discriminate).
  clear A Y. unfold has. destruct (rk_both k) as [l|] eqn:Eb.
  { destruct b.
    - split; [intros [=<-]; apply ak_both; try assumption; [congruence|left; now apply B]|]. intro H; inversion H; subst; try reflexivity; exfalso; congruence.
    - destruct (Nat.eqb_spec n 2) as [E|E]; split; intro H; try discriminate.
      + injection H as <-. subst n. apply (ak_both k ins 2); try assumption; [congruence|auto].
      + subst n. inversion H; subst; try reflexivity; try contradiction; congruence.
      + exfalso. inversion H; subst; try contradiction; try congruence. assert (~ ins) by (rewrite <- B; discriminate). intuition. }
  destruct (rk_either k) as [l|] eqn:Ee.
  { destruct b.
    - split; [intros [=<-]; apply ak_either; try assumption; [congruence|left; now apply B]|]. intro H; inversion H; subst; try reflexivity; exfalso; congruence.
    - destruct (Nat.eqb_spec n 2) as [E|E]; split; intro H; try discriminate.
      + injection H as <-. apply ak_either; try assumption; [congruence|auto].
      + inversion H; subst; try reflexivity; try contradiction; congruence.
      + exfalso. inversion H; subst; try contradiction; try congruence. assert (~ ins) by (rewrite <- B; discriminate). intuition. }
  split.
  - intro H. destruct (rk_count k) as [[| |z'|]|] eqn:E; try discriminate. injection H as <-. now apply ak_number.
  - intro H. inversion H; subst; try contradiction; try congruence. match goal with X : rk_count k = _ |- _ => now rewrite X end.
Qed.

Section Exact.
  Variables (cx : ctx) (c : constants) (tm : list (string * list template)).
  Notation load_rule := (load_rule cx c tm).
  Notation load_body := (load_body cx c tm).

  (** the loaders stand for the requirements in scope *)
  Definition matching (sc : scope) (env : children) : Prop :=
    forall k, dget env k = match sc k with Some b => Some (load_body b k) | None => None end.
  Definition additions (ems : list added) : list addition := map (fun a => (fst (fst a), snd (fst a), load_body (snd a) (snd (fst a)))) ems.

  Fixpoint expand (l : list rdata) : res (list item) :=
    match l with
    | [] => Ok []
    | y :: t =>
      let! here := match rd_template y with
                   | Some key => template_items tm key
                   | None => Ok [(None, load_rule y (Ok []))]
                   end in
      let! rest := expand t in
      Ok (here ++ rest)
    end.
  Lemma load_rule_eq d adds env p :
    load_rule d adds env p =
    match rd_prof d with Some x => some_node (load_proficiency x p) | None =>
    match rd_course d with Some r => some_node (let! x := load_course p r in Ok (NCourse KRule x)) | None =>
    match rd_query d with Some q => some_node (let! x := load_query cx c p q in Ok (NQuery KRule x)) | None =>
    match rd_cond d with
    | Some x => load_conditional cx x (match rn_then x with Some y => Some (load_rule y (Ok []) env) | None => None end)
                  (match rn_else x with Some y => Some (load_rule y (Ok []) env) | None => None end) p
    | None =>
    match rd_count d with
    | Some k => some_node (load_count cx c k (match rk_items k with Some l => expand l | None => Err KeyErr end) adds env p)
    | None =>
    match rd_name d with Some (name, b) => some_node (load_body b name p) | None =>
    match rd_req d with Some name => some_node (load_named env name p) | None => Err ValueErr end end end end end end end.
  Proof.
    destruct d as [te [pr|] [co|] [q|] [[x t f0 h bd0]|] [[a b o e f n am au bd]|] [[nm b']|] [rq|]]; try reflexivity.
    all: cbn [rd_prof rd_course rd_query rd_cond rd_count]; destruct a as [l|], b as [l1|], o as [l2|], e as [l3|], f as [l4|]; reflexivity.
  Qed.
  Lemma load_body_eq b name p :
    load_body b name p = load_requirement b
      (match rb_result b with
       | Some d => Some (load_rule d (Ok []) (match rb_reqs b with Some l => map (fun x => (fst x, fun q => load_body (snd x) (fst x) q)) l | None => [] end))
       | None => None end) name p.
  Proof. destruct b as [[d|] [l|] a k g dj bd]; reflexivity. Qed.

  Definition exact_body (b : rbody) : Prop := forall name p n, load_body b name p = Ok n <-> written_body cx c tm b name p n.
  Definition exact_data (d : rdata) : Prop := forall ems sc env p o, matching sc env ->
    (forall k b, sc k = Some b -> exact_body b) -> (forall a, In a ems -> exact_body (snd a)) ->
    (load_rule d (Ok (additions ems)) env p = Ok o <-> written cx c tm ems sc d p o).

  Lemma matching_added ems : forall sc env, matching sc env ->
    matching (with_added sc ems) (fold_left (fun d a => dset d (snd (fst a)) (snd a)) (additions ems) env).
  Proof.
    induction ems as [|[[e k] b] t IH]; intros sc env M; cbn -[dset]; [exact M|].
    apply IH. intro s. cbn [fst snd]. destruct (String.eqb_spec s k) as [->|N].
    - now rewrite dget_dset_same.
    - rewrite dget_dset_other by congruence. apply M.
  Qed.
  Lemma exact_added ems : forall sc, (forall k b, sc k = Some b -> exact_body b) -> (forall a, In a ems -> exact_body (snd a)) ->
    forall k b, with_added sc ems k = Some b -> exact_body b.
  Proof.
    induction ems as [|[[e k] b] t IH]; intros sc E A; cbn; [exact E|].
    apply IH; [|intros a I'; apply A; now right].
    intros s b'. destruct (String.eqb_spec s k) as [->|N]; [|apply E]. intros [=<-]. apply (A (e, k, b)). now left.
  Qed.

  Definition entry_item (e : entry) : item :=
    match e with
    | EData d => (None, load_rule d (Ok []))
    | ECourse r => course_item r
    | EEmphasis s k => (Some s, fun env p => some_node (load_named env k p))
    end.
  Lemma some_node_ok r o : some_node r = Ok o <-> exists n, r = Ok n /\ o = Some n.
  Proof. unfold some_node. destruct r as [n|e]; cbn; split; [intros [=<-]; eauto|intros (n' & [=->] & ->); reflexivity|discriminate|intros (n' & H & _); discriminate]. Qed.

  (** an item that cannot be loaded *)
  Lemma items_fail x env p l : In x l -> (forall q, snd x env q = Err ValueErr) -> forall i ns, load_items i env p l <> Ok ns.
  Proof.
    induction l as [|[em f] t IH]; intros IN H i ns; cbn -[index_part]; [destruct IN|destruct IN as [E0|H0]].
    - subst x. cbn in H. rewrite H. discriminate.
    - match goal with |- bind ?x _ <> _ => destruct x as [o|e'] end; cbn -[index_part]; [|discriminate].
      specialize (IH H0 H (S i)). destruct (load_items (S i) env p t) as [r|]; cbn; [|discriminate]. now destruct (IH r).
  Qed.
  Lemma expand_items l : forall its, expand l = Ok its ->
    (exists es, expands tm l es /\ its = map entry_item es) \/ (exists x, In x its /\ forall env q, snd x env q = Err ValueErr).
  Proof.
    induction l as [|d l IH]; cbn [expand]; intros its H.
    - injection H as <-. left. exists []. split; [constructor|reflexivity].
    - match type of H with bind ?x _ = _ => destruct x as [here|e] eqn:E end; cbn in H; [|discriminate].
      destruct (expand l) as [rest|e]; cbn in H; [|discriminate]. injection H as <-.
      specialize (IH rest eq_refl). destruct IH as [(es & X & ->)|(x & X & F)]; [|right; exists x; split; [apply in_or_app; now right|exact F]].
      destruct (rd_template d) as [key|] eqn:T.
      + unfold template_items in E. destruct (dget tm key) as [ts|] eqn:G.
        * destruct (mapr template_rule ts) as [l'|] eqn:M; cbn in E; [|discriminate]. injection E as <-.
          apply mapr_ok in M.
          assert (A : (exists rs, l' = map Some rs) \/ In None l').
          { clear. induction l' as [|[r|] l' IH]; [left; now exists []| |right; now left].
            destruct IH as [(rs & ->)|N]; [left; now exists (r :: rs)|right; now right]. }
          destruct A as [(rs & ->)|N].
          -- left. exists (map ECourse rs ++ es). split.
             ++ apply (xp_template tm d l es key ts rs T G); [|exact X]. clear - M. revert ts M.
                induction rs as [|r rs IH]; intros ts M; inversion M; subst; constructor; auto. now apply template_rule_spec.
             ++ rewrite map_app, !map_map. reflexivity.
          -- right. exists (None, fun _ _ => Err ValueErr). split; [|reflexivity].
             apply in_or_app. left. apply in_map_iff. exists None. auto.
        * cbn in E. injection E as <-. left. exists es. split; [eapply xp_unknown; eauto|reflexivity].
      + injection E as <-. left. exists (EData d :: es). split; [now constructor|reflexivity].
  Qed.
  Lemma items_expand l es : expands tm l es -> expand l = Ok (map entry_item es).
  Proof.
    induction 1 as [|d l es T X IH|d l es key ts rs T G F X IH|d l es key T G X IH]; cbn [expand]; [reflexivity| | |]; rewrite T, IH; cbn.
    - reflexivity.
    - unfold template_items. rewrite G.
      assert (M : mapr template_rule ts = Ok (map Some rs)).
      { clear - F. induction F as [|t r ts rs S F IH]; cbn; [reflexivity|]. apply template_rule_spec in S. rewrite S. cbn. rewrite IH. reflexivity. }
      rewrite M. cbn. rewrite map_app, !map_map. reflexivity.
    - unfold template_items. rewrite G. reflexivity.
  Qed.

  Lemma items_kids ems sc env p es : matching sc env ->
    (forall d, In (EData d) es -> exact_data d) ->
    (forall k b, sc k = Some b -> exact_body b) -> (forall a, In a ems -> exact_body (snd a)) ->
    let env' := fold_left (fun d a => dset d (snd (fst a)) (snd a)) (additions ems) env in
    forall i ns, load_items i env' p (map entry_item es) = Ok ns <-> kids cx c tm ems sc p i es ns.
  Proof.
    intros M D E A env'. assert (M' := matching_added ems sc env M). fold env' in M'.
    assert (E' := exact_added ems sc E A).
    assert (One : forall e q o, (In e es) -> (snd (entry_item e) env' q = Ok o <-> written_entry cx c tm ems sc e q o)).
    { intros [d|r|s k] q o I'; cbn [entry_item snd course_item].
      - assert (X := D d I' [] (with_added sc ems) env' q o M' E' (fun a H => match H with end)). cbn [additions map] in X. rewrite X.
        split; [intro H; now constructor|intro H; now inversion H].
      - rewrite some_node_ok. destruct (load_course q r) as [x|e] eqn:L; cbn; split.
        + intros (n & [=<-] & ->). now constructor.
        + intro H. inversion H; subst. rewrite L in *. eexists. split; [reflexivity|]. congruence.
        + intros (n & H & _). discriminate.
        + intro H. inversion H; subst. congruence.
      - rewrite some_node_ok. unfold load_named. rewrite (M' k). destruct (with_added sc ems k) as [b|] eqn:W; split.
        + intros (n & H & ->). apply (we_emphasis _ _ _ _ _ _ _ b); [exact W|]. now apply (E' k b W).
        + intro H. inversion H; subst. rewrite W in *. match goal with Z : Some b = Some _ |- _ => injection Z as <- end. eexists. split; [apply (E' k b W); eassumption|reflexivity].
        + intros (n & H & _). discriminate.
        + intro H. inversion H; subst. congruence. }
    assert (Pl : forall e i, match fst (entry_item e) with Some s => if s =? "" then p ++ [index_part i] else p ++ [".emphasis"] | None => p ++ [index_part i] end = entry_path p i e).
    { intros [d|r|s k] i; try reflexivity. cbn -[index_part index_comp]. destruct (String.eqb_spec s "") as [->|N]; [reflexivity|]. destruct s; [congruence|reflexivity]. }
    clear D E A M M' E'.
    induction es as [|e es IH]; intros i ns; cbn [map load_items].
    - split; [intros [=<-]; constructor|intro H; inversion H; reflexivity].
    - destruct (entry_item e) as [em f] eqn:Ee.
      assert (One' := fun q o => One e q o (or_introl eq_refl)). rewrite Ee in One'. cbn [snd] in One'.
      assert (Pl' := Pl e i). rewrite Ee in Pl'. cbn [fst] in Pl'. rewrite Pl'. clear Pl'.
      specialize (IH (fun x q o I' => One x q o (or_intror I')) (S i)). split.
      + intro H. destruct (f env' (entry_path p i e)) as [o|] eqn:F; cbn in H; [|discriminate].
        destruct (load_items (S i) env' p (map entry_item es)) as [rest|] eqn:R; cbn in H; [|discriminate]. injection H as <-.
        apply One' in F. destruct o as [n|]; [apply kd_one|apply kd_hidden]; auto; now apply IH.
      + intro H. inversion H; subst.
        * match goal with Z : written_entry _ _ _ _ _ _ _ _ |- _ => apply One' in Z; rewrite Z; cbn end.
          match goal with Z : kids _ _ _ _ _ _ _ _ _ |- _ => apply IH in Z; rewrite Z end. reflexivity.
        * match goal with Z : written_entry _ _ _ _ _ _ _ _ |- _ => apply One' in Z; rewrite Z; cbn end.
          match goal with Z : kids _ _ _ _ _ _ _ _ _ |- _ => apply IH in Z; rewrite Z end. reflexivity.
  Qed.

  Lemma audits_spec p rs l : load_audits cx c p rs = Ok l <-> audits_loaded cx c p 0 rs l.
  Proof.
    unfold load_audits.
    enough (G : forall i, mapr (fun x => load_any cx c DtCourse (p ++ [".audit"; index_part (fst x)]) (snd x)) (combine (seq i (List.length rs)) rs) = Ok l
                <-> audits_loaded cx c p i rs l) by apply G.
    revert l. induction rs as [|r rs IH]; intros l i; cbn [List.length seq combine mapr].
    - split; [intros [=<-]; constructor|intro H; inversion H; reflexivity].
    - cbn [fst snd]. split.
      + intro H. destruct (load_any cx c DtCourse (p ++ [".audit"; index_part i]) r) as [a|] eqn:L; cbn in H; [|discriminate].
        match type of H with bind ?x _ = _ => destruct x as [t|] eqn:T end; cbn in H; [|discriminate]. injection H as <-.
        constructor; [exact L|]. now apply IH.
      + intro H. inversion H as [|? ? ? ? l' L T]; subst. change (index_comp i) with (index_part i) in L. rewrite L. cbn [bind]. apply IH in T. rewrite T. reflexivity.
  Qed.
  Lemma insertion_spec e r : is_insert e = true -> (inserted_item cx e = Ok r <-> insertion cx e r).
  Proof.
    destruct e as [p a]. unfold inserted_item, insertion, is_insert, exc_clbid, exc_forced. cbn [ex_act]. destruct a as [k f| | | | |]; try discriminate. intros _.
    destruct (forced_by_clbid cx k) as [x|] eqn:F; cbn; split.
    - intros [=<-]. exists k, f, x. split; [reflexivity|]. split; [exact F|reflexivity].
    - intros (k' & f' & x' & [=<- <-] & F' & ->). rewrite F in F'. injection F' as <-. reflexivity.
    - discriminate.
    - intros (k' & f' & x' & [=<- <-] & F' & ->). congruence.
  Qed.
  Lemma insertions_spec p rs : mapr (inserted_item cx) (get_inserts (cx_exc cx) p) = Ok rs <-> Forall2 (insertion cx) (get_inserts (cx_exc cx) p) rs.
  Proof.
    assert (A : forall e, In e (get_inserts (cx_exc cx) p) -> is_insert e = true) by (intros e H; unfold get_inserts in H; apply filter_In in H; tauto).
    revert rs A. induction (get_inserts (cx_exc cx) p) as [|e l IH]; intros rs A; cbn [mapr].
    - split; [intros [=<-]; constructor|intro H; inversion H; reflexivity].
    - specialize (fun rs => IH rs (fun x I' => A x (or_intror I'))). assert (B := fun r => insertion_spec e r (A e (or_introl eq_refl))). split.
      + intro H. destruct (inserted_item cx e) as [r|] eqn:R; cbn in H; [|discriminate]. destruct (mapr (inserted_item cx) l) as [t|] eqn:T; cbn in H; [|discriminate].
        injection H as <-. constructor; [now apply B|]. now apply IH.
      + intro H. inversion H as [|? r ? t R T]; subst. apply B in R. apply IH in T. rewrite R. cbn. rewrite T. reflexivity.
  Qed.
  Lemma items_listed k l : rk_items k = Some l <-> listed k l.
  Proof.
    unfold rk_items. split.
    - destruct (rk_all k) eqn:A; [intros [=<-]; now apply li_all|].
      destruct (rk_any k) eqn:B; [intros [=<-]; now apply li_any|].
      destruct (rk_both k) eqn:C; [intros [=<-]; now apply li_both|].
      destruct (rk_either k) eqn:D; [intros [=<-]; now apply li_either|].
      intro E. now apply li_of.
    - destruct 1 as [l A|l A B|l A B C|l A B C D|l A B C D E]; rewrite ?A, ?B, ?C, ?D; assumption || reflexivity.
  Qed.

  Lemma shape_once d s s' : first_shape d s -> first_shape d s' -> s = s'.
  Proof. destruct s, s'; cbn; intros; repeat match goal with H : _ /\ _ |- _ => destruct H end; congruence. Qed.
  Lemma written_count_inv ems sc d p o k : written cx c tm ems sc d p o -> first_shape d (ShCount k) ->
    exists l es ins audits nodes z, listed k l /\ expands tm l es /\ Forall2 (insertion cx) (get_inserts (cx_exc cx) (p ++ [".count"])) ins /\
      kids cx c tm ems sc (p ++ [".count"]) 0 (es ++ map (fun a => EEmphasis (fst (fst a)) (snd (fst a))) ems ++ map ECourse ins) nodes /\
      audits_loaded cx c (p ++ [".count"]) 0 (match rk_audit k with Some l => l | None => [] end) audits /\
      asks k (ins <> []) (List.length nodes) z /\ rk_bad k = false /\ (0 <= z)%Z /\
      (rk_at_most k = true \/ (z <= Z.of_nat (List.length (es ++ map (fun a => EEmphasis (fst (fst a)) (snd (fst a))) ems ++ map ECourse ins)))%Z) /\
      o = Some (NCount KRule (mkCount (p ++ [".count"]) false z (rk_at_most k) audits) nodes).
  Proof.
    intro W. destruct W; match goal with H : first_shape d _ |- _ => rename H into Hs end; intro Sh; assert (Q := shape_once _ _ _ Hs Sh); try discriminate Q.
    injection Q as <-. do 6 eexists. repeat (split; [eassumption|]). reflexivity.
  Qed.
  Lemma count_exact ems sc env d p o k : rd_prof d = None -> rd_course d = None -> rd_query d = None -> rd_cond d = None -> rd_count d = Some k ->
    matching sc env -> (forall l y, listed k l -> In y l -> exact_data y) ->
    (forall k b, sc k = Some b -> exact_body b) -> (forall a, In a ems -> exact_body (snd a)) ->
    (some_node (load_count cx c k (match rk_items k with Some l => expand l | None => Err KeyErr end) (Ok (additions ems)) env p) = Ok o
     <-> written cx c tm ems sc d p o).
  Proof.
    intros S1 S2 S3 S4 S5 M D E A. rewrite some_node_ok.
    assert (Sh : first_shape d (ShCount k)) by (repeat split; assumption).
    assert (ID : forall l es, expands tm l es -> forall d', In (EData d') es -> In d' l).
    { clear. induction 1 as [|d l es T X IH|d l es key ts rs T G F X IH|d l es key T G X IH]; intros d' I'; [destruct I'| | |].
      - destruct I' as [[=->]|I']; [now left|right; auto].
      - right. apply in_app_or in I' as [I'|I']; [|auto]. apply in_map_iff in I' as (r & Q & _). discriminate.
      - right. auto. }
    assert (EI : map emphasis_item (additions ems)
                 = map entry_item (map (fun a : added => EEmphasis (fst (fst a)) (snd (fst a))) ems)).
    { unfold additions. rewrite !map_map. reflexivity. }
    assert (CI : forall ins, map course_item ins = map entry_item (map ECourse ins)) by (intro ins; rewrite map_map; reflexivity).
    unfold load_count. cbn [bind]. rewrite EI. split.
    - intros (n & H & ->). destruct (rk_items k) as [l|] eqn:L; cbn [bind] in H; [|discriminate].
      destruct (expand l) as [its|] eqn:X; cbn [bind] in H; [|discriminate].
      match type of H with bind ?x _ = _ => destruct x as [ins|] eqn:IN end; cbn [bind] in H; [|discriminate].
      match type of H with bind ?x _ = _ => destruct x as [au|] eqn:AU end; cbn [bind] in H; [|discriminate].
      match type of H with bind ?x _ = _ => destruct x as [ns|] eqn:NS end; cbn [bind] in H; [|discriminate].
      match type of H with bind ?x _ = _ => destruct x as [z|] eqn:Z end; cbn [bind] in H; [|discriminate].
      destruct (rk_bad k) eqn:BD; [discriminate|]. destruct (Z.ltb_spec z 0) as [|Z0]; [discriminate|].
      assert (L' := proj1 (items_listed k l) L).
      destruct (expand_items l its X) as [(es & XE & ->)|(x & XI & F)].
      2: { exfalso. eapply (items_fail x); [apply in_or_app; left; exact XI|intro q; apply F|exact NS]. }
      rewrite CI, <- !map_app in NS. rewrite (items_kids ems sc env (p ++ [".count"])) in NS; [|assumption| |assumption|assumption].
      2: { intros d' I'. apply (D l); [exact L'|]. apply in_app_or in I' as [I'|I']; [eapply ID; eassumption|].
           exfalso. apply in_app_or in I' as [I'|I']; apply in_map_iff in I' as (r & Q & _); discriminate. }
      rewrite CI, <- !map_app, map_length in H.
      destruct (negb (rk_at_most k) && _)%bool eqn:AM; [discriminate|]. injection H as <-.
      refine (w_count cx c tm ems sc d p k l es ins au ns z Sh L' XE _ NS _ _ BD Z0 _).
      + now apply insertions_spec.
      + destruct (rk_audit k) as [rs|]; [now apply audits_spec|]. injection AU as <-. constructor.
      + eapply asked_for_spec; [|exact Z]. destruct ins; [intuition congruence|]. split; [discriminate|reflexivity].
      + apply andb_false_iff in AM as [AM|AM]; [left; now destruct (rk_at_most k)|right; now apply Z.ltb_ge].
    - intro W. destruct (written_count_inv _ _ _ _ _ _ W Sh) as (l & es & ins & au & ns & z & L' & XE & IN & K & AU & AK & BD & Z0 & HI & ->).
      rewrite (proj2 (items_listed k l) L'), (items_expand l es XE), (proj2 (insertions_spec _ ins) IN). cbn [bind].
      replace (match rk_audit k with Some l => load_audits cx c (p ++ [".count"]) l | None => Ok [] end) with (Ok au)
        by (destruct (rk_audit k) as [rs|]; [symmetry; now apply audits_spec|inversion AU; reflexivity]). cbn [bind].
      rewrite CI, <- !map_app. apply (items_kids ems sc env) in K; [|assumption| |assumption|assumption].
      2: { intros d' I'; apply (D l); [exact L'|]; apply in_app_or in I' as [I'|I']; [eapply ID; eassumption|];
           exfalso; apply in_app_or in I' as [I'|I']; apply in_map_iff in I' as (r & Q & _); discriminate. }
      match goal with |- context [load_items ?a ?b ?c ?d] => replace (load_items a b c d) with (Ok ns) by (symmetry; exact K) end. cbn [bind].
      rewrite (proj2 (asked_for_spec k (ins <> []) (List.length ns) z (match ins with [] => false | _ => true end) ltac:(destruct ins; [intuition congruence|split; [discriminate|reflexivity]])) AK). cbn [bind].
      rewrite BD. destruct (Z.ltb_spec z 0) as [|_]; [lia|]. rewrite map_length.
      match goal with |- context [(negb (rk_at_most k) && ?x)%bool] => replace (negb (rk_at_most k) && x)%bool with false end; [eauto|].
      destruct HI as [->|HI]; [reflexivity|]. symmetry. apply andb_false_iff. right. now apply Z.ltb_ge.
  Qed.

  Lemma written_cond_inv ems sc d p o x : written cx c tm ems sc d p o -> first_shape d (ShCond x) ->
    exists cond t nt nf, rn_bad x = false /\ load_expr cx (rn_if x) = Ok cond /\ rn_then x = Some t /\
      written cx c tm [] sc t (p ++ [".cond"; "/t"]) (Some nt) /\ written_opt cx c tm sc (rn_else x) (p ++ [".cond"; "/f"]) nf /\
      o = if match e_result cond with Some false => rn_hide x && negb (has (get_waive (cx_exc cx) (p ++ [".cond"]))) | _ => false end then None
          else Some (NCond KRule (mkCond (p ++ [".cond"]) (has (get_waive (cx_exc cx) (p ++ [".cond"]))) cond) nt nf).
  Proof.
    intro W. destruct W; match goal with H : first_shape d _ |- _ => rename H into Hs end; intro Sh; assert (Q := shape_once _ _ _ Hs Sh); try discriminate Q; injection Q as <-; do 4 eexists;
      repeat (split; [eassumption|]).
    - assert (O : o = has (get_waive (cx_exc cx) (p ++ [".cond"]))).
      { unfold waived in *. destruct (get_waive (cx_exc cx) (p ++ [".cond"])) as [e|]; cbn.
        - now apply H4; eauto.
        - destruct o; [|reflexivity]. destruct (proj1 H4 eq_refl) as (e & E). discriminate. }
      rewrite <- O. match goal with |- _ = if ?b then _ else _ => destruct b eqn:B end; [|reflexivity]. exfalso.
      destruct (e_result cond) as [[|]|] eqn:ER; try discriminate. apply andb_true_iff in B as [B1 B2]. apply H5.
      split; [reflexivity|]. split; [exact B1|]. intro X. apply H4 in X. rewrite X in B2. discriminate.
    - rewrite H4, H5, H6. reflexivity.
  Qed.
  Lemma cond_exact ems sc env d p o x : rd_prof d = None -> rd_course d = None -> rd_query d = None -> rd_cond d = Some x ->
    matching sc env -> (forall k b, sc k = Some b -> exact_body b) ->
    (forall y, rn_then x = Some y \/ rn_else x = Some y -> exact_data y) ->
    (load_conditional cx x (match rn_then x with Some y => Some (load_rule y (Ok []) env) | None => None end)
       (match rn_else x with Some y => Some (load_rule y (Ok []) env) | None => None end) p = Ok o <-> written cx c tm ems sc d p o).
  Proof.
    intros S1 S2 S3 S4 M E D. assert (Sh : first_shape d (ShCond x)) by (repeat split; assumption).
    assert (B : forall y q o', rn_then x = Some y \/ rn_else x = Some y -> (load_rule y (Ok []) env q = Ok o' <-> written cx c tm [] sc y q o')).
    { intros y q o' H. apply (D y H [] sc env q o' M E (fun a I' => match I' with end)). }
    assert (Op : forall q o', match (match rn_else x with Some y => Some (load_rule y (Ok []) env) | None => None end) with Some f => f q | None => Ok None end = Ok o'
                 <-> written_opt cx c tm sc (rn_else x) q o').
    { intros q o'. destruct (rn_else x) as [y|] eqn:El.
      - rewrite B by auto. split; intro H; [now constructor|now inversion H].
      - split; intro H; [injection H as <-; constructor|inversion H; reflexivity]. }
    unfold load_conditional. rewrite <- !app_assoc. cbn [app].
    split.
    - destruct (rn_bad x) eqn:BD; [discriminate|]. intro H.
      destruct (load_expr cx (rn_if x)) as [cond|] eqn:L; cbn [bind] in H; [|discriminate].
      destruct (rn_then x) as [t|] eqn:T; cbn [bind] in H; [|discriminate].
      match type of H with bind ?z _ = _ => destruct z as [[nt|]|] eqn:NT end; cbn [bind] in H; try discriminate.
      match type of H with bind ?z _ = _ => destruct z as [nf|] eqn:NF end; cbn [bind] in H; [|discriminate].
      apply B in NT; [|auto]. apply Op in NF.
      assert (W : e_result cond = Some false -> rn_hide x = true -> get_waive (cx_exc cx) (p ++ [".cond"]) = None -> written cx c tm ems sc d p None)
        by (intros; eapply w_hidden; eassumption).
      assert (V : ~ (e_result cond = Some false /\ rn_hide x = true /\ ~ exists e, get_waive (cx_exc cx) (p ++ [".cond"]) = Some e) ->
                  written cx c tm ems sc d p (Some (NCond KRule (mkCond (p ++ [".cond"]) (has (get_waive (cx_exc cx) (p ++ [".cond"]))) cond) nt nf))).
      { intro N. eapply w_cond; try eassumption. unfold has. destruct (get_waive (cx_exc cx) (p ++ [".cond"])); split; intro H'; eauto; try discriminate. destruct H'; discriminate. }
      destruct (e_result cond) as [[|]|] eqn:ER.
      + injection H as <-. apply V. intros (Q & _). discriminate.
      + destruct (get_waive (cx_exc cx) (p ++ [".cond"])) as [e|] eqn:G; cbn [has negb andb] in H.
        * injection H as <-. apply V. intros (_ & _ & N). apply N. eauto.
        * destruct (rn_hide x) eqn:Hd; injection H as <-.
          -- apply W; reflexivity.
          -- apply V. intros (_ & Q & _). discriminate.
      + injection H as <-. apply V. intros (Q & _). discriminate.
    - intro W. destruct (written_cond_inv _ _ _ _ _ _ W Sh) as (cond & t & nt & nf & BD & L & T & NT & NF & ->).
      rewrite BD, L, T. cbn [bind]. apply B in NT; [|auto]. rewrite NT. cbn [bind]. apply Op in NF. rewrite NF. cbn [bind].
      destruct (e_result cond) as [[|]|]; try reflexivity. rewrite andb_comm. destruct (rn_hide x && _)%bool; reflexivity.
  Qed.
  Lemma body_exact b : (forall d, rb_result b = Some d -> exact_data d) -> (forall l s b', rb_reqs b = Some l -> In (s, b') l -> exact_body b') -> exact_body b.
  Proof.
    intros D R name p n. rewrite load_body_eq.
    match goal with |- load_requirement b (match _ with Some d => Some (load_rule d (Ok []) ?e) | None => None end) _ _ = _ <-> _ => set (env := e) end.
    assert (M : matching (own_scope b) env).
    { intro k. unfold own_scope, env. destruct (rb_reqs b) as [l|]; [|reflexivity]. clear. induction l as [|[s b'] l IH]; cbn [map dget fst snd]; [reflexivity|].
      destruct (String.eqb_spec k s) as [->|N]; [reflexivity|exact IH]. }
    assert (E : forall k b', own_scope b k = Some b' -> exact_body b').
    { intros k b' H. unfold own_scope in H. destruct (rb_reqs b) as [l|] eqn:L; [|discriminate]. apply dget_Some_in in H. eapply R; [reflexivity|exact H]. }
    assert (B : forall d q o', rb_result b = Some d -> (load_rule d (Ok []) env q = Ok o' <-> written cx c tm [] (own_scope b) d q o')).
    { intros d q o' H. apply (D d H [] (own_scope b) env q o' M E (fun a I' => match I' with end)). }
    unfold load_requirement. split.
    - destruct (rb_bad b) eqn:BD; [discriminate|]. intro H. destruct (rb_result b) as [d|] eqn:RS.
      + destruct (load_rule d (Ok []) env (p ++ [("%" ++ name)%string])) as [[x|]|] eqn:X; cbn [bind] in H; try discriminate.
        cbv zeta in H. match type of H with bind (if ?f then _ else _) _ = _ => destruct f eqn:F end; cbn [bind] in H; [|discriminate].
        cbn [has] in H. rewrite andb_false_r in H. destruct (blank name) eqn:BL; [discriminate|]. injection H as <-.
        eapply wb_result; [exact BD|exact RS|now apply blank_iff|apply B; [reflexivity|exact X]|].
        intros s b' l RL I'. rewrite RL in F. rewrite forallb_forall in F. specialize (F _ I'). cbn [fst] in F.
        apply existsb_exists in F as (y & Y & EQ). apply String.eqb_eq in EQ. subst y. now apply names_iff.
      + cbn [bind has negb] in H. destruct (rb_audited b) eqn:AU; cbn [negb andb] in H; [|discriminate]. destruct (blank name) eqn:BL; [discriminate|]. injection H as <-.
        assert (W := wb_none cx c tm b name p BD RS AU (proj1 (blank_iff name) BL)). rewrite AU in W. exact W.
    - intro W. destruct W as [b name p d n BD RS NB W U|b name p BD RS AU NB].
      + rewrite BD, RS. apply B in W; [|exact RS]. rewrite W. cbn [bind].
        replace (forallb _ _) with true.
        2: { symmetry. apply forallb_forall. intros [s b'] I'. destruct (rb_reqs b) as [l|] eqn:L; [|destruct I'].
             apply existsb_exists. exists s. cbn [fst]. split; [|apply String.eqb_refl]. apply names_iff. eapply U; [reflexivity|exact I']. }
        cbn [bind has negb]. rewrite andb_false_r. apply blank_iff in NB. rewrite NB. reflexivity.
      + rewrite BD, RS. cbn [bind has negb]. rewrite AU. cbn [negb andb]. apply blank_iff in NB. rewrite NB. reflexivity.
  Qed.

  Lemma exact : (forall d, exact_data d) /\ (forall b, exact_body b).
  Proof.
    apply spec_induction.
    - intros d IC IK IN ems sc env p o M E A. rewrite load_rule_eq.
      destruct (rd_prof d) as [[[name [r|]] [|]]|] eqn:S1.
      + cbn. split; [discriminate|]. intro W. exfalso. destruct W; cbn in *; repeat match goal with H : _ /\ _ |- _ => destruct H end; congruence.
      + assert (Sh : first_shape d (ShProf (name, Some r, false))) by exact S1. rewrite some_node_ok. unfold load_proficiency.
        destruct (load_course (p ++ [(".proficiency=" ++ name)%string]) r) as [x|] eqn:L; cbn [bind]; split.
        * intros (n & [=<-] & ->). eapply w_prof_course; eassumption.
        * intro W. destruct W; match goal with H : first_shape d _ |- _ => assert (Q := shape_once _ _ _ H Sh) end; try discriminate Q.
          injection Q as -> ->. rewrite L in *. match goal with H : Ok _ = Ok _ |- _ => injection H as <- end. eauto.
        * intros (n & H & _). discriminate.
        * intro W. destruct W; match goal with H : first_shape d _ |- _ => assert (Q := shape_once _ _ _ H Sh) end; try discriminate Q.
          injection Q as -> ->. congruence.
      + cbn. split; [discriminate|]. intro W. exfalso. destruct W; cbn in *; repeat match goal with H : _ /\ _ |- _ => destruct H end; congruence.
      + assert (Sh : first_shape d (ShProf (name, None, false))) by exact S1. rewrite some_node_ok. cbn. split.
        * intros (n & [=<-] & ->). eapply w_prof; eassumption.
        * intro W. destruct W; match goal with H : first_shape d _ |- _ => assert (Q := shape_once _ _ _ H Sh) end; try discriminate Q.
          injection Q as ->. eauto.
      + destruct (rd_course d) as [r|] eqn:S2.
        { assert (Sh : first_shape d (ShCourse r)) by (split; assumption). rewrite some_node_ok.
          destruct (load_course p r) as [x|] eqn:L; cbn [bind]; split.
          * intros (n & [=<-] & ->). eapply w_course; eassumption.
          * intro W. destruct W; match goal with H : first_shape d _ |- _ => assert (Q := shape_once _ _ _ H Sh) end; try discriminate Q.
            injection Q as ->. rewrite L in *. match goal with H : Ok _ = Ok _ |- _ => injection H as <- end. eauto.
          * intros (n & H & _). discriminate.
          * intro W. destruct W; match goal with H : first_shape d _ |- _ => assert (Q := shape_once _ _ _ H Sh) end; try discriminate Q.
            injection Q as ->. congruence. }
        destruct (rd_query d) as [r|] eqn:S3.
        { assert (Sh : first_shape d (ShQuery r)) by (repeat split; assumption). rewrite some_node_ok.
          destruct (load_query cx c p r) as [x|] eqn:L; cbn [bind]; split.
          * intros (n & [=<-] & ->). eapply w_query; eassumption.
          * intro W. destruct W; match goal with H : first_shape d _ |- _ => assert (Q := shape_once _ _ _ H Sh) end; try discriminate Q.
            injection Q as ->. rewrite L in *. match goal with H : Ok _ = Ok _ |- _ => injection H as <- end. eauto.
          * intros (n & H & _). discriminate.
          * intro W. destruct W; match goal with H : first_shape d _ |- _ => assert (Q := shape_once _ _ _ H Sh) end; try discriminate Q.
            injection Q as ->. congruence. }
        destruct (rd_cond d) as [x|] eqn:S4.
        { apply cond_exact; try assumption. destruct IC as [IT IE]. intros y [H|H]; [rewrite H in IT; exact IT|rewrite H in IE; exact IE]. }
        destruct (rd_count d) as [k|] eqn:S5.
        { apply count_exact; try assumption. destruct IK as (I1 & I2 & I3 & I4 & I5). intros l y L Y.
          destruct L as [l Q|l _ Q|l _ _ Q|l _ _ _ Q|l _ _ _ _ Q]; rewrite Q in *; auto. }
        destruct (rd_name d) as [[name b]|] eqn:S6.
        { assert (Sh : first_shape d (ShNamed name b)) by (repeat split; assumption). rewrite some_node_ok. split.
          * intros (n & H & ->). eapply w_named; [exact Sh|]. now apply IN.
          * intro W. destruct W; match goal with H : first_shape d _ |- _ => assert (Q := shape_once _ _ _ H Sh) end; try discriminate Q.
            injection Q as -> ->. eexists. split; [apply IN; eassumption|reflexivity]. }
        destruct (rd_req d) as [name|] eqn:S7.
        { assert (Sh : first_shape d (ShRef name)) by (repeat split; assumption). rewrite some_node_ok. unfold load_named. rewrite (M name). split.
          * intros (n & H & ->). destruct (sc name) as [b|] eqn:SN; [|discriminate]. eapply w_ref; [exact Sh|exact SN|]. now apply (E name b SN).
          * intro W. destruct W; match goal with H : first_shape d _ |- _ => assert (Q := shape_once _ _ _ H Sh) end; try discriminate Q.
            injection Q as ->. match goal with H : sc name = Some _ |- _ => rewrite H; assert (SN := H) end. eexists. split; [eapply (E name _ SN); eassumption|reflexivity]. }
        split; [discriminate|]. intro W. exfalso. destruct W; cbn in *; repeat match goal with H : _ /\ _ |- _ => destruct H end; congruence.
    - intros b ID IR. apply body_exact.
      + intros d H. rewrite H in ID. exact ID.
      + intros l s b' H I'. rewrite H in IR. eapply IR, I'.
  Qed.
End Exact.
