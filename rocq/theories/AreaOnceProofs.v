(** Proofs that no class is used twice in the result of an area. *)
From Coq Require Import List ZArith QArith Bool String Lia Sorted Permutation.
From Verif Require Import Prelude Dec Status Course Claims Exceptions Op Context CondExpr Paths Predicate Limit Apply Assertion Query CourseRule Tree Solve Transcript Driver Area.
From Verif Require Import ListFacts LimitSpec LimitProps ClaimsSpec ClaimsProofs PathsSpec PathsProofs ExceptionsProofs AssertionSpec AssertionProofs PredicateProofs QuerySpec QueryProofs QueryProps CourseRuleSpec CourseRuleProofs TreeSpec TreeProofs TreeSolSpec TreeSolProofs TreeAskProps TreeAuditSpec TreeAuditProofs SolveSpec SolveProofs SolveSafe SolveProps AreaSpec AreaProofs AreaProps ExactProps AreaOnceSpec.
Import ListNotations.
Local Open Scope list_scope.

Section Leaf.
  Context (ord : list course -> list course) (cx : ctx).
  (** a leaf of [n] that asks for [a] in one of its solutions, and whose matches are among
      those of [n] *)
  Definition leaf_asks (n : node) (a : attempt) : Prop :=
    exists x, part_of n x /\
      ((exists k r s h, x = NCourse k r /\ In s (g_items (c_solutions cx r)) /\ course_asks s h /\ In a h) \/
       (exists k i k' r s h, x = NProf k i (Some (k', r)) /\ In s (g_items (c_solutions cx r)) /\ course_asks s h /\ In a h) \/
       (exists k q s h, x = NQuery k q /\ In s (g_items (q_solutions ord cx q)) /\ query_asks cx s h /\ In a h)) /\
      (forall ms, matches_of cx n = Ok ms -> exists ms', matches_of cx x = Ok ms' /\ incl ms' ms).
  Lemma leaf_up n m a : (forall x, part_of m x -> part_of n x) ->
    (forall ms, matches_of cx n = Ok ms -> exists ms', matches_of cx m = Ok ms' /\ incl ms' ms) -> leaf_asks m a -> leaf_asks n a.
  Proof.
    intros P M [x [PX [L MX]]]. exists x. split; auto. split; auto. intros ms E. destruct (M ms E) as [ms1 [E1 I1]]. destruct (MX ms1 E1) as [ms2 [E2 I2]].
    exists ms2. split; auto. intros y I. auto.
  Qed.
  Lemma asked_leaf n : rule_tree n -> forall s h a, In s (g_items (solutions ord cx n)) -> asks cx s h -> In a h -> leaf_asks n a.
  Proof.
    induction n as [k r|k q|k i items IH|k i o IH|k i t f IHt IHf|k i c] using node_induction; intros RT s h a I A Ia.
    - cbn [solutions gmap g_items] in I. apply in_map_iff in I. destruct I as [y [<- I]]. inversion A; subst. exists (NCourse k r). split; [constructor|].
      split; [left; repeat eexists; eauto|]. intros ms E. exists ms. split; [exact E|apply incl_refl].
    - cbn [solutions gmap g_items] in I. apply in_map_iff in I. destruct I as [y [<- I]]. inversion A; subst. exists (NQuery k q). split; [constructor|].
      split; [right; right; repeat eexists; eauto|]. intros ms E. exists ms. split; [exact E|apply incl_refl].
    - assert (RC : forall x, In x items -> kind_of x = KRule) by (intros x J; apply RT; eapply pt_count; [exact J|constructor]).
      assert (SUB : forall c y, In c items -> In y (g_items (solutions ord cx c)) -> forall h' a', asks cx y h' -> In a' h' -> leaf_asks (NCount k i items) a').
      { intros c y Ic Iy h' a' A' Ia'. apply leaf_up with (m := c).
        - intros x P. eapply pt_count; eauto.
        - intros ms E. cbn [matches_of] in E. destruct (mapr _ items) as [ls|] eqn:M; cbn [bind] in E; [|discriminate]. injection E as <-.
          destruct (mapr_each _ _ _ M c Ic) as [ms' E']. exists ms'. split; auto. intros z J. eapply mapr_concat_in; eauto.
        - eapply (IH c Ic); eauto. intros x P. apply RT. eapply pt_count; eauto. }
      rewrite solutions_count in I. unfold count_solutions in I. destruct (waived cx (n_path i)).
      { destruct I as [<-|[]]. unfold count_solution in A. inversion A as [| | |? ? ? hs O F| | | | | | | |]; subst; [destruct Ia|]. discriminate. }
      destruct (potential_children cx _) as [pot|] eqn:P; [|destruct I]. apply count_run_from in I. destruct I as [sel [sols [SI [SV ->]]]].
      unfold built, count_solution in A. inversion A as [| | |? ? ? hs O F| | | | | | | |]; subst; [destruct Ia|].
      apply in_concat in Ia. destruct Ia as [h' [Ih Ia]]. destruct (F2_in_r _ _ _ _ F Ih) as [y [Iy HY]].
      rewrite sort_in, !in_app_iff in Iy. destruct Iy as [Iy|[Iy|[]]].
      + destruct (solves_in _ _ _ SV Iy) as [c [Ic J]]. apply SI in Ic. rewrite sort_in in Ic.
        assert (IC : exists c', In c' items /\ c = child_of ord cx c').
        { unfold potential_children in P. destruct (filter_res _ _) as [fl|] eqn:FR; cbn [bind] in P; [|discriminate]. injection P as <-.
          apply filter_res_items in FR. destruct FR as [-> _]. apply dedup_incl in Ic. apply filter_In in Ic. destruct Ic as [Ic _].
          apply in_map_iff in Ic. destruct Ic as [c' [<- Ic]]. eauto. }
        destruct IC as [c' [Ic' ->]]. cbn [child_of snd] in J. destruct HY as [[_ HY]|[_ ->]]; [|destruct Ia]. eapply SUB; eauto.
      + exfalso. unfold unselected in Iy. apply filter_In in Iy. destruct Iy as [Iy _]. unfold children_set in Iy. apply dedup_incl in Iy.
        eapply rule_asks; [|exact Ia|exact HY]. auto.
    - cbn [solutions] in I. destruct (waived cx (e_path i)).
      { destruct I as [<-|[]]. unfold req_solution in A. inversion A; subst; try (destruct Ia; fail); discriminate. }
      destruct o as [z|]; [|destruct I as [<-|[]]; inversion A; subst; destruct Ia].
      cbn [gmap g_items] in I. apply in_map_iff in I. destruct I as [y [<- J]]. unfold req_solution in A.
      inversion A; subst; try (destruct Ia; fail). apply leaf_up with (m := z).
      + intros x P. apply pt_req. exact P.
      + intros ms E. exists ms. split; [exact E|apply incl_refl].
      + eapply (IH z eq_refl); eauto. intros x P. apply RT. apply pt_req. exact P.
    - cbn [solutions] in *. destruct (e_result (d_cond i)) as [[|]|] eqn:ER; [|destruct f as [z|]; [|destruct I]|destruct I]; cbn [gmap g_items] in I; apply in_map_iff in I; destruct I as [y [<- J]].
      + inversion A as [| | | | | | | |? ? ? ? x ? IF KS AX|? ? ? ? NS| |]; subst; [|destruct Ia].
        assert (x = y) by (inversion IF; [reflexivity|congruence]). subst x. apply leaf_up with (m := t).
        * intros x P. apply pt_true. exact P.
        * intros ms E. exists ms. split; [cbn [matches_of] in E; rewrite ER in E; exact E|apply incl_refl].
        * eapply IHt; eauto. intros x P. apply RT. apply pt_true. exact P.
      + inversion A as [| | | | | | | |? ? ? ? x ? IF KS AX|? ? ? ? NS| |]; subst; [|destruct Ia].
        assert (x = y) by (inversion IF; congruence). subst x. apply leaf_up with (m := z).
        * intros x P. apply pt_false. exact P.
        * intros ms E. exists ms. split; [cbn [matches_of] in E; rewrite ER in E; exact E|apply incl_refl].
        * eapply (IHf z eq_refl); eauto. intros x P. apply RT. apply pt_false. exact P.
    - cbn [solutions] in *. unfold prof_solutions in I. destruct (waived cx (f_path i)).
      { destruct I as [<-|[]]. unfold prof_solution in A. inversion A; subst; [discriminate|destruct Ia]. }
      destruct c as [[k' r]|]; [|destruct I as [<-|[]]; inversion A; subst; destruct Ia].
      destruct (gnext _) as [s'|] eqn:G; [|destruct I]. destruct I as [<-|[]]. unfold prof_solution in A. apply gnext_in in G.
      inversion A; subst; [|destruct Ia]. exists (NProf k i (Some (k', r))). split; [constructor|]. split; [right; left; repeat eexists; eauto|].
      intros ms E. exists ms. split; [exact E|apply incl_refl].
  Qed.
End Leaf.

(** ** what a leaf asks for *)
Definition in_pool (cx : ctx) (c : course) : Prop :=
  In c (cx_transcript cx) \/ In c (cx_failed cx) \/ exists k, dget (cx_forced cx) k = Some c.
Lemma by_clbid_pool cx k c : find_by_clbid cx k = Some c -> in_pool cx c.
Proof. intro H. apply find_some in H. destruct H as [H _]. apply in_rev in H. left. exact H. Qed.
Lemma forced_pool cx k c : forced_by_clbid cx k = Ok c -> in_pool cx c.
Proof.
  unfold forced_by_clbid. destruct (find_by_clbid cx k) eqn:F; [intros [= <-]; eapply by_clbid_pool; eauto|]. destruct (dget _ _) eqn:D; [|discriminate]. intros [= <-]. right. right. eauto.
Qed.
Lemma course_from cx l r s h a : cx_exc cx = group_exceptions l -> In s (g_items (c_solutions cx r)) -> course_asks s h -> In a h ->
  at_path a = r_path r /\ in_pool cx (at_course a) /\
  (at_shared a = true -> r_allow r = true \/ exists x k, In x l /\ ex_path x = r_path r /\ ex_act x = AInsert k true /\ forced_by_clbid cx k = Ok (at_course a)) /\
  (at_shared a = false -> r_from_claimed r = false -> (forall x k c, In x l -> ex_path x = r_path r -> ex_act x = AInsert k false -> forced_by_clbid cx k = Ok c -> find_by_clbid cx k = Some c) ->
     forall ms, c_matches cx r = Ok ms -> In (at_course a) ms).
Proof.
  intros EX I CA Ia. destruct CA as [O|N|U|c O E]; try (destruct Ia; fail). destruct Ia as [<-|[]]. cbn [at_course at_path at_shared].
  unfold c_solutions in I. destruct (_ || _)%bool.
  { destruct I as [<-|[]]. discriminate. }
  assert (J : In s (g_items (offered cx r)) \/ s = c_solution r None false false false).
  { unfold offered. destruct (gapp _ _) as [[|y ys] [e|]]; cbn [g_items] in *; auto. destruct I as [<-|[]]. auto. }
  clear I. destruct J as [J| ->]; [|discriminate]. unfold offered, gapp in J. rewrite EX in J.
  assert (K : In s (g_items (c_inserts cx r (get_inserts (group_exceptions l) (r_path r)))) \/
    In s (map (fun c => c_solution r (Some c) false false false) (filter (fun c => negb (c_skips r c)) (g_items (find_courses cx r))))).
  { destruct (g_exn (c_inserts _ _ _)); [auto|]. cbn [g_items] in J. rewrite in_app_iff in J. exact J. }
  clear J. destruct K as [K|K].
  - apply inserts_items in K. destruct K as [x [d [Ix [F [NX ->]]]]]. cbn in E. injection E as ->. cbn [r_path r_forced r_allow c_solution].
    assert (Ix' := Ix). apply inserts_at in Ix'. destruct Ix' as [Il [P [k [f A]]]].
    assert (EK : exc_clbid x = k) by (unfold exc_clbid; rewrite A; reflexivity). assert (EF : exc_forced x = f) by (unfold exc_forced; rewrite A; reflexivity). rewrite EK in F. rewrite EF.
    split; auto. split; [eapply forced_pool; eauto|]. split.
    + intro S. apply orb_true_iff in S. destruct S as [->|S]; auto. right. exists x, k. auto.
    + intros S FC IN ms M. apply orb_false_iff in S. destruct S as [-> _]. assert (FD := IN x k c Il P A F).
      unfold c_matches in M. rewrite FC in M. destruct (gall (find_courses cx r)) as [found|] eqn:G; cbn [bind] in M; [|discriminate]. injection M as <-. apply in_or_app. left.
      unfold c_insert_matches. rewrite EX. apply in_flat_map. exists x. split; auto. rewrite EK, FD.
      assert (CK : c_clbid c = k) by (apply find_some in FD; apply String.eqb_eq; tauto).
      destruct (excludes r k) eqn:X; [exfalso; apply NX; rewrite CK; apply excludes_iff; exact X|]. simpl. auto.
  - apply in_map_iff in K. destruct K as [d [<- Id]]. cbn in E. injection E as ->. cbn [r_path r_forced r_allow c_solution orb]. apply filter_In in Id. destruct Id as [Id S].
    split; auto. split.
    { unfold find_courses in Id. destruct (given (CourseRule.r_clbid r)).
      - destruct (find_by_clbid cx _) eqn:F; [|destruct Id]. destruct Id as [<-|[]]. eapply by_clbid_pool; eauto.
      - apply gfilter_items in Id. left. apply Id. }
    split; [auto|]. intros SH FC _ ms M. unfold c_matches in M. rewrite FC in M. destruct (gall (find_courses cx r)) as [found|] eqn:G; cbn [bind] in M; [|discriminate]. injection M as <-.
    assert (GF : g_items (find_courses cx r) = found) by (unfold gall in G; destruct (g_exn (find_courses cx r)); [discriminate|congruence]). rewrite GF in Id.
    apply in_or_app. right. apply filter_In. split; auto. unfold c_skips in S. rewrite !negb_orb in S. rewrite !andb_true_iff in S. apply S.
Qed.

Lemma query_from ord cx l q s h a : set_order ord -> cx_exc cx = group_exceptions l -> coherent (q_limit q) -> In s (g_items (q_solutions ord cx q)) -> query_asks cx s h -> In a h ->
  at_path a = q_path q /\ in_pool cx (at_course a) /\
  (at_shared a = true -> q_allow q = true \/ q_attempt q = false \/ q_source q = QClaimed \/ In (c_clbid (at_course a)) (q_forced q) \/
     exists x, In x l /\ ex_path x = q_path q /\ ex_act x = AInsert (c_clbid (at_course a)) true) /\
  (at_shared a = false -> forall ms, q_matches cx q = Ok ms -> In (ICourse (at_course a)) ms).
Proof.
  intros SO EX CO I QA Ia.
  assert (SRC := q_solutions_source _ _ _ _ I).
  assert (PTH : q_path s = q_path q).
  { unfold q_solutions in I. destruct (q_overridden q); [destruct I as [<-|[]]; reflexivity|]. destruct (q_filtered cx q) as [[[data ins] forced]|]; [|destruct I].
    destruct (q_source q); try (destruct I as [<-|[]]; reflexivity). destruct (mapr as_course data); [|destruct I].
    assert (X : exists out, s = q_solution q (map ICourse out) ins forced); [|destruct X as [out ->]; reflexivity].
    destruct (gflat _ _) as [[|y ys] [e|]]; cbn [gmap gret g_items] in I; [destruct I|destruct I as [<-|[]]; exists []; reflexivity| |]; apply in_map_iff in I; destruct I as [out [<- _]]; eauto. }
  assert (OV : q_overridden q = false \/ s = q_solution q [] [] []).
  { unfold q_solutions in I. destruct (q_overridden q); auto. destruct I as [<-|[]]. auto. }
  destruct QA as [W|cs O QS AT E|cs O QS AT RE E|cs O QS RE KN|]; try (destruct Ia; fail).
  - rewrite SRC in QS. destruct OV as [OQ| ->]; [|cbn in E; destruct cs; [destruct Ia|discriminate]].
    destruct (query_outputs_are_candidates ord cx l q s SO CO EX QS OQ I) as [out [[OU [_ [_ [_ [_ [_ [_ [AL [AQ [_ [_ [_ [_ [_ [_ FO]]]]]]]]]]]]]]] C]].
    apply in_map_iff in Ia. destruct Ia as [c [<- Ic]]. cbn [at_path at_course at_shared].
    assert (IC : In c out). { rewrite OU in E. assert (X : In (ICourse c) (map ICourse out)) by (rewrite E; apply in_map; auto). apply in_map_iff in X. destruct X as [d [X Y]]. congruence. }
    split; auto. split.
    { destruct (C c IC) as [[EL _]|[x [k [f [_ [_ [_ [_ [F|[_ F]]]]]]]]]]; [|eapply by_clbid_pool; eauto|eapply forced_pool; eauto]. unfold query_courses in EL. unfold in_pool. destruct (q_failed_too q); auto. }
    split.
    + intro S. apply orb_true_iff in S. destruct S as [S|S]; [rewrite AL in S; auto|]. apply instr_iff in S. apply FO in S. destruct S as [S|[x [I1 [I2 [I3 _]]]]]; auto. do 4 right. exists x. auto.
    + intros _ ms M. unfold q_matches in M. destruct (q_filtered cx q) as [[[data ins] forced]|] eqn:F; cbn [bind fst] in M; [|discriminate]. injection M as <-.
      destruct (filtered_spec _ _ _ _ _ _ EX QS F) as [cs' [-> [CC _]]]. apply in_map. apply CC, C, IC.
  - rewrite SRC in QS. destruct OV as [OQ| ->]; [|cbn in E; destruct cs; [destruct Ia|discriminate]].
    destruct (query_outputs_are_candidates ord cx l q s SO CO EX QS OQ I) as [out [[OU [_ [_ [_ [_ [_ [_ [AL [AQ _]]]]]]]]] C]].
    apply in_map_iff in Ia. destruct Ia as [c [<- Ic]]. cbn [at_path at_course at_shared shared_at].
    assert (IC : In c out). { rewrite OU in E. assert (X : In (ICourse c) (map ICourse out)) by (rewrite E; apply in_map; auto). apply in_map_iff in X. destruct X as [d [X Y]]. congruence. }
    split; auto. split.
    { destruct (C c IC) as [[EL _]|[x [k [f [_ [_ [_ [_ [F|[_ F]]]]]]]]]]; [|eapply by_clbid_pool; eauto|eapply forced_pool; eauto]. unfold query_courses in EL. unfold in_pool. destruct (q_failed_too q); auto. }
    split; [rewrite AQ in AT; auto|discriminate].
  - rewrite SRC in QS. apply in_map_iff in Ia. destruct Ia as [c [<- Ic]]. cbn [at_path at_course at_shared shared_at]. split; auto. split.
    + destruct (KN c Ic) as [k [F|F]]; [eapply by_clbid_pool; eauto|eapply forced_pool; eauto].
    + split; [auto|discriminate].
Qed.

(** ** claims made one after the other *)
Lemma claimed_grows t t' k : grows t t' -> claimed t k -> claimed t' k.
Proof. intros G C. destruct (G k) as [rest E]. unfold claimed in *. rewrite E. destruct (recorded t k); [congruence|discriminate]. Qed.
Lemma exclusive_claim mc t c p cl t' : make_claim mc t c p false = Ok (cl, t') -> ~ is_multicountable mc c ->
  (cl_failed cl = false -> claimed t' (c_clbid c)) /\ (claimed t (c_clbid c) -> cl_failed cl = true).
Proof.
  unfold make_claim, is_multicountable. intros H M. change (course_ident c) with (c_identity c) in H. assert (D := proj2 (dget_None_notin mc (c_identity c)) M). rewrite D in H.
  unfold claimed. rewrite !dget_recorded. destruct (dget t (c_clbid c)) as [[|x l]|] eqn:E; injection H as <- <-; cbn [cl_failed].
  - split; [intros _|congruence]. unfold record_claim. cbn [cl_course]. rewrite E, dget_dset_same. discriminate.
  - split; [discriminate|reflexivity].
  - split; [intros _|congruence]. unfold record_claim. cbn [cl_course]. rewrite E, dget_dset_same. discriminate.
Qed.
Lemma run_nth_claimed mc k h : forall t outs t' j b y, run_claims mc t h = Ok (outs, t') -> claimed t k -> nth_error h j = Some b -> nth_error outs j = Some y ->
  c_clbid (at_course b) = k -> at_shared b = false -> ~ is_multicountable mc (at_course b) -> cl_failed y = true.
Proof.
  induction h as [|a h IH]; intros t outs t' j b y R C Hb Hy K S M; [destruct j; discriminate|].
  apply run_cons in R as (cl & t1 & outs' & MC & R & ->). destruct j as [|j]; cbn in Hb, Hy.
  - injection Hb as ->. injection Hy as ->. rewrite S in MC. apply (exclusive_claim _ _ _ _ _ _ MC M). rewrite K. exact C.
  - eapply IH; eauto. eapply claimed_grows; [|exact C]. eapply rec_grows, rec_claim; eauto.
Qed.
Lemma exclusive_from mc k h : forall t outs t' i j a b x y, run_claims mc t h = Ok (outs, t') -> (i < j)%nat ->
  nth_error h i = Some a -> nth_error h j = Some b -> nth_error outs i = Some x -> nth_error outs j = Some y ->
  c_clbid (at_course a) = k -> c_clbid (at_course b) = k -> at_shared a = false -> at_shared b = false ->
  ~ is_multicountable mc (at_course a) -> ~ is_multicountable mc (at_course b) -> cl_failed x = false -> cl_failed y = true.
Proof.
  induction h as [|c h IH]; intros t outs t' i j a b x y R LT Ha Hb Hx Hy Ka Kb Sa Sb Ma Mb Fx; [destruct i; discriminate|].
  apply run_cons in R as (cl & t1 & outs' & MC & R & ->). destruct j as [|j]; [lia|]. cbn in Hb, Hy. destruct i as [|i]; cbn in Ha, Hx.
  - injection Ha as ->. injection Hx as ->. rewrite Sa in MC. eapply run_nth_claimed; eauto. rewrite <- Ka. apply (exclusive_claim _ _ _ _ _ _ MC Ma). exact Fx.
  - eapply (IH t1 outs' t' i j); eauto. lia.
Qed.

(** ** the audits of the parts of a solution, one after the other *)
Definition segment (cx : ctx) (ord : list course -> list course) (x : node) (s : node * list attempt * list claim) : Prop :=
  let '(y, h, o) := s in
  (kind_of x = KSol /\ asks cx x h /\ subseq (claims_of y) (filter succeeded o) /\ exists t1 t2, audit ord cx t1 x = Ok (y, t2)) \/
  (kind_of x <> KSol /\ y = x /\ h = [] /\ o = []).
Lemma segments ord cx out : (forall x, In x out -> kind_of x = KSol -> unaudited x) ->
  forall t rs t', audit_each (audit ord cx) t out = Ok (rs, t') ->
  exists segs, Forall2 (segment cx ord) out segs /\ rs = map (fun s => fst (fst s)) segs /\
    run_claims (cx_multi cx) t (List.concat (map (fun s => snd (fst s)) segs)) = Ok (List.concat (map snd segs), t').
Proof.
  induction out as [|x out IH]; intros U t rs t' E; cbn [audit_each] in E.
  - injection E as <- <-. exists []. split; [constructor|]. split; reflexivity.
  - match type of E with bind ?z _ = _ => destruct z as [[y t1]|] eqn:A end; cbn [bind] in E; [|discriminate].
    destruct (audit_each (audit ord cx) t1 out) as [[ys t2]|] eqn:B; cbn [bind] in E; [|discriminate]. injection E as <- <-.
    destruct (IH (fun z I => U z (or_intror I)) _ _ _ B) as [segs [F [-> R]]]. destruct (kind_of x) eqn:K.
    + injection A as <- <-. exists ((x, [], []) :: segs). split; [constructor; auto; right; rewrite K; repeat split; congruence|]. split; [reflexivity|exact R].
    + destruct (audit_history ord cx x t y t1 (U x (or_introl eq_refl) K) A) as [h [o [A1 [A2 [A3 _]]]]]. exists ((y, h, o) :: segs). split; [constructor; auto; left; rewrite K; eauto 10|]. split; [reflexivity|].
      cbn [map List.concat fst snd]. eapply run_app; eauto.
    + injection A as <- <-. exists ((x, [], []) :: segs). split; [constructor; auto; right; rewrite K; repeat split; congruence|]. split; [reflexivity|exact R].
Qed.
Lemma subseq_flat_two {A B} (f : A -> list B) l : forall a b s, subseq (a :: b :: s) (flat_map f l) ->
  (exists i x, nth_error l i = Some x /\ subseq [a; b] (f x)) \/
  (exists i j x y, (i < j)%nat /\ nth_error l i = Some x /\ nth_error l j = Some y /\ In a (f x) /\ In b (f y)).
Proof.
  induction l as [|z l IH]; intros a b s H; cbn [flat_map] in H; [inversion H|].
  assert (X : forall u v, subseq (a :: b :: s) (u ++ v) -> subseq [a; b] u \/ (In a u /\ In b v) \/ subseq (a :: b :: s) v).
  { clear. induction u as [|c u IH]; intros v H; cbn in H; [auto|]. inversion H; subst.
    - assert (Y : In b (u ++ v)) by (eapply subseq_in; [eassumption|simpl; auto]). apply in_app_or in Y. destruct Y as [Y|Y].
      + left. constructor. clear - Y. induction u as [|c u IH]; [destruct Y|]. destruct Y as [->|Y]; [constructor; clear; induction u; constructor; auto|constructor; auto].
      + right. left. simpl. auto.
    - destruct (IH v H2) as [H'|[[H1 H1']|H']]; [left; constructor; exact H'|right; left; simpl; auto|auto]. }
  destruct (X _ _ H) as [Y|[[Ya Yb]|Y]].
  - left. exists O, z. auto.
  - right. apply in_flat_map in Yb. destruct Yb as [y [Iy Yb]]. apply In_nth_error in Iy. destruct Iy as [j E]. exists O, (S j), z, y. repeat split; auto. lia.
  - destruct (IH _ _ _ Y) as [[i [x [E T]]]|[i [j [x [y [L [E1 [E2 [T1 T2]]]]]]]]].
    + left. exists (S i), x. auto.
    + right. exists (S i), (S j), x, y. repeat split; auto. lia.
Qed.
Lemma subseq_concat_nth {A} (ls : list (list A)) i l : nth_error ls i = Some l -> subseq l (List.concat ls).
Proof.
  revert i. induction ls as [|x ls IH]; intros [|i] E; try discriminate; cbn in *.
  - injection E as ->. rewrite <- (app_nil_r l) at 1. apply subseq_app; [apply subseq_refl|apply subseq_nil_l].
  - change l with ([] ++ l). apply subseq_app; [apply subseq_nil_l|eauto].
Qed.
Lemma in_one_subseq {A} (a : A) l : In a l -> subseq [a] l.
Proof. induction l as [|x l IH]; [intros []|]. intros [->|I]; [constructor; apply subseq_nil_l|constructor; auto]. Qed.
Lemma subseq_concat_two {A} (ls : list (list A)) i j l m a b : (i < j)%nat -> nth_error ls i = Some l -> nth_error ls j = Some m -> In a l -> In b m -> subseq [a; b] (List.concat ls).
Proof.
  revert i j. induction ls as [|x ls IH]; intros [|i] [|j] L E1 E2 Ia Ib; try discriminate; try lia; cbn in *.
  - injection E1 as ->. change [a; b] with ([a] ++ [b]). apply subseq_app; [apply in_one_subseq; auto|]. eapply subseq_trans; [apply in_one_subseq; exact Ib|eapply subseq_concat_nth; eauto].
  - change [a; b] with ([] ++ [a; b]). apply subseq_app; [apply subseq_nil_l|]. eapply (IH i j); eauto. lia.
Qed.
Lemma F2_nth_r {A B} (P : A -> B -> Prop) l r : Forall2 P l r -> forall i y, nth_error r i = Some y -> exists x, nth_error l i = Some x /\ P x y.
Proof. induction 1 as [|x y l r H F IH]; intros [|i] z E; try discriminate; cbn in *; [injection E as <-; eauto|eauto]. Qed.
Lemma F2_pairs {A B} (P : A -> B -> Prop) l r : Forall2 P l r -> exists ps, map fst ps = l /\ map snd ps = r /\ Forall (fun p => P (fst p) (snd p)) ps.
Proof. induction 1 as [|x y l r H F [ps [<- [<- IH]]]]; [exists []; auto|]. exists ((x, y) :: ps). auto. Qed.
Lemma audit_kind ord cx n t r t' : audit ord cx t n = Ok (r, t') -> kind_of r = KRes.
Proof.
  destruct n as [k x|k q|k i items|k i o|k i b f|k i c]; cbn [audit]; intro H.
  - destruct (c_audit _ _ _) as [[? ?]|]; cbn [bind] in H; [|discriminate]. injection H as <- <-. reflexivity.
  - destruct (q_audit _ _ _) as [[? ?]|]; cbn [bind] in H; [|discriminate]. injection H as <- <-. reflexivity.
  - destruct (n_overridden i); [injection H as <- <-; reflexivity|]. destruct (audit_each _ _ _) as [[? ?]|]; cbn [bind] in H; [|discriminate].
    destruct (mapr _ _); cbn [bind] in H; [|discriminate]. injection H as <- <-. reflexivity.
  - destruct (e_overridden i); [injection H as <- <-; reflexivity|]. destruct o as [x|]; [|injection H as <- <-; reflexivity].
    destruct (kind_of x); [injection H as <- <-; reflexivity| |discriminate]. destruct (audit _ _ _ x) as [[? ?]|]; cbn [bind] in H; [|discriminate]. injection H as <- <-. reflexivity.
  - destruct (e_result (d_cond i)) as [[|]|]; [|destruct f as [x|]|].
    + destruct (kind_of b); try (injection H as <- <-; reflexivity). destruct (audit _ _ _ b) as [[? ?]|]; cbn [bind] in H; [|discriminate]. injection H as <- <-. reflexivity.
    + destruct (kind_of x); try (injection H as <- <-; reflexivity). destruct (audit _ _ _ x) as [[? ?]|]; cbn [bind] in H; [|discriminate]. injection H as <- <-. reflexivity.
    + injection H as <- <-. reflexivity.
    + injection H as <- <-. reflexivity.
  - destruct (f_overridden i); [injection H as <- <-; reflexivity|]. destruct (proficiency_status _ _ _); cbn [bind] in H; [|discriminate].
    match type of H with bind ?z _ = _ => destruct z as [[? ?]|] end; cbn [bind] in H; [|discriminate]. injection H as <- <-. reflexivity.
Qed.
Lemma count_run_kind i len items results other s : In s (g_items (count_run i len items results other)) -> kind_of s = KSol.
Proof. intro I. apply count_run_from in I. destruct I as [sel [sols [_ [_ ->]]]]. reflexivity. Qed.
Lemma top_kind ord nord cx n t s : In s (g_items (fst (top_solutions ord nord cx t n))) -> kind_of s = KSol.
Proof.
  revert n t s. fix IH 1. intros n t s I. destruct n as [k r|k q|k i items|k i o|k i b f|k i c]; cbn [top_solutions fst] in I; try (apply solutions_keep in I; apply I).
  - unfold top_count_solutions in I. destruct (waived cx (n_path i)); [destruct I as [<-|[]]; reflexivity|]. destruct (potential_children _ _) as [pot|]; [|destruct I].
    destruct pot as [|p pot]; [eapply count_run_kind; exact I|]. destruct (n_audits i); [|eapply count_run_kind; exact I].
    destruct (mapr _ _) as [ms|]; cbn [bind] in I; [|destruct I]. destruct (classify ms). destruct (solve_independent _ _ _ _) as [[? ?]|]; [|destruct I]. cbn [fst] in I. eapply count_run_kind; exact I.
  - destruct (e_result (d_cond i)) as [[|]|]; [| |destruct I].
    + destruct (top_solutions ord nord cx t b) as [g t']. cbn [fst gmap g_items] in I. apply in_map_iff in I. destruct I as [x [<- _]]. reflexivity.
    + destruct f as [f|]; [|destruct I]. destruct (top_solutions ord nord cx t f) as [g t']. cbn [fst gmap g_items] in I. apply in_map_iff in I. destruct I as [x [<- _]]. reflexivity.
Qed.
Lemma shareable_sub es n m p k : (forall x, part_of m x -> part_of n x) -> shareable es m p k -> shareable es n p k.
Proof.
  intros P [H|[[r [[[kd L]|[kd [i [k' L]]]] R]]|[kd [q [L R]]]]]; [left; exact H|right; left|right; left|right; right].
  - exists r. split; [left; eauto|exact R].
  - exists r. split; [right; eauto 6|exact R].
  - exists kd, q. auto.
Qed.
Lemma as_written_sub n m : (forall x, part_of m x -> part_of n x) -> as_written n -> as_written m.
Proof.
  intros P [A B]. split; [|eauto]. intros r [[kd L]|[kd [i [k' L]]]]; apply A; [left; eauto|right; eauto 6].
Qed.
Lemma rule_tree_sub n m : (forall x, part_of m x -> part_of n x) -> rule_tree n -> rule_tree m.
Proof. intros P R x L. auto. Qed.
Lemma fresh_sub n m : (forall x, part_of m x -> part_of n x) -> unaudited n -> unaudited m.
Proof. intros P R x L. auto. Qed.

Lemma query_below_part q n x : query_below q n -> part_of n x -> (forall k r, x <> NCourse k r) /\ (forall k i c, x <> NProf k i c) /\ (forall k q', x = NQuery k q' -> q' = q).
Proof.
  induction 1 as [|k i y Q IH]; intro P.
  - inversion P; subst. repeat split; try congruence.
  - inversion P; subst; [repeat split; discriminate|]. auto.
Qed.
Lemma query_below_self q n : query_below q n -> part_of n (NQuery KRule q).
Proof. induction 1; [constructor|apply pt_req; assumption]. Qed.
Section Once.
  Context (ord : list course -> list course) (nord : list node -> list node) (st : student) (es : list exc) (cx : ctx) (k : string).
  Hypothesis SO : set_order ord.
  Hypothesis NO : forall l, Permutation (nord l) l.
  Hypothesis EX : cx_exc cx = group_exceptions es.
  Hypothesis POOL : forall c, in_pool cx c -> of_student st c.
  Hypothesis KEY : keyed cx.
  Hypothesis ONE : forall x j c, In x es -> ex_act x = AInsert j false -> forced_by_clbid cx j = Ok c -> find_by_clbid cx j = Some c.
  Hypothesis UNIQ : forall c d, of_student st c -> of_student st d -> c_clbid c = c_clbid d -> c = d.
  Hypothesis PLAIN : forall c, of_student st c -> c_clbid c = k -> ~ is_multicountable (cx_multi cx) c.

  Lemma asked_ok n s h a : rule_tree n -> as_written n -> In s (g_items (solutions ord cx n)) -> asks cx s h -> In a h ->
    of_student st (at_course a) /\ (at_shared a = true -> shareable es n (at_path a) (c_clbid (at_course a))) /\
    (at_shared a = false -> forall ms, matches_of cx n = Ok ms -> In (ICourse (at_course a)) ms).
  Proof.
    intros RT [FC CO] I A Ia. destruct (asked_leaf ord cx n RT s h a I A Ia) as [x [P [L M]]].
    assert (CR : forall r s' h', course_leaf n r -> (forall ms, matches_of cx n = Ok ms -> exists ms', course_matches cx r = Ok ms' /\ incl ms' ms) ->
      In s' (g_items (c_solutions cx r)) -> course_asks s' h' -> In a h' ->
      of_student st (at_course a) /\ (at_shared a = true -> shareable es n (at_path a) (c_clbid (at_course a))) /\
      (at_shared a = false -> forall ms, matches_of cx n = Ok ms -> In (ICourse (at_course a)) ms)).
    { intros r s' h' CL MR I' CA J. destruct (course_from cx es r s' h' a EX I' CA J) as [PT [PO [SH UN]]]. split; [auto|]. split.
      - intro S. destruct (SH S) as [AL|[y [j [Iy [Py [Ay F]]]]]]; [right; left; exists r; auto|]. left. exists y. rewrite PT. split; auto. split; auto.
        rewrite (found_id cx j (at_course a) KEY (or_intror F)). exact Ay.
      - intros S ms E. destruct (MR ms E) as [ms' [E' IN]]. apply IN. unfold course_matches in E'. destruct (c_matches cx r) as [cs|] eqn:CM; cbn [bind] in E'; [|discriminate]. injection E' as <-.
        apply in_map. destruct (r_from_claimed r) eqn:FR.
        + exfalso. assert (AL := FC r CL FR). destruct CA as [| | |c OV MA]; try (destruct J; fail). destruct J as [<-|[]]. cbn in S. apply orb_false_iff in S. destruct S as [_ S].
          clear - AL S I'. unfold c_solutions in I'. destruct (_ || _)%bool; [destruct I' as [<-|[]]; cbn in S; congruence|].
          assert (K : In s' (g_items (offered cx r)) \/ s' = c_solution r None false false false).
          { unfold offered. destruct (gapp _ _) as [[|y ys] [e|]]; cbn [g_items] in *; auto. destruct I' as [<-|[]]. auto. }
          destruct K as [K| ->]; [|cbn in S; congruence]. unfold offered, gapp in K.
          assert (K' : In s' (g_items (c_inserts cx r (get_inserts (cx_exc cx) (r_path r)))) \/ In s' (map (fun c => c_solution r (Some c) false false false) (filter (fun c => negb (c_skips r c)) (g_items (find_courses cx r))))).
          { destruct (g_exn (c_inserts _ _ _)); [auto|]. cbn [g_items] in K. rewrite in_app_iff in K. exact K. }
          destruct K' as [K'|K']; [apply inserts_items in K'; destruct K' as [y [d [_ [_ [_ ->]]]]]|apply in_map_iff in K'; destruct K' as [d [<- _]]]; cbn in S; congruence.
        + apply (UN S eq_refl); auto. intros y j c Iy _ Ay F. eauto. }
    destruct L as [[kd [r [s' [h' [-> [I' [CA J]]]]]]]|[[kd [i [k' [r [s' [h' [-> [I' [CA J]]]]]]]]]|[kd [q [s' [h' [-> [I' [QA J]]]]]]]]].
    - eapply CR; eauto. left. eauto.
    - eapply CR; eauto. right. eauto.
    - destruct (query_from ord cx es q s' h' a SO EX (CO kd q P) I' QA J) as [PT [PO [SH UN]]]. split; [auto|]. split.
      + intro S. rewrite PT. destruct (SH S) as [H|[H|[H|[H|H]]]]; [right; right; exists kd, q; auto 6 ..|]. left. exact H.
      + intros S ms E. destruct (M ms E) as [ms' [E' IN]]. apply IN. exact (UN S ms' E').
  Qed.
  (** a query that does not claim lets every class be used again *)
  Lemma quiet_asked n s h a q : rule_tree n -> as_written n -> query_below q n -> q_attempt q = false -> In s (g_items (solutions ord cx n)) -> asks cx s h -> In a h ->
    forall j, shareable es n (at_path a) j.
  Proof.
    intros RT [_ CO] QB QA I A Ia j. destruct (asked_leaf ord cx n RT s h a I A Ia) as [x [P [L _]]]. destruct (query_below_part q n x QB P) as [N1 [N2 N3]].
    destruct L as [[kd [r [s' [h' [-> _]]]]]|[[kd [i [k' [r [s' [h' [-> _]]]]]]]|[kd [q' [s' [h' [-> [I' [A' J]]]]]]]]]; [edestruct N1; eauto|edestruct N2; eauto|].
    assert (E := N3 kd q' eq_refl). subst q'. destruct (query_from ord cx es q s' h' a SO EX (CO kd q P) I' A' J) as [PT _]. right. right. exists kd, q. auto 6.
  Qed.
  (** in one history *)
  Lemma once_in_history n h t outs t' a b : run_claims (cx_multi cx) t h = Ok (outs, t') ->
    (forall x, In x h -> of_student st (at_course x) /\ (at_shared x = true -> shareable es n (at_path x) (c_clbid (at_course x)))) ->
    subseq [a; b] outs -> cl_failed a = false -> cl_failed b = false ->
    c_clbid (cl_course a) = k -> c_clbid (cl_course b) = k -> ~ shareable es n (cl_by a) k -> ~ shareable es n (cl_by b) k -> False.
  Proof.
    intros R H S Fa Fb Ka Kb Na Nb. destruct (subseq_two _ _ _ _ S) as [i [j [LT [EA EB]]]].
    assert (AT : forall m cl, nth_error outs m = Some cl -> exists x, nth_error h m = Some x /\ cl_course cl = at_course x /\ cl_by cl = at_path x).
    { intros m cl E. assert (M : (m < List.length h)%nat) by (rewrite <- (run_lengths _ _ _ _ _ R); apply nth_error_Some; congruence).
      apply nth_error_Some in M. destruct (nth_error h m) as [x|] eqn:EX'; [|congruence]. exists x. split; auto. eapply run_names; eauto. }
    destruct (AT _ _ EA) as [x [Hx [Cx Px]]], (AT _ _ EB) as [y [Hy [Cy Py]]].
    destruct (H x (nth_error_In _ _ Hx)) as [Ox Sx], (H y (nth_error_In _ _ Hy)) as [Oy Sy].
    assert (SA : at_shared x = false). { destruct (at_shared x); auto. exfalso. apply Na. rewrite Px, <- Ka, Cx. auto. }
    assert (SB : at_shared y = false). { destruct (at_shared y); auto. exfalso. apply Nb. rewrite Py, <- Kb, Cy. auto. }
    rewrite Cx in Ka. rewrite Cy in Kb.
    assert (F := exclusive_from (cx_multi cx) k h t outs t' i j x y a b R LT Hx Hy EA EB Ka Kb SA SB (PLAIN _ Ox Ka) (PLAIN _ Oy Kb) Fa). congruence.
  Qed.
  Lemma claim_asked x t y t' cl : unaudited x -> audit ord cx t x = Ok (y, t') -> In cl (claims_of y) ->
    exists h a, asks cx x h /\ In a h /\ cl_course cl = at_course a /\ cl_by cl = at_path a /\ cl_failed cl = false.
  Proof.
    intros U A I. destruct (audit_history ord cx x t y t' U A) as [h [outs [AS [R [S _]]]]].
    assert (J := subseq_in _ _ _ S I). apply filter_In in J. destruct J as [J F]. unfold succeeded in F. apply negb_true_iff in F.
    apply In_nth_error in J. destruct J as [m E]. assert (M : (m < List.length h)%nat) by (rewrite <- (run_lengths _ _ _ _ _ R); apply nth_error_Some; congruence).
    apply nth_error_Some in M. destruct (nth_error h m) as [a|] eqn:EA; [|congruence]. destruct (run_names _ _ _ _ _ _ _ _ R EA E) as [C P]. exists h, a. repeat split; auto. eapply nth_error_In; eauto.
  Qed.
  (** solutions of a rule that is solved as a whole *)
  Lemma once_whole n s t r t' a b rest : rule_tree n -> as_written n -> unaudited n -> In s (g_items (solutions ord cx n)) -> audit ord cx t s = Ok (r, t') ->
    subseq (a :: b :: rest) (claims_of r) -> c_clbid (cl_course a) = k -> c_clbid (cl_course b) = k -> ~ shareable es n (cl_by a) k -> ~ shareable es n (cl_by b) k -> False.
  Proof.
    intros RT AW U I A S Ka Kb Na Nb. destruct (audit_history ord cx s t r t' (solutions_unaudited ord cx n s U I) A) as [h [outs [AS [R [S' _]]]]].
    assert (SS : subseq (a :: b :: rest) (filter succeeded outs)) by (eapply subseq_trans; eauto).
    assert (FA : forall x, In x (a :: b :: rest) -> cl_failed x = false).
    { intros x J. apply (subseq_in _ _ _ SS), filter_In in J. destruct J as [_ J]. unfold succeeded in J. apply negb_true_iff in J. exact J. }
    assert (SO' : subseq [a; b] outs).
    { eapply subseq_trans; [|apply subseq_filter]. eapply subseq_trans; [|exact SS]. constructor. constructor. apply subseq_nil_l. }
    eapply (once_in_history n h t outs t' a b); eauto; [|apply FA; simpl; auto|apply FA; simpl; auto].
    intros x J. destruct (asked_ok n s h x RT AW I AS J) as [O [SH _]]. auto.
  Qed.

  Lemma once_top n : rule_tree n -> as_written n -> unaudited n -> tidy_top n ->
    forall s t r t' a b rest, g_exn (fst (top_solutions ord nord cx [] n)) = None -> In s (g_items (fst (top_solutions ord nord cx [] n))) -> audit ord cx t s = Ok (r, t') ->
    subseq (a :: b :: rest) (claims_of r) -> c_clbid (cl_course a) = k -> c_clbid (cl_course b) = k -> ~ shareable es n (cl_by a) k -> ~ shareable es n (cl_by b) k -> False.
  Proof.
    induction n as [kd x|kd q|kd i items IH|kd i o IH|kd i bt f IHt IHf|kd i c] using node_induction; intros RT AW U TT s t r t' a b rest G I A S Ka Kb Na Nb.
    1, 2, 4, 6: cbn [top_solutions fst] in I; eapply once_whole; eauto.
    - destruct (TT kd i items (hd_self _)) as [SB [C0 DJ]]. cbn [top_solutions] in G, I.
      assert (WHOLE : waived cx (n_path i) = true \/ n_audits i <> [] \/ (forall c, ~ usable cx items c) -> False).
      { intro H. destruct (proj1 top_solutions_otherwise ord nord cx [] i items H (proj1 SB)) as [E _]. rewrite <- (E kd) in I. eapply once_whole; eauto. }
      destruct (waived cx (n_path i)) eqn:W; [auto|]. destruct (n_audits i) eqn:NA; [|apply WHOLE; right; left; discriminate].
      destruct (filter (has_potential cx) items) as [|u0 us] eqn:US.
      { apply WHOLE. right. right. intros c [Ic P]. apply potential_iff in P. assert (J : In c (filter (has_potential cx) items)) by (apply filter_In; auto). rewrite US in J. destruct J. }
      assert (NE : filter (has_potential cx) items <> []) by (rewrite US; discriminate). clear WHOLE US u0 us.
      assert (MOK : forall c, usable cx items c -> exists ms, matches_of cx c = Ok ms).
      { intros c UC. destruct (top_shape ord nord cx i items SB W NA NE []) as [[e E]|(ms & dis & non & solved & t2 & M & _)]; [rewrite E in G; discriminate|].
        destruct (mapr_pairs _ _ _ M) as [MF MM]. apply us_iff in UC. apply (Permutation_in _ (Permutation_sym (NO _))) in UC. rewrite <- MF in UC. apply in_map_iff in UC. destruct UC as [[c' m] [E J]]. cbn in E. subst c'. exists m. auto. }
      destruct (top_count_ok ord nord cx i items NO SB C0 W NA NE [] s G) as [TC _]. apply TC in I. clear TC.
      destruct I as (chosen & out & m & l & NDC & CH & _ & _ & ST & PE & _ & ->).
      destruct (F2_pairs _ _ _ ST) as [ps [PF [PS PA]]]. rewrite <- PS in PE. destruct (Permutation_map_inv _ _ (Permutation_sym PE)) as [qs [EQ PQ]].
      assert (NDQ : NoDup (map fst qs)).
      { eapply Permutation_NoDup; [|apply (nodup_items items SB)]. rewrite <- PF. apply Permutation_map. exact PQ. }
      assert (QA : forall p, In p qs -> In (fst p) items /\ top_stands ord cx items chosen (fst p) (snd p)).
      { intros p J. apply (Permutation_in _ (Permutation_sym PQ)) in J. split; [rewrite <- PF; apply in_map; exact J|]. rewrite Forall_forall in PA. auto. }
      assert (SUBP : forall c, In c items -> forall x, part_of c x -> part_of (NCount kd i items) x) by (intros c Ic x P; eapply pt_count; eauto).
      assert (UX : forall x, In x out -> kind_of x = KSol -> exists c, In c items /\ In x (g_items (solutions ord cx c)) /\ (forall c', In (c', x) qs -> usable cx items c' /\ In x (g_items (solutions ord cx c')))).
      { intros x J K. assert (STX : forall c', In (c', x) qs -> In c' items /\ usable cx items c' /\ In x (g_items (solutions ord cx c'))).
        { intros c' J'. destruct (QA _ J') as [Ic [[_ [t1 [z SE]]]|[[_ [Ic' IS]]|[_ [_ E]]]]]; cbn [fst snd] in *.
          - exfalso. assert (CA : exists s' q t2, candidate ord cx s' x q t2) by (destruct SE; eauto). destruct CA as [s' [q [t2 [CA _]]]]. apply audit_kind in CA. congruence.
          - split; auto. split; [apply CH; exact Ic'|exact IS].
          - exfalso. subst x. rewrite (RT c') in K; [discriminate|]. eapply SUBP; [exact Ic|constructor]. }
        assert (J2 : In x (map snd qs)) by (rewrite <- EQ; exact J). apply in_map_iff in J2. destruct J2 as [[c x'] [E J2]]. cbn in E. subst x'.
        destruct (STX c J2) as [X1 [X2 X3]]. exists c. split; auto. split; auto. intros c' J'. destruct (STX c' J'). auto. }
      cbn [audit n_overridden n_audits] in A. destruct (audit_each (audit ord cx) t out) as [[rs t1]|] eqn:AE; cbn [bind] in A; [|discriminate].
      rewrite NA in A. cbn [mapr bind] in A. injection A as <- <-. cbn [claims_of] in S.
      destruct (segments ord cx out) with (t := t) (rs := rs) (t' := t1) as [segs [SG [-> R]]]; auto.
      { intros x J K. destruct (UX x J K) as [c [Ic [IS _]]]. eapply solutions_unaudited; [|exact IS]. eapply fresh_sub; [apply SUBP; exact Ic|exact U]. }
      assert (HIST : forall x, In x (List.concat (map (fun s => snd (fst s)) segs)) -> of_student st (at_course x) /\ (at_shared x = true -> shareable es (NCount kd i items) (at_path x) (c_clbid (at_course x)))).
      { intros x J. apply in_concat in J. destruct J as [h [Jh J]]. apply in_map_iff in Jh. destruct Jh as [[[y h'] o] [E Jh]]. cbn in E. subst h'.
        destruct (F2_in_r _ _ _ _ SG Jh) as [z [Jz [[K [AS _]]|[_ [_ [-> _]]]]]]; [|destruct J].
        destruct (UX z Jz K) as [c [Ic [IS _]]]. destruct (asked_ok c z h x) as [O [SH _]]; auto.
        - eapply rule_tree_sub; [apply SUBP; exact Ic|exact RT].
        - eapply as_written_sub; [apply SUBP; exact Ic|exact AW].
        - split; auto. intro SX. eapply shareable_sub; [apply SUBP; exact Ic|auto]. }
      (* what a segment's claims are *)
      assert (SEG : forall idx y h o, nth_error segs idx = Some (y, h, o) -> exists c x, nth_error qs idx = Some (c, x) /\ In c items /\
        ((kind_of x = KSol /\ subseq (claims_of y) (filter succeeded o) /\ usable cx items c /\ In x (g_items (solutions ord cx c)) /\ exists t2 t3, audit ord cx t2 x = Ok (y, t3)) \/
         (independent cx items c /\ exists s' t3, In s' (g_items (solutions ord cx c)) /\ audit ord cx [] s' = Ok (y, t3)) \/ claims_of y = [])).
      { intros idx y h o E. destruct (F2_nth_r _ _ _ SG _ _ E) as [x [Ex SX]]. rewrite EQ in Ex. rewrite nth_error_map in Ex. destruct (nth_error qs idx) as [[c x']|] eqn:EQS; [|discriminate]. cbn in Ex. injection Ex as ->.
        exists c, x. split; auto. assert (Jq := nth_error_In _ _ EQS). destruct (QA _ Jq) as [Ic STD]. cbn [fst snd] in *. split; auto.
        assert (Jx : In x out) by (rewrite EQ; apply in_map_iff; exists (c, x); auto).
        destruct SX as [[K [AS [SS AU]]]|[K [-> _]]].
        - left. destruct (UX x Jx K) as [_ [_ [_ UU]]]. destruct (UU c Jq). auto.
        - right. destruct STD as [[IND [t2 [z SE]]]|[[_ [_ IS]]|[_ [_ ->]]]].
          + left. split; auto. assert (CA : exists s' q t3, In s' (g_items (solutions ord cx c)) /\ candidate ord cx s' x q t3).
            { destruct SE as [pre s' post r0 q t0 E1 _ C1 _|pre s' post r0 q t0 all z0 zr zq zt _ E1 _ C1 _ _ _ _]; exists s', q, t0; (split; [rewrite E1; apply in_or_app; simpl; auto|exact C1]). }
            destruct CA as [s' [q [t3 [IS [CA _]]]]]. eauto.
          + exfalso. apply K. eapply solutions_keep; eauto.
          + right. apply unaudited_claims. eapply fresh_sub; [apply SUBP; exact Ic|exact U]. }
      assert (CHILD : forall c, In c items -> rule_tree c /\ as_written c /\ unaudited c).
      { intros c Ic. split; [eapply rule_tree_sub; [apply SUBP; exact Ic|exact RT]|]. split; [eapply as_written_sub; [apply SUBP; exact Ic|exact AW]|]. eapply fresh_sub; [apply SUBP; exact Ic|exact U]. }
      assert (NSH : forall c p, In c items -> ~ shareable es (NCount kd i items) p k -> ~ shareable es c p k).
      { intros c p Ic N H. apply N. eapply shareable_sub; [apply SUBP; exact Ic|exact H]. }
      (* claims of a child are of courses among its matches *)
      assert (MAT : forall c s' t2 y t3 cl, In c items -> In s' (g_items (solutions ord cx c)) -> audit ord cx t2 s' = Ok (y, t3) -> In cl (claims_of y) ->
        c_clbid (cl_course cl) = k -> ~ shareable es (NCount kd i items) (cl_by cl) k -> of_student st (cl_course cl) /\ forall ms, matches_of cx c = Ok ms -> In (ICourse (cl_course cl)) ms).
      { intros c s' t2 y t3 cl Ic IS AU J KC NC. destruct (CHILD c Ic) as [RTc [AWc Uc]].
        destruct (claim_asked s' t2 y t3 cl (solutions_unaudited ord cx c s' Uc IS) AU J) as [h [x [AS [Jx [CC [CP _]]]]]].
        destruct (asked_ok c s' h x RTc AWc IS AS Jx) as [O [SH UN]]. rewrite CC. split; auto. apply UN.
        destruct (at_shared x) eqn:SX; auto. exfalso. apply (NSH c _ Ic NC). rewrite CP, <- KC, CC. auto. }
      assert (ftm : flat_map claims_of (map (fun s => fst (fst s)) segs) = flat_map (fun s => claims_of (fst (fst s))) segs).
      { clear. induction segs as [|x l IH]; [reflexivity|]. cbn. rewrite IH. reflexivity. }
      rewrite ftm in S. clear ftm.
      assert (FAILS : forall y h o cl idx, nth_error segs idx = Some (y, h, o) -> subseq (claims_of y) (filter succeeded o) -> In cl (claims_of y) -> In cl o /\ cl_failed cl = false).
      { intros y h o cl idx E SS J. apply (subseq_in _ _ _ SS), filter_In in J. destruct J as [J1 J2]. unfold succeeded in J2. apply negb_true_iff in J2. auto. }
      destruct (subseq_flat_two _ _ _ _ _ S) as [[idx [[[y h] o] [E SS]]]|[i1 [i2 [[[y1 h1] o1] [[[y2 h2] o2] [LT [E1 [E2 [J1 J2]]]]]]]]]; cbn [fst snd] in *.
      + destruct (SEG _ _ _ _ E) as [c [x [EQS [Ic [[K [CL _]]|[[IND [s' [t3 [IS AU]]]]|Z]]]]]].
        * assert (Ja : In a (claims_of y)) by (eapply subseq_in; [exact SS|simpl; auto]). assert (Jb : In b (claims_of y)) by (eapply subseq_in; [exact SS|simpl; auto]).
          destruct (FAILS _ _ _ _ _ E CL Ja) as [_ Fa]. destruct (FAILS _ _ _ _ _ E CL Jb) as [_ Fb].
          eapply (once_in_history _ _ _ _ _ a b R HIST); eauto.
          eapply subseq_trans; [exact SS|]. eapply subseq_trans; [exact CL|]. eapply subseq_trans; [apply subseq_filter|].
          eapply subseq_concat_nth. rewrite nth_error_map, E. reflexivity.
        * destruct (CHILD c Ic) as [RTc [AWc Uc]]. eapply (once_whole c s'); eauto.
        * rewrite Z in SS. inversion SS.
      + destruct (SEG _ _ _ _ E1) as [c1 [x1 [Q1 [Ic1 D1]]]], (SEG _ _ _ _ E2) as [c2 [x2 [Q2 [Ic2 D2]]]].
        assert (NEC : c1 <> c2).
        { intro EC. subst c2. assert (X : i1 = i2); [|lia]. eapply (proj1 (NoDup_nth_error (map fst qs)) NDQ).
          - rewrite map_length. apply nth_error_Some. congruence.
          - rewrite !nth_error_map, Q1, Q2. reflexivity. }
        assert (QUIET : forall c s' t2 y t3 cl, In c items -> In s' (g_items (solutions ord cx c)) -> audit ord cx t2 s' = Ok (y, t3) -> In cl (claims_of y) ->
          ~ shareable es (NCount kd i items) (cl_by cl) k -> always_disjoint c = true -> declares true c).
        { intros c s' p y p' cl Ic IS AU J NC AD. apply always_disjoint_exact in AD. destruct AD as [AD|[q [QB [_ [QT _]]]]]; auto. exfalso. destruct (CHILD c Ic) as [RTc [AWc Uc]].
          destruct (claim_asked s' p y p' cl (solutions_unaudited ord cx c s' Uc IS) AU J) as [h [x [AS [Jx [_ [CP _]]]]]].
          apply (NSH c _ Ic NC). rewrite CP. eapply quiet_asked; eauto. }
        assert (APART : independent cx items c1 \/ independent cx items c2 -> usable cx items c1 -> usable cx items c2 ->
          (exists s' t2 t3, In s' (g_items (solutions ord cx c1)) /\ audit ord cx t2 s' = Ok (y1, t3)) ->
          (exists s' t2 t3, In s' (g_items (solutions ord cx c2)) /\ audit ord cx t2 s' = Ok (y2, t3)) -> False).
        { intros IND U1 U2 [s1 [p1 [q1 [S1 A1]]]] [s2 [p2 [q2 [S2 A2]]]].
          destruct (MAT c1 s1 p1 y1 q1 a Ic1 S1 A1 J1 Ka Na) as [O1 M1], (MAT c2 s2 p2 y2 q2 b Ic2 S2 A2 J2 Kb Nb) as [O2 M2].
          assert (EC : cl_course a = cl_course b) by (apply UNIQ; auto; congruence).
          destruct (MOK c1 U1) as [m1 E1'], (MOK c2 U2) as [m2 E2']. assert (X1 := M1 m1 E1'). assert (X2 := M2 m2 E2'). rewrite <- EC in X2.
          assert (NAD : ~ (always_disjoint c1 = true /\ always_disjoint c2 = true)) by (intros [D1' D2']; apply (DJ c1 c2 Ic1 Ic2 NEC); split; eapply QUIET; eauto).
          destruct IND as [[_ [N|[_ N]]]|[_ [N|[_ N]]]].
          - apply NEC. symmetry. apply N. exact U2.
          - apply (N c2 U2 (not_eq_sym NEC)). split; [exists m1, m2, (ICourse (cl_course a)); auto|]. exact NAD.
          - apply NEC. apply N. exact U1.
          - apply (N c1 U1 NEC). split; [exists m2, m1, (ICourse (cl_course a)); auto|]. intros [X Y]. apply NAD. auto. }
        destruct D1 as [[K1 [CL1 [U1 [IS1 [t2 [t3 AU1]]]]]]|[[IND1 [s1 [t3 [IS1 AU1]]]]|Z1]]; [| |rewrite Z1 in J1; destruct J1];
          (destruct D2 as [[K2 [CL2 [U2 [IS2 [t4 [t5 AU2]]]]]]|[[IND2 [s2 [t5 [IS2 AU2]]]]|Z2]]; [| |rewrite Z2 in J2; destruct J2]).
        * destruct (FAILS _ _ _ _ _ E1 CL1 J1) as [Oa Fa]. destruct (FAILS _ _ _ _ _ E2 CL2 J2) as [Ob Fb].
          eapply (once_in_history _ _ _ _ _ a b R HIST); eauto.
          eapply (subseq_concat_two _ i1 i2); [exact LT|rewrite nth_error_map, E1; reflexivity|rewrite nth_error_map, E2; reflexivity|exact Oa|exact Ob].
        * apply APART; eauto 8. apply IND2.
        * apply APART; eauto 8. apply IND1.
        * apply APART; eauto 8; [apply IND1|apply IND2].
    - destruct (e_result (d_cond i)) as [[|]|] eqn:ER.
      + apply (proj1 (proj2 (proj2 top_solutions_otherwise)) ord nord cx [] kd i bt f ER) in I. destruct I as [x [I ->]].
        assert (G' : g_exn (fst (top_solutions ord nord cx [] bt)) = None).
        { cbn [top_solutions] in G. rewrite ER in G. destruct (top_solutions ord nord cx [] bt) as [g tt]. cbn in *. exact G. }
        cbn [audit] in A. rewrite ER in A.
        assert (SUBP : forall y, part_of bt y -> part_of (NCond kd i bt f) y) by (intros y P; apply pt_true; exact P).
        assert (AX : audit ord cx t x = Ok (match r with NCond _ _ y _ => y | z => z end, t') /\ claims_of r = claims_of (match r with NCond _ _ y _ => y | z => z end) \/ claims_of r = []).
        { destruct (kind_of x) eqn:K.
          - right. injection A as <- <-. cbn [claims_of]. rewrite ER. exfalso. assert (KX : kind_of x = KSol) by (eapply top_kind; eauto). congruence.
          - left. destruct (audit ord cx t x) as [[y t1]|]; cbn [bind] in A; [|discriminate]. injection A as <- <-. split; [reflexivity|]. cbn [claims_of]. rewrite ER. reflexivity.
          - right. exfalso. assert (KX : kind_of x = KSol) by (eapply top_kind; eauto). congruence. }
        destruct AX as [[AX EC]|Z]; [|rewrite Z in S; inversion S]. rewrite EC in S.
        eapply (IHt); eauto.
        * eapply rule_tree_sub; [exact SUBP|exact RT].
        * eapply as_written_sub; [exact SUBP|exact AW].
        * eapply fresh_sub; [exact SUBP|exact U].
        * intros kd' i' items' H. apply (TT kd'). eapply hd_branch; [apply if_true; exact ER|exact H].
        * intro H. apply Na. eapply shareable_sub; [exact SUBP|exact H].
        * intro H. apply Nb. eapply shareable_sub; [exact SUBP|exact H].
      + destruct f as [f|]; [|cbn [top_solutions] in I; rewrite ER in I; destruct I].
        apply (proj2 (proj2 (proj2 top_solutions_otherwise)) ord nord cx [] kd i bt f ER) in I. destruct I as [x [I ->]].
        assert (G' : g_exn (fst (top_solutions ord nord cx [] f)) = None).
        { cbn [top_solutions] in G. rewrite ER in G. destruct (top_solutions ord nord cx [] f) as [g tt]. cbn in *. exact G. }
        cbn [audit] in A. rewrite ER in A.
        assert (SUBP : forall y, part_of f y -> part_of (NCond kd i bt (Some f)) y) by (intros y P; apply pt_false; exact P).
        assert (AX : audit ord cx t x = Ok (match r with NCond _ _ _ (Some y) => y | z => z end, t') /\ claims_of r = claims_of (match r with NCond _ _ _ (Some y) => y | z => z end) \/ claims_of r = []).
        { assert (KX : kind_of x = KSol) by (eapply top_kind; eauto). rewrite KX in A. left.
          destruct (audit ord cx t x) as [[y t1]|]; cbn [bind] in A; [|discriminate]. injection A as <- <-. split; [reflexivity|]. cbn [claims_of]. rewrite ER. reflexivity. }
        destruct AX as [[AX EC]|Z]; [|rewrite Z in S; inversion S]. rewrite EC in S.
        eapply (IHf f eq_refl); eauto.
        * eapply rule_tree_sub; [exact SUBP|exact RT].
        * eapply as_written_sub; [exact SUBP|exact AW].
        * eapply fresh_sub; [exact SUBP|exact U].
        * intros kd' i' items' H. apply (TT kd'). eapply hd_branch; [eapply if_false; [exact ER|reflexivity]|exact H].
        * intro H. apply Na. eapply shareable_sub; [exact SUBP|exact H].
        * intro H. apply Nb. eapply shareable_sub; [exact SUBP|exact H].
      + cbn [top_solutions] in I. rewrite ER in I. destruct I.
  Qed.
End Once.
