From Coq Require Import List ZArith QArith Bool String Lia Permutation.
From Verif Require Import Prelude Dec Status Course Claims Exceptions Op Context CondExpr Paths Predicate Limit Apply Assertion Query CourseRule Tree.
From Verif Require Import LimitProofs ListFacts ClaimsSpec ClaimsProofs LimitProps AssertionSpec AssertionProofs PredicateProofs QuerySpec QueryProofs CourseRuleSpec CourseRuleProofs TreeSpec TreeProofs TreeSolSpec TreeSolProofs TreeAuditSpec.
Import ListNotations.
Local Open Scope list_scope.

Lemma run_app mc h1 : forall t o1 t1 h2 o2 t2, run_claims mc t h1 = Ok (o1, t1) -> run_claims mc t1 h2 = Ok (o2, t2) ->
  run_claims mc t (h1 ++ h2) = Ok (o1 ++ o2, t2).
Proof.
  induction h1 as [|a h IH]; intros t o1 t1 h2 o2 t2 R1 R2; cbn [run_claims app] in *.
  - injection R1 as <- <-. exact R2.
  - destruct (make_claim _ _ _ _ _) as [[cl t']|]; cbn [bind] in *; [|discriminate]. destruct (run_claims mc t' h) as [[o t'']|] eqn:E; cbn [bind] in R1; [|discriminate].
    injection R1 as <- <-. rewrite (IH _ _ _ _ _ _ E R2). reflexivity.
Qed.
Lemma run_shared mc t p cs : run_claims mc t (map (shared_at p) cs) = Ok (map (fun c => mkClaim c p false) cs, t).
Proof. induction cs as [|c cs IH]; cbn [map run_claims shared_at at_course at_path at_shared make_claim bind]; [reflexivity|]. fold (shared_at p) in *. rewrite IH. reflexivity. Qed.
Lemma filter_ok_all p cs : filter succeeded (map (fun c => mkClaim c p false) cs) = map (fun c => mkClaim c p false) cs.
Proof. induction cs as [|c cs IH]; cbn; [reflexivity|]. rewrite IH. reflexivity. Qed.
Lemma as_courses_inv l cs : mapr as_course l = Ok cs -> l = map ICourse cs.
Proof.
  revert cs. induction l as [|x l IH]; intros cs; cbn [mapr]; [intro H; injection H as <-; reflexivity|].
  destruct x; cbn [as_course bind]; try discriminate. destruct (mapr as_course l) as [cs'|]; cbn [bind]; [|discriminate]. intro H. injection H as <-. cbn. f_equal. apply IH. reflexivity.
Qed.

(** ** leaves *)
Lemma course_history mc t r r' t' : c_audit mc t r = Ok (r', t') ->
  exists h outs, course_asks r h /\ run_claims mc t h = Ok (outs, t') /\ c_claims KRes r' = filter succeeded outs /\
    r_path r' = r_path r /\ r_overridden r' = r_overridden r /\ r_inserted r' = r_inserted r /\ r_optional r' = r_optional r.
Proof.
  unfold c_audit. destruct (r_overridden r) eqn:O.
  { intro H. injection H as <- <-. exists [], []. split; [apply ca_waived; auto|]. cbn. rewrite ?O. auto 9. }
  destruct (r_matched r) as [c|] eqn:M.
  2:{ intro H. injection H as <- <-. exists [], []. split; [apply ca_none; auto|]. cbn. rewrite ?O. auto 9. }
  destruct (r_from_claimed r && negb (has_claim t (c_clbid c)))%bool eqn:FC.
  { intro H. injection H as <- <-. exists [], []. apply andb_true_iff in FC. split; [apply ca_unclaimed; tauto|]. cbn. rewrite ?O. auto 9. }
  destruct (make_claim mc t c (r_path r) (r_forced r || r_allow r)) as [[cl t1]|] eqn:MC; cbn [bind]; [|discriminate].
  destruct (r_from_claimed r && cl_failed cl)%bool; [discriminate|]. intro H. injection H as <- <-.
  exists [mkAttempt c (r_path r) (r_forced r || r_allow r)], [cl]. split; [constructor; auto|]. cbn [run_claims at_course at_path at_shared]. rewrite MC. cbn [bind].
  split; [reflexivity|]. split; [cbn; unfold succeeded; destruct (cl_failed cl); reflexivity|]. cbn. rewrite ?O. auto 9.
Qed.
Lemma query_history cx t q q' t' : q_audit cx t q = Ok (q', t') ->
  exists h outs, query_asks cx q h /\ run_claims (cx_multi cx) t h = Ok (outs, t') /\ q_claims q' = filter succeeded outs /\
    q_path q' = q_path q /\ q_overridden q' = q_overridden q /\ q_output q' = q_output q.
Proof.
  unfold q_audit. destruct (q_overridden q) eqn:O.
  { intro H. injection H as <- <-. exists [], []. split; [apply qa_waived; auto|]. cbn. auto 9. }
  set (collected := match q_source q with QCourses => _ | _ => _ end).
  assert (C : forall items ok bad t1, collected = Ok (items, ok, bad, t1) ->
    exists h outs, query_asks cx q h /\ run_claims (cx_multi cx) t h = Ok (outs, t1) /\ ok = filter succeeded outs).
  { intros items ok bad t1 H. unfold collected in H.
    assert (NOTHING : q_source q <> QCourses -> q_source q <> QClaimed -> ok = [] -> t1 = t ->
      exists h outs, query_asks cx q h /\ run_claims (cx_multi cx) t h = Ok (outs, t1) /\ ok = filter succeeded outs).
    { intros A B -> ->. exists [], []. split; [apply qa_nothing; auto; intro; congruence|]. auto. }
    destruct (q_source q) eqn:S; [| |injection H as <- <- <- <-; apply NOTHING; congruence..].
    - destruct (mapr as_course (q_output q)) as [cs|] eqn:M; cbn [bind] in H; [|discriminate]. apply as_courses_inv in M.
      destruct (collect_courses _ _ _ _) as [[[[i o] b] t2]|] eqn:CC; cbn [bind] in H; [|discriminate]. injection H as <- <- <- <-.
      unfold collect_courses in CC. destruct (q_attempt q) eqn:A.
      + apply claim_each_runs in CC. destruct CC as [outs [R [-> _]]]. exists (attempts_of q cs), outs. split; [apply qa_claims; auto|]. auto.
      + destruct (q_record q) eqn:RC.
        * rewrite claim_all_runs in CC. cbn [bind] in CC. injection CC as <- <- <- <-. exists (map (shared_at (q_path q)) cs). eexists.
          split; [apply qa_records; auto|]. split; [apply run_shared|]. rewrite filter_ok_all. reflexivity.
        * injection CC as <- <- <- <-. exists [], []. split; [apply qa_nothing; auto; intro; congruence|]. auto.
    - unfold collect_claimed in H. destruct (all_claimed cx t) as [all|] eqn:AC; cbn [bind] in H; [|discriminate].
      destruct (match q_where q with Some _ => _ | None => _ end) as [wh|] eqn:W in H; cbn [bind] in H; [|discriminate].
      set (items' := filter (fun c => negb (instr (c_clbid c) (q_excluded q))) wh) in *.
      destruct (mapr (forced_by_clbid cx) (q_inserted q)) as [more|] eqn:MO; cbn [bind] in H; [|discriminate].
      rewrite claim_all_runs in H. cbn [bind] in H. injection H as <- <- <- <-. destruct (q_record q) eqn:RC.
      + exists (map (shared_at (q_path q)) (items' ++ more)). eexists. split; [apply qa_claimed; auto|split; [apply run_shared|rewrite filter_ok_all; reflexivity]].
        intros c I. apply in_app_iff in I. destruct I as [I|I].
        * unfold items' in I. apply filter_In in I. destruct I as [I _].
          assert (J : In c all). { destruct (q_where q); [|injection W as ->; exact I]. apply filter_res_items in W. destruct W as [-> _]. apply filter_In in I. apply I. }
          unfold all_claimed in AC. apply mapr_ok in AC. destruct (F2_in_r _ _ _ _ AC J) as [[k cls] [_ E]]. cbn in E.
          exists k. left. destruct (find_by_clbid cx k); congruence.
        * apply mapr_ok in MO. destruct (F2_in_r _ _ _ _ MO I) as [k [_ E]]. exists k. auto.
      + exists [], []. split; [apply qa_nothing; auto; intro; congruence|]. auto. }
  destruct collected as [[[[items ok] bad] t1]|]; cbn [bind]; [|discriminate]. destruct (C _ _ _ _ eq_refl) as [h [outs [A [R E]]]].
  match goal with |- bind ?x _ = _ -> _ => destruct x as [asserts|]; cbn [bind]; [|discriminate] end. intro H. injection H as <- <-. exists h, outs. cbn. auto 9.
Qed.

(** ** unaudited trees claim nothing *)
Lemma unaudited_sub n x : unaudited n -> part_of n x -> unaudited x.
Proof. intros U P y Q. apply U. eapply part_trans; eauto. Qed.
Lemma unaudited_claims n : unaudited n -> claims_of n = [].
Proof.
  induction n as [k r|k q|k i items IH|k i o IH|k i t f IHt IHf|k i c] using node_induction; intro U; cbn [claims_of].
  - destruct (U _ (pt_self _)) as [K _]. cbn in K. destruct k; try reflexivity. congruence.
  - destruct (U _ (pt_self _)) as [K _]. cbn in K. destruct k; try reflexivity. congruence.
  - assert (H : forall x, In x items -> claims_of x = []).
    { intros x I. apply IH; auto. eapply unaudited_sub; [exact U|]. eapply pt_count; [exact I|constructor]. }
    clear - H. induction items as [|x l IH]; [reflexivity|]. cbn. rewrite H by (simpl; auto). apply IH. intros; apply H; simpl; auto.
  - destruct (e_audited i); [reflexivity|]. destruct o as [x|]; [|reflexivity]. apply IH; auto. eapply unaudited_sub; [exact U|]. apply pt_req. constructor.
  - destruct (e_result (d_cond i)) as [[|]|]; [|destruct f as [x|]|]; try reflexivity.
    + apply IHt. eapply unaudited_sub; [exact U|]. apply pt_true. constructor.
    + apply IHf; auto. eapply unaudited_sub; [exact U|]. apply pt_false. constructor.
  - destruct (U _ (pt_self _)) as [K _]. cbn in K. destruct k; try reflexivity. congruence.
Qed.
Lemma subseq_app {A} (a b c d : list A) : subseq a c -> subseq b d -> subseq (a ++ b) (c ++ d).
Proof. intros H K. induction H; cbn; auto; constructor; auto. Qed.

(** ** the whole tree *)
Section History.
  Variable ord : list course -> list course.
  Variable cx : ctx.
  Notation mc := (cx_multi cx).
  Definition has_history (n : node) : Prop := forall t r t', unaudited n -> audit ord cx t n = Ok (r, t') ->
    exists h outs, asks cx n h /\ run_claims mc t h = Ok (outs, t') /\ subseq (claims_of r) (filter succeeded outs) /\
      (none_by_department n -> claims_of r = filter succeeded outs).
  Lemma each_history items : (forall x, In x items -> has_history x /\ unaudited x) ->
    forall t rs t', audit_each (audit ord cx) t items = Ok (rs, t') ->
    exists hs outs, Forall2 (fun x h => (kind_of x = KSol /\ asks cx x h) \/ (kind_of x <> KSol /\ h = [])) items hs /\
      run_claims mc t (List.concat hs) = Ok (outs, t') /\ subseq (flat_map claims_of rs) (filter succeeded outs) /\
      ((forall x, In x items -> none_by_department x) -> flat_map claims_of rs = filter succeeded outs).
  Proof.
    induction items as [|x items IH]; intros H t rs t' E; cbn [audit_each] in E.
    - injection E as <- <-. exists [], []. split; [constructor|]. split; [reflexivity|]. split; [constructor|reflexivity].
    - match type of E with bind ?z _ = _ => destruct z as [[y t1]|] eqn:A end; cbn [bind] in E; [|discriminate].
      destruct (audit_each (audit ord cx) t1 items) as [[ys t2]|] eqn:B; cbn [bind] in E; [|discriminate]. injection E as <- <-.
      destruct (IH (fun z I => H z (or_intror I)) _ _ _ B) as [hs [outs [F [R [S N]]]]].
      destruct (H x (or_introl eq_refl)) as [HX UX].
      destruct (kind_of x) eqn:K.
      + injection A as <- <-. exists ([] :: hs), outs. split; [constructor; auto; right; rewrite K; split; congruence|]. split; [exact R|]. cbn [flat_map]. rewrite (unaudited_claims x UX).
        split; [exact S|]. intro D. apply N. intros z I. apply D. simpl. auto.
      + destruct (HX _ _ _ UX A) as [h [o [A1 [A2 [A3 A4]]]]]. exists (h :: hs), (o ++ outs). split; [constructor; auto|]. cbn [List.concat]. split; [eapply run_app; eauto|].
        cbn [flat_map]. rewrite filter_app. split; [apply subseq_app; auto|]. intro D. rewrite A4, N; auto; intros; apply D; simpl; auto.
      + injection A as <- <-. exists ([] :: hs), outs. split; [constructor; auto; right; rewrite K; split; congruence|]. split; [exact R|]. cbn [flat_map]. rewrite (unaudited_claims x UX).
        split; [exact S|]. intro D. apply N. intros z I. apply D. simpl. auto.
  Qed.
  Lemma audit_history n : has_history n.
  Proof.
    induction n as [k r|k q|k i items IH|k i o IH|k i b f IHt IHf|k i c] using node_induction; intros t r' t' U H; cbn [audit] in H.
    - destruct (c_audit mc t r) as [[x t1]|] eqn:A; cbn [bind] in H; [|discriminate]. injection H as <- <-. destruct (course_history _ _ _ _ _ A) as [h [outs [A1 [A2 [A3 _]]]]].
      exists h, outs. split; [constructor; auto|]. split; auto. cbn [claims_of]. rewrite A3. split; [apply subseq_refl|reflexivity].
    - destruct (q_audit cx t q) as [[x t1]|] eqn:A; cbn [bind] in H; [|discriminate]. injection H as <- <-. destruct (query_history _ _ _ _ _ A) as [h [outs [A1 [A2 [A3 _]]]]].
      exists h, outs. split; [constructor; auto|]. split; auto. cbn [claims_of q_node_claims]. rewrite A3. split; [apply subseq_refl|reflexivity].
    - destruct (n_overridden i) eqn:O.
      + injection H as <- <-. exists [], []. split; [apply ask_count_waived; auto|]. split; [reflexivity|]. cbn [claims_of]. assert (Z := unaudited_claims _ U). cbn [claims_of] in Z. rewrite Z. split; [constructor|reflexivity].
      + destruct (audit_each _ t items) as [[rs t1]|] eqn:A; cbn [bind] in H; [|discriminate]. destruct (mapr _ (n_audits i)) as [cl|]; cbn [bind] in H; [|discriminate]. injection H as <- <-.
        destruct (each_history items) with (t := t) (rs := rs) (t' := t1) as [hs [outs [F [R [S N]]]]]; auto.
        { intros x I. split; auto. eapply unaudited_sub; [exact U|]. eapply pt_count; [exact I|constructor]. }
        exists (List.concat hs), outs. split; [apply ask_count; auto|]. split; auto. cbn [claims_of]. split; auto. intro D. apply N. intros x I k' i' o' P. eapply D. eapply pt_count; eauto.
    - destruct (e_overridden i) eqn:O.
      + injection H as <- <-. exists [], []. split; [apply ask_req_waived; auto|]. split; [reflexivity|]. assert (Z := unaudited_claims _ U). cbn [claims_of] in *. rewrite Z. split; [constructor|reflexivity].
      + destruct o as [x|]; [|injection H as <- <-; exists [], []; split; [apply ask_req_none|]; split; [reflexivity|]; cbn; destruct (e_audited i); split; constructor].
        destruct (kind_of x) eqn:K.
        * injection H as <- <-. exists [], []. split; [apply ask_req_rule; auto|]. split; [reflexivity|]. assert (Z := unaudited_claims _ U). cbn [claims_of] in *. rewrite Z. split; [constructor|reflexivity].
        * destruct (audit ord cx t x) as [[y t1]|] eqn:A; cbn [bind] in H; [|discriminate]. injection H as <- <-.
          assert (UX : unaudited x) by (eapply unaudited_sub; [exact U|apply pt_req; constructor]).
          destruct (IH x eq_refl _ _ _ UX A) as [h [outs [A1 [A2 [A3 A4]]]]]. exists h, outs. split; [apply ask_req; auto|]. split; auto. cbn [claims_of].
          split; [destruct (e_audited i); [apply subseq_nil_l|exact A3]|]. intro D. rewrite (D k i (Some x) (pt_self _)). apply A4. intros k' i' o' P. eapply D. apply pt_req. eauto.
        * discriminate.
    - assert (UB : unaudited b) by (eapply unaudited_sub; [exact U|apply pt_true; constructor]).
      assert (Z := unaudited_claims _ U). cbn [claims_of] in Z. destruct (e_result (d_cond i)) as [[|]|] eqn:E.
      + destruct (kind_of b) eqn:K.
        * injection H as <- <-. exists [], []. split; [apply ask_cond_rule; intros x F; inversion F; subst; congruence|]. split; [reflexivity|]. cbn [claims_of]. rewrite E, Z. split; [constructor|reflexivity].
        * destruct (audit ord cx t b) as [[y t1]|] eqn:A; cbn [bind] in H; [|discriminate]. injection H as <- <-.
          destruct (IHt _ _ _ UB A) as [h [outs [A1 [A2 [A3 A4]]]]]. exists h, outs. split; [eapply ask_cond; [apply if_true; exact E|exact K|exact A1]|]. split; auto. cbn [claims_of]. rewrite E. split; auto.
          intro D. apply A4. intros k' i' o' P. eapply D. apply pt_true. eauto.
        * injection H as <- <-. exists [], []. split; [apply ask_cond_rule; intros x F; inversion F; subst; congruence|]. split; [reflexivity|]. cbn [claims_of]. rewrite E, Z. split; [constructor|reflexivity].
      + destruct f as [x|]; [destruct (kind_of x) eqn:K|].
        * injection H as <- <-. exists [], []. split; [apply ask_cond_rule; intros y F; inversion F; subst; congruence|]. split; [reflexivity|]. cbn [claims_of]. rewrite E, Z. split; [constructor|reflexivity].
        * destruct (audit ord cx t x) as [[y t1]|] eqn:A; cbn [bind] in H; [|discriminate]. injection H as <- <-.
          assert (UX : unaudited x) by (eapply unaudited_sub; [exact U|apply pt_false; constructor]).
          destruct (IHf x eq_refl _ _ _ UX A) as [h [outs [A1 [A2 [A3 A4]]]]]. exists h, outs. split; [eapply ask_cond; [eapply if_false; [exact E|reflexivity]|exact K|exact A1]|]. split; auto. cbn [claims_of]. rewrite E. split; auto.
          intro D. apply A4. intros k' i' o' P. eapply D. apply pt_false. eauto.
        * injection H as <- <-. exists [], []. split; [apply ask_cond_rule; intros y F; inversion F; subst; congruence|]. split; [reflexivity|]. cbn [claims_of]. rewrite E, Z. split; [constructor|reflexivity].
        * injection H as <- <-. exists [], []. split; [apply ask_cond_rule; intros y F; inversion F; subst; congruence|]. split; [reflexivity|]. cbn [claims_of]. rewrite E. split; [constructor|reflexivity].
      + assert (H' : Ok (NCond KRes i b f, t) = Ok (r', t')) by (destruct f; exact H). injection H' as <- <-. exists [], []. split; [apply ask_cond_rule; intros y F; inversion F; subst; congruence|]. split; [reflexivity|]. cbn [claims_of]. rewrite E. destruct f; (split; [constructor|reflexivity]).
    - destruct (f_overridden i) eqn:O.
      + injection H as <- <-. exists [], []. split; [apply ask_prof_none; auto|]. split; [reflexivity|]. cbn [claims_of prof_claims].
        destruct c as [[k' r]|]; [|split; constructor]. destruct (U _ (pt_self _)) as [_ KK]. assert (k' <> KRes) by (intro; subst; eapply KK; reflexivity). destruct k'; try congruence; (split; [constructor|reflexivity]).
      + destruct (proficiency_status _ _ _) as [s|]; cbn [bind] in H; [|discriminate].
        destruct (U _ (pt_self _)) as [_ KK]. destruct c as [[k' r]|].
        * destruct k'.
          -- cbn [bind] in H. injection H as <- <-. exists [], []. split; [apply ask_prof_none; right; intros; congruence|]. split; [reflexivity|]. cbn. split; [constructor|reflexivity].
          -- destruct (c_audit mc t r) as [[x t1]|] eqn:A; cbn [bind] in H; [|discriminate]. injection H as <- <-. destruct (course_history _ _ _ _ _ A) as [h [outs [A1 [A2 [A3 _]]]]].
             exists h, outs. split; [apply ask_prof; auto|]. split; auto. cbn [claims_of prof_claims]. rewrite A3. split; [apply subseq_refl|reflexivity].
          -- exfalso. eapply KK; reflexivity.
        * cbn [bind] in H. injection H as <- <-. exists [], []. split; [apply ask_prof_none; right; intros; congruence|]. split; [reflexivity|]. cbn. split; [constructor|reflexivity].
  Qed.
End History.

(** ** the table only grows *)
Definition grows (t t' : claims) : Prop := forall k, exists rest, recorded t' k = recorded t k ++ rest.
Lemma grows_refl t : grows t t.
Proof. intro k. exists []. rewrite app_nil_r. reflexivity. Qed.
Lemma grows_trans a b c : grows a b -> grows b c -> grows a c.
Proof. intros H K k. destruct (H k) as [x E], (K k) as [y F]. exists (x ++ y). rewrite F, E, app_assoc. reflexivity. Qed.
Lemma grows_record t cl : grows t (record_claim t cl).
Proof. intro k. rewrite recorded_record. destruct (String.eqb k _); [eauto|]. exists []. rewrite app_nil_r. reflexivity. Qed.
(** what recording claims one by one can reach *)
Inductive rec_star : claims -> claims -> Prop :=
| rec_refl t : rec_star t t
| rec_step t cl t' : rec_star (record_claim t cl) t' -> rec_star t t'.
Lemma rec_trans a b c : rec_star a b -> rec_star b c -> rec_star a c.
Proof. induction 1; auto. intro. econstructor. eauto. Qed.
Lemma rec_record t cl : rec_star t (record_claim t cl).
Proof. econstructor. constructor. Qed.
Lemma rec_grows t t' : rec_star t t' -> grows t t'.
Proof. induction 1; [apply grows_refl|]. eapply grows_trans; [apply grows_record|eassumption]. Qed.
Lemma rec_claim mc t c p b cl t' : make_claim mc t c p b = Ok (cl, t') -> rec_star t t'.
Proof.
  assert (H : forall x : res (claim * claims), (forall y, x = Ok y -> snd y = t \/ exists z, snd y = record_claim t z) -> x = Ok (cl, t') -> rec_star t t').
  { intros x H E. destruct (H _ E) as [D|[z D]]; cbn in D; rewrite D; [apply rec_refl|apply rec_record]. }
  apply H. clear. intros y E. unfold make_claim in E. destruct b; [injection E as <-; auto|]. destruct (dget t _); [|injection E as <-; cbn; eauto].
  destruct (dget mc _); [|destruct l; injection E as <-; cbn; eauto].
  unfold make_multicountable_claim in E. 
  repeat match type of E with
  | context [match ?x with _ => _ end] => destruct x; try discriminate
  | Ok _ = Ok _ => injection E as <-; cbn; eauto
  | bind ?x _ = _ => destruct x; cbn [bind] in E; try discriminate
  end.
Qed.
Lemma rec_run mc l : forall t o t', run_claims mc t l = Ok (o, t') -> rec_star t t'.
Proof.
  induction l as [|a l IH]; intros t o t' R; [cbn in R; injection R as <- <-; apply rec_refl|].
  destruct (run_cons _ _ _ _ _ _ R) as [cl [t1 [o' [M [R' ->]]]]]. eapply rec_trans; [eapply rec_claim; exact M|eauto].
Qed.
Lemma rec_each ord cx items : (forall x, In x items -> forall t r t', audit ord cx t x = Ok (r, t') -> rec_star t t') ->
  forall t rs t', audit_each (audit ord cx) t items = Ok (rs, t') -> rec_star t t'.
Proof.
  induction items as [|x items IH]; intros H t rs t' E; cbn [audit_each] in E; [injection E as <- <-; apply rec_refl|].
  match type of E with bind ?z _ = _ => destruct z as [[y t1]|] eqn:A end; cbn [bind] in E; [|discriminate].
  destruct (audit_each (audit ord cx) t1 items) as [[ys t2]|] eqn:B; cbn [bind] in E; [|discriminate]. injection E as <- <-.
  apply rec_trans with t1; [|eapply IH; [intros; eapply H; simpl; eauto|exact B]].
  destruct (kind_of x); [injection A as <- <-; apply rec_refl|eapply H; simpl; eauto|injection A as <- <-; apply rec_refl].
Qed.
Lemma audit_records ord cx n : forall t r t', audit ord cx t n = Ok (r, t') -> rec_star t t'.
Proof.
  assert (CO : forall t r r' t', c_audit (cx_multi cx) t r = Ok (r', t') -> rec_star t t').
  { intros t r r' t' A. destruct (course_history _ _ _ _ _ A) as [h [o [_ [R _]]]]. eapply rec_run; eauto. }
  induction n as [k r|k q|k i items IH|k i o IH|k i b f IHt IHf|k i c] using node_induction; intros t r' t' H; cbn [audit] in H.
  - destruct (c_audit _ t r) as [[x t1]|] eqn:A; cbn [bind] in H; [|discriminate]. injection H as <- <-. eauto.
  - destruct (q_audit cx t q) as [[x t1]|] eqn:A; cbn [bind] in H; [|discriminate]. injection H as <- <-. destruct (query_history _ _ _ _ _ A) as [h [o [_ [R _]]]]. eapply rec_run; eauto.
  - destruct (n_overridden i); [injection H as <- <-; apply rec_refl|]. destruct (audit_each _ t items) as [[rs t1]|] eqn:A; cbn [bind] in H; [|discriminate].
    destruct (mapr _ (n_audits i)); cbn [bind] in H; [|discriminate]. injection H as <- <-. eapply rec_each; eauto.
  - destruct (e_overridden i); [injection H as <- <-; apply rec_refl|]. destruct o as [x|]; [|injection H as <- <-; apply rec_refl].
    destruct (kind_of x); [injection H as <- <-; apply rec_refl| |discriminate]. destruct (audit ord cx t x) as [[y t1]|] eqn:A; cbn [bind] in H; [|discriminate]. injection H as <- <-. eauto.
  - destruct (e_result (d_cond i)) as [[|]|]; [|destruct f as [x|]|].
    + destruct (kind_of b); [injection H as <- <-; apply rec_refl| |injection H as <- <-; apply rec_refl]. destruct (audit ord cx t b) as [[y t1]|] eqn:A; cbn [bind] in H; [|discriminate]. injection H as <- <-. eauto.
    + destruct (kind_of x); [injection H as <- <-; apply rec_refl| |injection H as <- <-; apply rec_refl]. destruct (audit ord cx t x) as [[y t1]|] eqn:A; cbn [bind] in H; [|discriminate]. injection H as <- <-. eauto.
    + injection H as <- <-; apply rec_refl.
    + destruct f; injection H as <- <-; apply rec_refl.
  - destruct (f_overridden i); [injection H as <- <-; apply rec_refl|]. destruct (proficiency_status _ _ _); cbn [bind] in H; [|discriminate].
    destruct c as [[[| |] r]|]; cbn [bind] in H; [injection H as <- <-; apply rec_refl| |injection H as <- <-; apply rec_refl|injection H as <- <-; apply rec_refl].
    destruct (c_audit _ t r) as [[x t1]|] eqn:A; cbn [bind] in H; [|discriminate]. injection H as <- <-. eauto.
Qed.

Lemma audit_grows ord cx n t r t' : audit ord cx t n = Ok (r, t') -> grows t t'.
Proof. intro A. eapply rec_grows, audit_records, A. Qed.
Lemma rec_inv (P : claims -> Prop) t t' : (forall t cl, P t -> P (record_claim t cl)) -> rec_star t t' -> P t -> P t'.
Proof. intros H. induction 1; auto. Qed.

(** ** whose attempts they are *)
Definition attempt_from (cx : ctx) (n : node) (a : attempt) : Prop :=
  (may_use n (at_course a) \/ known cx (at_course a)) /\
  (at_shared a = false \/ may_share n (at_course a) (at_path a)) /\ (paths_ok n -> path_ok (at_path a)).
Lemma attempt_from_part cx n x a : part_of n x -> attempt_from cx x a -> attempt_from cx n a.
Proof.
  intros P [U [S K]]. split; [|split].
  - destruct U as [[[r [H M]]|[k [q [H M]]]]|U]; [left; left; exists r|left; right; exists k, q|auto]; (split; [|exact M]).
    + destruct H as [[k H]|[k [i [k' H]]]]; [left; exists k|right; exists k, i, k']; eapply part_trans; eauto.
    + eapply part_trans; eauto.
  - destruct S as [S|[[r [H M]]|[k [q [H M]]]]]; [auto|right; left; exists r|right; right; exists k, q]; (split; [|exact M]).
    + destruct H as [[k H]|[k [i [k' H]]]]; [left; exists k|right; exists k, i, k']; eapply part_trans; eauto.
    + eapply part_trans; eauto.
  - intros [A B]. apply K. split; [intros y Q; apply A; eapply part_trans; eauto|intros ? ? ? ? Q; eapply B; eapply part_trans; eauto].
Qed.
Lemma course_attempts cx n r h a :
  (exists k, part_of n (NCourse k r)) \/ (exists k i k', part_of n (NProf k i (Some (k', r)))) ->
  course_asks r h -> In a h -> attempt_from cx n a.
Proof.
  intros P C I. destruct C as [|? |?|c O M]; try destruct I as []; try contradiction. subst a. split; [|split].
  - left. left. exists r. auto.
  - cbn. destruct (r_forced r || r_allow r)%bool eqn:S; [right; left; exists r|auto]. apply orb_true_iff in S. auto.
  - intros [A B]. cbn. destruct P as [[k P]|[k [i [k' P]]]]; [apply (A _ P)|eapply B; eauto].
Qed.
Lemma asks_attempts cx n : forall h a, asks cx n h -> In a h -> attempt_from cx n a.
Proof.
  induction n as [k r|k q|k i items IH|k i o IH|k i b f IHt IHf|k i c] using node_induction; intros h a A I; inversion A; subst; try (destruct I; fail).
  - eapply course_attempts; eauto. left. exists k. constructor.
  - assert (P : part_of (NQuery k q) (NQuery k q)) by constructor.
    assert (PO : paths_ok (NQuery k q) -> path_ok (q_path q)) by (intros [X _]; apply (X _ P)).
    match goal with H : query_asks _ _ _ |- _ => destruct H as [| cs O S AT E | cs O S AT R E | cs O S R KN |] end; try contradiction; apply in_map_iff in I; destruct I as [c [<- I]]; unfold shared_at; split; cbn.
    + left. right. exists k, q. split; auto. rewrite E. apply in_map. exact I.
    + split; auto. destruct (q_allow q || instr (c_clbid c) (q_forced q))%bool eqn:B; [right|auto]. right. exists k, q. apply orb_true_iff in B. rewrite instr_iff in B. intuition.
    + left. right. exists k, q. split; auto. rewrite E. apply in_map. exact I.
    + split; auto. right. right. exists k, q. auto 9.
    + right. auto.
    + split; auto. right. right. exists k, q. auto 9.
  - apply in_concat in I. destruct I as [h' [I1 I2]]. match goal with F : Forall2 _ _ _ |- _ => destruct (F2_in_r _ _ _ _ F I1) as [x [J [[_ B]|[_ ->]]]] end; [|destruct I2].
    eapply attempt_from_part; [|eapply IH; eauto]. eapply pt_count; [exact J|constructor].
  - eapply attempt_from_part; [|eapply IH; eauto]. apply pt_req. constructor.
  - match goal with F : in_force _ _ _ _ |- _ => inversion F; subst end.
    + eapply attempt_from_part; [|eapply IHt; eauto]. apply pt_true. constructor.
    + eapply attempt_from_part; [|eapply IHf; eauto]. apply pt_false. constructor.
  - eapply course_attempts; eauto. right. exists k, i, KSol. constructor.
Qed.
Lemma run_names mc l : forall t o t' i a cl, run_claims mc t l = Ok (o, t') -> nth_error l i = Some a -> nth_error o i = Some cl ->
  cl_course cl = at_course a /\ cl_by cl = at_path a.
Proof.
  induction l as [|a l IH]; intros t o t' i b cl R A B; [destruct i; discriminate|].
  destruct (run_cons _ _ _ _ _ _ R) as [c [t1 [o' [M [R' ->]]]]]. destruct i; cbn in A, B; [|eauto]. injection A as <-. injection B as <-. eapply make_claim_names; eauto.
Qed.
Lemma run_lengths mc l : forall t o t', run_claims mc t l = Ok (o, t') -> List.length o = List.length l.
Proof.
  induction l as [|a l IH]; intros t o t' R; [cbn in R; injection R as <- <-; reflexivity|].
  destruct (run_cons _ _ _ _ _ _ R) as [c [t1 [o' [M [R' ->]]]]]. cbn. f_equal. eauto.
Qed.
Lemma subseq_nth {A} (s l : list A) x : subseq (x :: s) l -> exists i, nth_error l i = Some x.
Proof. intro H. apply In_nth_error. eapply subseq_in; [exact H|simpl; auto]. Qed.
Lemma subseq_two {A} (s : list A) x y l : subseq (x :: y :: s) l -> exists i j, (i < j)%nat /\ nth_error l i = Some x /\ nth_error l j = Some y.
Proof.
  revert x y s. induction l as [|z l IH]; intros x y s H; inversion H; subst.
  - destruct (subseq_nth _ _ _ H1) as [j E]. exists O, (S j). split; [lia|auto].
  - destruct (IH _ _ _ H2) as [i [j [L [E1 E2]]]]. exists (S i), (S j). split; [lia|auto].
Qed.

(** ** results *)
Lemma matched_items_courses ord n : (forall l, Permutation (ord l) l) -> matched_courses n (ord (matched_of (claims_of n))).
Proof.
  intro O. split.
  - eapply Permutation_NoDup; [symmetry; apply O|]. apply (dedup_NoDup course_eqb course_eqb_spec).
  - intro c. transitivity (In c (matched_of (claims_of n))); [split; intro; eapply Permutation_in; try eassumption; [|symmetry]; apply O|].
    unfold matched_of. rewrite (in_dedup course_eqb course_eqb_spec), in_map_iff. split.
    + intros [cl [E I]]. apply filter_In in I. destruct I as [I F]. apply negb_true_iff in F. exists cl. split; [apply (proj1 (proj1 (claims_ok n cl))); exact I|auto].
    + intros [cl [I [F E]]]. exists cl. split; auto. apply filter_In. rewrite F. split; [apply (proj1 (claims_ok n cl)); exact I|reflexivity].
Qed.
Lemma matched_flat ord results : flat_map (matched_items ord) results = map ICourse (List.concat (map (fun n => ord (matched_of (claims_of n))) results)).
Proof. induction results as [|x l IH]; [reflexivity|]. cbn [flat_map map List.concat]. rewrite map_app, IH. reflexivity. Qed.
Lemma each_audited ord cx items : (forall x, In x items -> forall t r t', audit ord cx t x = Ok (r, t') -> audited cx x r) ->
  forall t rs t', audit_each (audit ord cx) t items = Ok (rs, t') ->
  Forall2 (fun x y => (kind_of x = KSol /\ audited cx x y) \/ (kind_of x <> KSol /\ y = x)) items rs.
Proof.
  induction items as [|x items IH]; intros H t rs t' E; cbn [audit_each] in E; [injection E as <- <-; constructor|].
  match type of E with bind ?z _ = _ => destruct z as [[y t1]|] eqn:A end; cbn [bind] in E; [|discriminate].
  destruct (audit_each (audit ord cx) t1 items) as [[ys t2]|] eqn:B; cbn [bind] in E; [|discriminate]. injection E as <- <-.
  constructor; [|eapply IH; [intros; eapply H; simpl; eauto|exact B]].
  destruct (kind_of x) eqn:K; [injection A as <- <-; right; split; congruence|left; split; auto; eapply H; simpl; eauto|injection A as <- <-; right; split; congruence].
Qed.
Lemma audit_audited ord cx n : (forall l, Permutation (ord l) l) -> forall t r t', audit ord cx t n = Ok (r, t') -> audited cx n r.
Proof.
  intro O. induction n as [k r|k q|k i items IH|k i o IH|k i b f IHt IHf|k i c] using node_induction; intros t r' t' H; cbn [audit] in H.
  - destruct (c_audit _ t r) as [[x t1]|] eqn:A; cbn [bind] in H; [|discriminate]. injection H as <- <-. destruct (course_history _ _ _ _ _ A) as [h [o [_ [_ [_ [? [? [? ?]]]]]]]]. constructor; auto.
  - destruct (q_audit cx t q) as [[x t1]|] eqn:A; cbn [bind] in H; [|discriminate]. injection H as <- <-. destruct (query_history _ _ _ _ _ A) as [h [o [_ [_ [_ [? [? ?]]]]]]]. constructor; auto.
  - destruct (n_overridden i) eqn:E; [injection H as <- <-; apply au_count_waived; auto|]. destruct (audit_each _ t items) as [[rs t1]|] eqn:A; cbn [bind] in H; [|discriminate].
    destruct (mapr _ (n_audits i)) as [cl|] eqn:M; cbn [bind] in H; [|discriminate]. injection H as <- <-. apply mapr_ok in M. rewrite matched_flat in M.
    eapply au_count; [exact E|eapply each_audited; eauto| |exact M]. clear - O. induction rs; cbn [map]; constructor; auto. apply matched_items_courses, O.
  - destruct (e_overridden i) eqn:E; [injection H as <- <-; apply au_req_as_is; auto|]. destruct o as [x|]; [|injection H as <- <-; apply au_req_as_is; right; congruence].
    destruct (kind_of x) eqn:K; [injection H as <- <-; apply au_req_as_is; right; intros ? EE; injection EE as <-; exact K| |discriminate].
    destruct (audit ord cx t x) as [[y t1]|] eqn:A; cbn [bind] in H; [|discriminate]. injection H as <- <-. apply au_req; eauto.
  - destruct (e_result (d_cond i)) as [[|]|] eqn:E; [|destruct f as [x|]|].
    + destruct (kind_of b) eqn:K; [injection H as <- <-; apply au_cond_as_is; intros z F; inversion F; subst; congruence| |injection H as <- <-; apply au_cond_as_is; intros z F; inversion F; subst; congruence].
      destruct (audit ord cx t b) as [[y t1]|] eqn:A; cbn [bind] in H; [|discriminate]. injection H as <- <-. apply au_true; eauto.
    + destruct (kind_of x) eqn:K; [injection H as <- <-; apply au_cond_as_is; intros z F; inversion F; subst; congruence| |injection H as <- <-; apply au_cond_as_is; intros z F; inversion F; subst; congruence].
      destruct (audit ord cx t x) as [[y t1]|] eqn:A; cbn [bind] in H; [|discriminate]. injection H as <- <-. apply au_false; eauto.
    + injection H as <- <-; apply au_cond_as_is; intros z F; inversion F; subst; congruence.
    + assert (H' : Ok (NCond KRes i b f, t) = Ok (r', t')) by (destruct f; exact H). injection H' as <- <-; apply au_cond_as_is; intros z F; inversion F; subst; congruence.
  - destruct (f_overridden i) eqn:E; [injection H as <- <-; apply au_prof_waived; auto|]. destruct (proficiency_status _ _ _) as [s|] eqn:P; cbn [bind] in H; [|discriminate].
    destruct c as [[[| |] r]|]; cbn [bind] in H; try (injection H as <- <-; apply au_prof_none; auto; congruence).
    destruct (c_audit _ t r) as [[x t1]|] eqn:A; cbn [bind] in H; [|discriminate]. injection H as <- <-. destruct (course_history _ _ _ _ _ A) as [h [o [_ [_ [_ [? [? [? ?]]]]]]]]. apply au_prof; auto.
Qed.

(** ** solutions of rules are unaudited *)
Definition fresh (x : node) : Prop := kind_of x <> KRes /\ forall k i r, x <> NProf k i (Some (KRes, r)).
Lemma fresh_parts ord cx n : (forall x, part_of n x -> fresh x) -> forall s x, In s (g_items (solutions ord cx n)) -> part_of s x -> fresh x.
Proof.
  induction n as [k r|k q|k i items IH|k i o IH|k i t f IHt IHf|k i c] using node_induction; intros RT s x I P.
  - cbn [solutions gmap g_items] in I. apply in_map_iff in I. destruct I as [y [<- _]]. inversion P; subst. split; intros; discriminate.
  - cbn [solutions gmap g_items] in I. apply in_map_iff in I. destruct I as [y [<- _]]. inversion P; subst. split; intros; discriminate.
  - rewrite solutions_count in I. unfold count_solutions in I. destruct (waived cx (n_path i)).
    + destruct I as [<-|[]]. unfold count_solution in P. inversion P as [|k' i' it y z Iy Pz| | |]; subst; [split; intros; discriminate|]. apply RT. eapply pt_count; eauto.
    + destruct (potential_children cx _) as [pot|] eqn:PC; [|destruct I]. apply count_run_from in I. destruct I as [sel [sols [SI [SO ->]]]].
      unfold built, count_solution in P. inversion P as [|k' i' it y z Iy Pz| | |]; subst; [split; intros; discriminate|].
      rewrite sort_in, !in_app_iff in Iy. destruct Iy as [Iy|[Iy|[]]].
      * destruct (solves_in _ _ _ SO Iy) as [c [Ic J]]. apply SI in Ic. rewrite sort_in in Ic.
        assert (IC : exists c', In c' items /\ c = child_of ord cx c').
        { unfold potential_children in PC. destruct (filter_res _ _) as [fl|] eqn:FR; cbn [bind] in PC; [|discriminate]. injection PC as <-.
          apply filter_res_items in FR. destruct FR as [-> _]. apply dedup_incl in Ic. apply filter_In in Ic. destruct Ic as [Ic _].
          apply in_map_iff in Ic. destruct Ic as [c' [<- Ic]]. eauto. }
        destruct IC as [c' [Ic' ->]]. cbn [child_of snd] in J. eapply IH; eauto. intros z Pz'. apply RT. eapply pt_count; eauto.
      * apply filter_In in Iy. destruct Iy as [Iy _]. unfold children_set in Iy. apply dedup_incl in Iy. apply RT. eapply pt_count; eauto.
  - cbn [solutions] in I. destruct (waived cx (e_path i)).
    + destruct I as [<-|[]]. unfold req_solution in P. inversion P; subst; [split; intros; discriminate|]. apply RT. apply pt_req. auto.
    + destruct o as [z|]; [|destruct I as [<-|[]]; inversion P; subst; split; intros; discriminate].
      cbn [gmap g_items] in I. apply in_map_iff in I. destruct I as [y [<- J]]. unfold req_solution in P. inversion P; subst; [split; intros; discriminate|].
      eapply (IH z); eauto. intros w Pw. apply RT. apply pt_req. auto.
  - cbn [solutions] in I. destruct (e_result (d_cond i)) as [[|]|]; [|destruct f as [z|]; [|destruct I]|destruct I].
    + cbn [gmap g_items] in I. apply in_map_iff in I. destruct I as [y [<- J]]. inversion P; subst; [split; intros; discriminate| |apply RT; apply pt_false; auto].
      eapply IHt; eauto. intros w Pw. apply RT. apply pt_true. auto.
    + cbn [gmap g_items] in I. apply in_map_iff in I. destruct I as [y [<- J]]. inversion P; subst; [split; intros; discriminate|apply RT; apply pt_true; auto|].
      eapply (IHf z); eauto. intros w Pw. apply RT. apply pt_false. auto.
  - cbn [solutions] in I. unfold prof_solutions in I. destruct (RT _ (pt_self _)) as [_ KK]. destruct (waived cx (f_path i)).
    + destruct I as [<-|[]]. inversion P; subst. split; [discriminate|]. intros k' i' r E. injection E as _ _ ->. eapply KK. reflexivity.
    + destruct c as [[k' r]|]; [|destruct I as [<-|[]]; inversion P; subst; split; [discriminate|intros ? ? ? E; discriminate E]].
      destruct (gnext _); [|destruct I]. destruct I as [<-|[]]. inversion P; subst. split; [discriminate|intros ? ? ? E; discriminate E].
Qed.
Lemma solutions_unaudited ord cx n s : unaudited n -> In s (g_items (solutions ord cx n)) -> unaudited s.
Proof. intros U I x P. eapply fresh_parts; eauto. Qed.
