From Coq Require Import List ZArith QArith Bool String Lia Lqa Permutation.
From Verif Require Import Prelude Dec Status Course Exceptions Op Context CondExpr Predicate Transcript Apply Assertion.
From Verif Require Import ListFacts TranscriptSpec TranscriptProofs CondExprSpec CondExprProofs PredicateSpec PredicateProofs
  AssertionSpec LimitProofs ApplyProofs ExceptionsProofs.
Import ListNotations.
Local Open Scope string_scope.
Local Open Scope list_scope.
Local Open Scope Q_scope.

Lemma Qltb_iff a b : Qltb a b = true <-> a < b.
Proof. unfold Qltb. rewrite negb_true_iff. apply (Qleb_false b a). Qed.
Lemma Qltb_no a b : Qltb a b = false <-> b <= a.
Proof. unfold Qltb. rewrite negb_false_iff. apply Qle_bool_iff. Qed.
Lemma Qeqb_no a b : Qeqb a b = false <-> ~ a == b.
Proof. rewrite <- Qeqb_iff. destruct (Qeqb a b); split; congruence. Qed.

(** the comparison is the one of dp/op.py on two Decimals *)
Lemma compare_num_op op a b : compare_num op (dval a) (dval b) = apply_operator op (VS (SDec a)) (VS (SDec b)).
Proof.
  cbn [apply_operator]. unfold op_scalar. cbn [none_mismatch is_none orb andb is_str negb].
  assert (C : forall x y, match x ?= y with Lt => true | _ => false end = Qltb x y).
  { intros x y. destruct (x ?= y) eqn:E; symmetry; [apply Qltb_no|apply Qltb_iff|apply Qltb_no].
    - apply Qeq_alt in E. rewrite E. apply Qle_refl.
    - apply Qlt_alt; auto.
    - apply Qgt_alt in E. apply Qlt_le_weak; auto. }
  assert (G : forall x y, match x ?= y with Gt => true | _ => false end = Qltb y x).
  { intros x y. destruct (x ?= y) eqn:E; symmetry; [apply Qltb_no|apply Qltb_no|apply Qltb_iff].
    - apply Qeq_alt in E. rewrite E. apply Qle_refl.
    - apply Qlt_alt in E. apply Qlt_le_weak; auto.
    - apply Qgt_alt in E. auto. }
  assert (L : forall x y, Qleb x y = negb (Qltb y x)).
  { intros x y. unfold Qltb. rewrite negb_involutive. reflexivity. }
  destruct op; cbn [compare_num py_cmp num bind py_eq]; try reflexivity;
    rewrite ?L, <- ?(C (dval a) (dval b)), <- ?(G (dval a) (dval b)); destruct (dval a ?= dval b); reflexivity.
Qed.

Lemma compare_num_spec op v e b : compare_num op v e = Ok b -> (b = true <-> meets op v e).
Proof.
  destruct op; cbn [compare_num meets]; intro H; try discriminate; injection H as <-.
  - apply Qltb_iff. - apply Qleb_iff. - apply Qltb_iff. - apply Qleb_iff. - apply Qeqb_iff.
  - rewrite negb_true_iff. apply Qeqb_no.
Qed.
Lemma compare_num_total op v e : numeric op -> exists b, compare_num op v e = Ok b.
Proof. intros [A B]. destruct op; cbn; eauto; congruence. Qed.
Lemma meets_ext op v v' e e' : v == v' -> e == e' -> meets op v e -> meets op v' e'.
Proof. intros E F. destruct op; cbn [meets]; try tauto; intros; lra. Qed.

Lemma unmet_spec op v e : short_status op v e (unmet op v e).
Proof.
  destruct op; cbn [short_status unmet]; auto.
  - destruct (Qltb 0 v && Qleb v e) eqn:E.
    + apply andb_true_iff in E. rewrite Qltb_iff, Qleb_iff in E. left. tauto.
    + right. split; auto. intros [A B]. apply Qltb_iff in A. apply Qleb_iff in B. rewrite A, B in E. discriminate.
  - destruct (Qltb 0 v && Qltb v e) eqn:E.
    + apply andb_true_iff in E. rewrite !Qltb_iff in E. left. tauto.
    + right. split; auto. intros [A B]. apply Qltb_iff in A, B. rewrite A, B in E. discriminate.
  - destruct (Qltb 0 v && Qltb v e) eqn:E.
    + apply andb_true_iff in E. rewrite !Qltb_iff in E. left. tauto.
    + right. split; auto. intros [A B]. apply Qltb_iff in A, B. rewrite A, B in E. discriminate.
Qed.
Lemma unmet_not_passing op v e : ~ In (unmet op v e) passing_statuses.
Proof.
  unfold unmet, passing_statuses.
  destruct op; repeat match goal with |- context [if ?b then _ else _] => destruct b end; simpl; intuition discriminate.
Qed.

Lemma exists_iff (f : course -> bool) l (P : course -> Prop) : (forall c, In c l <-> P c) ->
  (existsb f l = true <-> exists c, P c /\ f c = true).
Proof. intro H. rewrite existsb_exists. setoid_rewrite H. reflexivity. Qed.
Lemma exists_no (f : course -> bool) l (P : course -> Prop) : (forall c, In c l <-> P c) ->
  (existsb f l = false <-> forall c, P c -> f c = false).
Proof.
  intro H. split.
  - intros E c Pc. destruct (f c) eqn:F; auto. assert (existsb f l = true); [|congruence]. apply existsb_exists. exists c. split; [apply H; auto|auto].
  - intro A. destruct (existsb f l) eqn:E; auto. apply existsb_exists in E. destruct E as [c [I F]]. apply H in I. rewrite (A c I) in F. discriminate.
Qed.

Definition applied_ok (a : assertion) (cs : list course) (r : applied) : Prop :=
  measures (as_key a) cs (ap_value r) /\ forall c, In c (ap_courses r) <-> contributes (as_key a) cs c.

(** the course evaluation, all keys: [again] is whether the second application met the
    comparison *)
Lemma eval_courses_cases a cs s r : evaluate_with_courses a cs = Ok (s, r) ->
  apply_courses (as_key a) cs cs = Ok r /\ applied_ok a cs r /\
  ((~ meets (as_op a) (ap_value r) (dval (as_expected a)) /\ s = unmet (as_op a) (ap_value r) (dval (as_expected a))) \/
   (meets (as_op a) (ap_value r) (dval (as_expected a)) /\ exists again,
      ((exists c, contributes (as_key a) cs c /\ c_in_progress c = true) ->
         exists r', apply_courses (as_key a) (finished cs) [] = Ok r' /\ (again = true <-> meets (as_op a) (ap_value r') (dval (as_expected a)))) /\
      ((forall c, contributes (as_key a) cs c -> c_in_progress c = false) -> again = true) /\
      ((as_ip_pass a = true \/ again = true) -> s = Done) /\
      (as_ip_pass a = false -> again = false ->
         (exists c, contributes (as_key a) cs c /\ c_in_progress c = true) /\
         ((s = PendingRegistered /\ exists c, contributes (as_key a) cs c /\ c_ip_in_future c = true) \/
          (s = PendingCurrent /\ forall c, contributes (as_key a) cs c -> c_ip_in_future c = false))))).
Proof.
  unfold evaluate_with_courses. intro H.
  destruct (apply_courses (as_key a) cs cs) as [calc|] eqn:A; cbn [bind] in H; [|discriminate].
  destruct (apply_spec _ _ _ A) as [M C].
  destruct (compare_num (as_op a) (ap_value calc) (dval (as_expected a))) as [b|] eqn:B; cbn [bind] in H; [|discriminate].
  apply compare_num_spec in B. destruct b.
  2:{ injection H as <- <-. split; [reflexivity|]. split; [split; auto|]. left. split; auto. intro F. apply B in F. discriminate. }
  assert (B' := proj1 B eq_refl). clear B.
  assert (R : r = calc).
  { destruct (existsb c_in_progress (ap_courses calc)); cbn [bind] in H.
    - destruct (apply_courses _ _ []); cbn [bind] in H; [|discriminate]. destruct (compare_num _ _ _); cbn [bind] in H; [|discriminate].
      repeat match type of H with (if ?x then _ else _) = _ => destruct x end; try discriminate; injection H as _ <-; reflexivity.
    - rewrite orb_true_r in H. injection H as _ <-. reflexivity. }
  subst r. split; [reflexivity|]. split; [split; auto|]. right. split; auto.
  destruct (existsb c_in_progress (ap_courses calc)) eqn:IP; cbn [bind] in H.
  - assert (IP' := proj1 (exists_iff _ _ _ C) IP).
    fold (finished cs) in H.
    destruct (apply_courses (as_key a) (finished cs) []) as [calc'|] eqn:A'; cbn [bind] in H; [|discriminate].
    destruct (compare_num (as_op a) (ap_value calc') (dval (as_expected a))) as [again|] eqn:B2; cbn [bind] in H; [|discriminate].
    apply compare_num_spec in B2. exists again. split; [eauto|]. split.
    { intro N. destruct IP' as [c [Pc F]]. rewrite (N c Pc) in F. discriminate. }
    destruct (as_ip_pass a) eqn:T; cbn [orb] in H.
    + injection H as <-. split; auto. discriminate.
    + destruct again.
      * injection H as <-. split; auto. discriminate.
      * split; [intros [F|F]; discriminate|]. intros _ _. split; auto.
        destruct (existsb c_ip_in_future (ap_courses calc)) eqn:FU.
        -- left. apply (exists_iff _ _ _ C) in FU. split; [|exact FU].
           destruct (existsb c_ip_this_term _), (existsb c_incomplete _); cbn in H; injection H as <-; reflexivity.
        -- right. split; [|apply (exists_no _ _ _ C); auto].
           destruct (existsb c_ip_this_term _), (existsb c_incomplete _); cbn in H; try discriminate; injection H as <-; reflexivity.
  - assert (IP' := proj1 (exists_no _ _ _ C) IP). exists true. rewrite orb_true_r in H. injection H as <-.
    split.
    { intros [c [Pc F]]. rewrite (IP' c Pc) in F. discriminate. }
    repeat split; auto; intros; discriminate.
Qed.

Lemma eval_courses_total a cs : In (as_key a) course_actions -> numeric (as_op a) ->
  (forall c, In c cs -> c_in_progress c = true -> c_ip_this_term c = true \/ c_ip_in_future c = true \/ c_incomplete c = true) ->
  exists s r, evaluate_with_courses a cs = Ok (s, r).
Proof.
  intros K N W. unfold evaluate_with_courses.
  destruct (apply_total (as_key a) cs cs K) as [r E]. rewrite E. cbn [bind].
  destruct (apply_spec _ _ _ E) as [_ C].
  destruct (compare_num_total (as_op a) (ap_value r) (dval (as_expected a)) N) as [b ->]. cbn [bind].
  destruct b; [|eauto].
  destruct (existsb c_in_progress (ap_courses r)) eqn:IP; cbn [bind].
  - destruct (apply_total (as_key a) (filter (fun c => negb (c_in_progress c)) cs) [] K) as [r' ->]. cbn [bind].
    destruct (compare_num_total (as_op a) (ap_value r') (dval (as_expected a)) N) as [b ->]. cbn [bind].
    destruct (as_ip_pass a || b); [eauto|].
    apply existsb_exists in IP. destruct IP as [c [I P]].
    assert (Ic : In c cs).
    { apply C in I. destruct (as_key a); cbn [contributes] in I; try tauto; try (eapply first_in; eauto; fail).
      - destruct I as [s [I _]]; auto. - destruct I as [s [I _]]; auto. - destruct I as [s [I _]]; auto.
      - destruct I as [p [q [-> _]]]. apply in_or_app. simpl. auto. }
    destruct (existsb c_ip_this_term (ap_courses r)) eqn:E1, (existsb c_ip_in_future (ap_courses r)) eqn:E2, (existsb c_incomplete (ap_courses r)) eqn:E3; cbn; eauto.
    exfalso. destruct (W c Ic P) as [F|[F|F]].
    + assert (existsb c_ip_this_term (ap_courses r) = true) by (apply existsb_exists; eauto). congruence.
    + assert (existsb c_ip_in_future (ap_courses r) = true) by (apply existsb_exists; eauto). congruence.
    + assert (existsb c_incomplete (ap_courses r) = true) by (apply existsb_exists; eauto). congruence.
  - rewrite orb_true_r. eauto.
Qed.

(** ** sizes *)
Lemma dval_int e z : dval e == inject_Z z -> int_of_Q (dval e) = z.
Proof.
  unfold int_of_Q. intro H. unfold Qeq in H. cbn in H. rewrite Z.mul_1_r in H. rewrite H. apply Z.quot_mul. lia.
Qed.
Lemma sizes_exact a e n k : dval (as_expected a) == inject_Z e -> numeric (as_op a) ->
  g_exn (input_size_range a n) = None /\
  (In k (g_items (input_size_range a n)) <->
   match as_op a with
   | OLt => (0 <= k < e)%Z
   | OLte => (0 <= k <= e)%Z
   | ONeq => (0 <= k < e)%Z \/ (e < k <= n)%Z
   | OEq => k = Z.min n e
   | OGt => ((n < e)%Z /\ k = n) \/ (e <= n /\ e < k <= Z.max n (e + 1))%Z
   | OGte => if as_at_most a then k = Z.min n e else ((n < e)%Z /\ k = n) \/ (e <= k <= n)%Z
   | OIn | ONin => False
   end).
Proof.
  intros E [N1 N2]. unfold input_size_range. rewrite (dval_int _ _ E).
  assert (Q0 : Qeqb (dval (as_expected a)) (inject_Z e) = true) by (apply Qeqb_iff; auto). rewrite Q0. cbn [negb].
  assert (EX : g_exn (if (n <? e)%Z then gret [n] else gret (zrange e (e + 1))) = None /\
    (In k (g_items (if (n <? e)%Z then gret [n] else gret (zrange e (e + 1)))) <-> k = Z.min n e)).
  { destruct (Z.ltb_spec n e); cbn [gret g_exn g_items]; split; auto.
    - simpl. lia.
    - rewrite zrange_in. lia. }
  destruct (as_op a); try congruence.
  - cbn [gret g_exn g_items]. rewrite zrange_in. split; [auto|lia].
  - cbn [gret g_exn g_items]. rewrite zrange_in. split; [auto|lia].
  - destruct (Z.ltb_spec n e); cbn [gret g_exn g_items]; split; auto.
    + simpl. lia.
    + rewrite zrange_in. lia.
  - destruct (as_at_most a); [exact EX|]. destruct (Z.ltb_spec n e); cbn [gret g_exn g_items]; split; auto.
    + simpl. lia.
    + rewrite zrange_in. lia.
  - cbn [gret g_exn g_items]. rewrite in_app_iff, !zrange_in. split; [auto|lia].
Qed.

(** ** thresholds *)
Lemma pow10_split x y : (0 <= x)%Z -> (0 <= y)%Z -> (10 ^ (x + y) = 10 ^ x * 10 ^ y)%Z.
Proof. intros. apply Z.pow_add_r; auto. Qed.
Lemma dval_pow d e : (e <= dexp d)%Z -> (e <= 0)%Z -> dval d == inject_Z (dscale e d) / inject_Z (10 ^ (- e)).
Proof.
  intros L NE. assert (P : forall x, (0 <= x)%Z -> (0 < 10 ^ x)%Z) by (intros; apply Z.pow_pos_nonneg; lia).
  assert (NZ : ~ inject_Z (10 ^ (- e)) == 0).
  { intro F. assert (P0 := P (- e)%Z ltac:(lia)). unfold Qeq in F. cbn in F. lia. }
  assert (G : dval d * inject_Z (10 ^ (- e)) == inject_Z (dscale e d)).
  { unfold dval, dscale. destruct (Z.leb_spec 0 (dexp d)) as [X|X].
    - rewrite <- inject_Z_mult, <- Z.mul_assoc, <- Z.pow_add_r by lia. replace (dexp d + - e)%Z with (dexp d - e)%Z by lia. reflexivity.
    - unfold Qeq, Qmult, inject_Z. cbn [Qnum Qden]. rewrite Pos.mul_1_r.
      assert (P1 := P (- dexp d)%Z ltac:(lia)). rewrite Z2Pos.id by auto. rewrite Z.mul_1_r, <- !Z.mul_assoc, <- Z.pow_add_r by lia.
      replace (dexp d - e + - dexp d)%Z with (- e)%Z by lia. reflexivity. }
  rewrite <- G. field. exact NZ.
Qed.
Lemma dval_mk z e : (e <= 0)%Z -> dval (mkDec z e) == inject_Z z / inject_Z (10 ^ (- e)).
Proof.
  intro H. rewrite (dval_pow (mkDec z e) e) by (cbn; lia). unfold dscale. cbn [dcoef dexp]. rewrite Z.sub_diag. cbn [Z.pow]. rewrite Z.mul_1_r. reflexivity.
Qed.
Lemma dval_mk_pos z e : (0 <= e)%Z -> dval (mkDec z e) == inject_Z (z * 10 ^ e).
Proof. intro H. unfold dval. cbn [dexp dcoef]. destruct (Z.leb_spec 0 e); [reflexivity|lia]. Qed.
Lemma dscale_pos d e : (0 <= e <= dexp d)%Z -> dval d == inject_Z (dscale e d * 10 ^ e).
Proof.
  intro H. unfold dval, dscale. destruct (Z.leb_spec 0 (dexp d)); [|lia]. rewrite <- Z.mul_assoc, <- Z.pow_add_r by lia.
  replace (dexp d - e + e)%Z with (dexp d) by lia. reflexivity.
Qed.
Lemma dadd_val a b : dval (dadd a b) == dval a + dval b.
Proof.
  unfold dadd. set (e := Z.min (dexp a) (dexp b)). cbv zeta. destruct (Z_le_gt_dec e 0) as [L|L].
  - rewrite (dval_pow a e), (dval_pow b e), dval_mk by (unfold e; lia). rewrite inject_Z_plus. field.
    intro F. unfold Qeq in F. cbn in F. assert (0 < 10 ^ (- e))%Z by (apply Z.pow_pos_nonneg; lia). lia.
  - rewrite (dscale_pos a e), (dscale_pos b e), dval_mk_pos by (unfold e in *; lia). rewrite Z.mul_add_distr_r, inject_Z_plus. reflexivity.
Qed.
Lemma dsub_val a b : dval (dsub a b) == dval a - dval b.
Proof.
  unfold dsub. set (e := Z.min (dexp a) (dexp b)). cbv zeta. destruct (Z_le_gt_dec e 0) as [L|L].
  - rewrite (dval_pow a e), (dval_pow b e), dval_mk by (unfold e; lia). unfold Z.sub. rewrite inject_Z_plus, inject_Z_opp. field.
    intro F. unfold Qeq in F. cbn in F. assert (0 < 10 ^ (- e))%Z by (apply Z.pow_pos_nonneg; lia). lia.
  - rewrite (dscale_pos a e), (dscale_pos b e), dval_mk_pos by (unfold e in *; lia). rewrite Z.mul_sub_distr_r. unfold Z.sub. rewrite inject_Z_plus, inject_Z_opp. reflexivity.
Qed.

Lemma adjusted_ext cx l : forall e1 e2 e', e1 == e2 -> adjusted cx l e1 e' -> adjusted cx l e2 e'.
Proof.
  intros e1 e2 e' E H. revert e2 E. induction H; intros e2 E.
  - apply ad_done. rewrite <- E. auto.
  - apply ad_skip; auto.
  - eapply ad_add; eauto. apply IHadjusted. rewrite E. reflexivity.
  - eapply ad_subtract; eauto. apply IHadjusted. rewrite E. reflexivity.
  - eapply ad_set; eauto.
Qed.
Lemma changes_spec cx raws : NoDup (map fst (cx_exc cx)) -> (forall x act, In (x, act) raws -> static_ok x) ->
  forall chs e, mapr (load_change cx) raws = Ok chs -> adjusted cx raws (dval e) (dval (fold_left apply_change chs e)).
Proof.
  intro N. induction raws as [|[x act] t IH]; intros S chs e H; cbn [mapr] in H.
  - injection H as <-. apply ad_done. reflexivity.
  - destruct (load_change cx (x, act)) as [ch|] eqn:L; cbn [bind] in H; [|discriminate].
    destruct (mapr (load_change cx) t) as [chs'|] eqn:M; cbn [bind] in H; [|discriminate]. injection H as <-.
    unfold load_change in L. cbn [fst snd] in L.
    destruct (load_expr_spec cx x N (S x act (or_introl eq_refl))) as [e0 [b [L0 [R B]]]]. rewrite L0 in L. cbn [bind] in L.
    rewrite (evaluate_fixed cx e0 b R) in L. cbn [bind] in L.
    destruct act as [|[m v] [|? ?]]; try discriminate. destruct m as [m|]; [|discriminate].
    destruct (dec_of_scalar v) as [d|] eqn:D; cbn [bind] in L; [|discriminate]. injection L as <-.
    cbn [fold_left]. unfold apply_change at 2. cbn [vc_expr vc_mode vc_amount]. rewrite R. cbn [truthy].
    assert (IH' := fun e => IH (fun x a I => S x a (or_intror I)) chs' e eq_refl).
    destruct b.
    + assert (TR := proj1 B eq_refl). destruct m.
      * eapply ad_add; eauto. eapply adjusted_ext; [|apply IH']. apply dadd_val.
      * eapply ad_subtract; eauto. eapply adjusted_ext; [|apply IH']. apply dsub_val.
      * eapply ad_set; eauto.
    + apply ad_skip; auto. intro F. apply B in F. discriminate.
Qed.
Lemma get_by_name_inv c s x : get_by_name c (SStr s) = Ok (inr x) -> stands_for c (SStr s) [x].
Proof.
  intro H. cbn [get_by_name] in H. destruct (starts_dollar s) eqn:D; cbn [negb] in H.
  2:{ injection H as <-. apply st_text. intros t ->. discriminate. }
  repeat match type of H with context [(s =? ?k)%string] => destruct (String.eqb_spec s k) as [E|_]; [subst s|] end; try discriminate.
  - injection H as <-. apply st_const. constructor.
  - injection H as <-. apply st_const. constructor.
  - destruct (k_medium c) eqn:M; [|discriminate]. injection H as <-. apply st_const. apply kn_medium. auto.
  - injection H as <-. apply st_const. constructor.
  - injection H as <-. apply st_const. constructor.
Qed.
Lemma load_expected_spec c raw d o : load_as_expected c raw = Ok (d, o) -> exists q, written c raw q /\ dval d == q.
Proof.
  destruct raw; cbn [load_as_expected]; intro H; try discriminate.
  - injection H as <- <-. eexists. split; [constructor|]. unfold dval, dec_of_Z. cbn. rewrite Z.mul_1_r. reflexivity.
  - destruct (get_by_name c (SStr s)) as [[l|x]|] eqn:G; cbn [bind] in H; try discriminate.
    apply get_by_name_inv in G. destruct x; try discriminate.
    + injection H as <- <-. eexists. split; [eapply wr_name; eauto|]. unfold dval, dec_of_Z. cbn. rewrite Z.mul_1_r. reflexivity.
    + destruct (dec_of_str s0) as [d'|] eqn:D; cbn [bind] in H; [|discriminate]. injection H as <- <-. eexists. split; [eapply wr_text; eauto|reflexivity].
Qed.

Lemma first_filter l p (kind : exc_action -> Prop) (f : exc -> bool) :
  (forall x, f x = true <-> kind (ex_act x)) ->
  match find f (filter (fun e => path_eqb (ex_path e) p) l) with
  | Some x => first_at l p kind x
  | None => none_at l p kind
  end.
Proof.
  intro K. induction l as [|y t IH]; cbn [filter find].
  - intros ? [].
  - destruct (path_eqb (ex_path y) p) eqn:P.
    + apply path_eqb_iff in P. cbn [find]. destruct (f y) eqn:F.
      * exists [], t. repeat split; auto. apply K; auto.
      * destruct (find f _) as [x|].
        -- destruct IH as [pre [post [E [A [B C]]]]]. exists (y :: pre), post. rewrite E. repeat split; auto.
           intros z [<-|I]; [|auto]. intros [_ Q]. apply K in Q. congruence.
        -- intros z [<-|I]; [intros [_ Q]; apply K in Q; congruence|auto].
    + apply path_eqb_neq in P. destruct (find f _) as [x|].
      * destruct IH as [pre [post [E [A [B C]]]]]. exists (y :: pre), post. rewrite E. repeat split; auto.
        intros z [<-|I]; [tauto|auto].
      * intros z [<-|I]; [tauto|auto].
Qed.
Lemma value_lookup l p : match get_value (group_exceptions l) p with
  | Some x => first_at l p value_kind x | None => none_at l p value_kind end.
Proof.
  unfold get_value. destruct (groups_ok l) as [_ [A _]]. rewrite A. apply first_filter.
  intro x. unfold is_value, value_kind. destruct (ex_act x); split; try discriminate; eauto; intros [d E]; discriminate.
Qed.
Lemma waive_lookup l p : match get_waive (group_exceptions l) p with
  | Some x => first_at l p waive_kind x | None => none_at l p waive_kind end.
Proof.
  unfold get_waive. destruct (groups_ok l) as [_ [A _]]. rewrite A. apply first_filter.
  intro x. unfold is_override, waive_kind. destruct (ex_act x); split; try discriminate; eauto; intros [d E]; discriminate.
Qed.

(** ** measured items *)
Lemma item_eqb_iff a b : item_eqb a b = true <-> a = b.
Proof. unfold item_eqb. destruct (item_eq_dec a b); split; congruence. Qed.
Lemma remove_first_split x l : (~ In x l /\ remove_first x l = l) \/
  exists p q, l = p ++ x :: q /\ ~ In x p /\ remove_first x l = p ++ q.
Proof.
  induction l as [|y t IH]; [left; simpl; tauto|]. cbn [remove_first]. destruct (item_eqb y x) eqn:E.
  - apply item_eqb_iff in E. subst. right. exists [], t. simpl. tauto.
  - assert (NE : y <> x) by (intro F; apply item_eqb_iff in F; congruence). destruct IH as [[N ->]|[p [q [-> [N ->]]]]].
    + left. simpl. tauto.
    + right. exists (y :: p), q. simpl. tauto.
Qed.
Lemma filter_res_items {A} (f : A -> res bool) l : forall r, filter_res f l = Ok r ->
  r = filter (fun x => match f x with Ok b => b | Err _ => false end) l /\ forall x, In x l -> exists b, f x = Ok b.
Proof.
  induction l as [|x t IH]; intros r H; cbn [filter_res] in H.
  - injection H as <-. split; [reflexivity|intros ? []].
  - destruct (f x) as [b|] eqn:F; cbn [bind] in H; [|discriminate].
    destruct (filter_res f t) as [r'|] eqn:G; cbn [bind] in H; [|discriminate]. destruct (IH r' eq_refl) as [-> Q1].
    cbn [filter]. rewrite F. split; [destruct b; congruence|]. intros y [<-|I]; eauto.
Qed.
Fixpoint inserted_list (cx : ctx) (es : list exc) : list course :=
  match es with
  | [] => []
  | x :: t => (if exc_forced x then match forced_by_clbid cx (exc_clbid x) with Ok c => [c] | Err _ => [] end
               else match find_by_clbid cx (exc_clbid x) with Some c => [c] | None => [] end) ++ inserted_list cx t
  end.
Lemma insert_items_spec cx es : forall data ins d i, insert_items cx es data ins = Ok (d, i) ->
  d = data ++ map ICourse (inserted_list cx es) /\ i = ins ++ map c_clbid (inserted_list cx es).
Proof.
  induction es as [|x t IH]; intros data ins d i H; cbn [insert_items inserted_list] in *.
  - injection H as <- <-. simpl. rewrite !app_nil_r. auto.
  - destruct (forced_by_clbid cx (exc_clbid x)) as [c|]; cbn [bind] in H; [|discriminate]. destruct (exc_forced x).
    + apply IH in H. destruct H as [-> ->]. simpl. rewrite <- !app_assoc. auto.
    + destruct (find_by_clbid cx (exc_clbid x)).
      * apply IH in H. destruct H as [-> ->]. simpl. rewrite <- !app_assoc. auto.
      * apply IH in H. auto.
Qed.
Lemma inserted_list_in cx es c : In c (inserted_list cx es) <->
  exists x, In x es /\ (find_by_clbid cx (exc_clbid x) = Some c \/ (exc_forced x = true /\ forced_by_clbid cx (exc_clbid x) = Ok c)).
Proof.
  induction es as [|x t IH]; cbn [inserted_list]; [firstorder|]. rewrite in_app_iff, IH. split.
  - intros [H|[y [I H]]]; [|exists y; simpl; auto]. exists x. split; [simpl; auto|]. destruct (exc_forced x).
    + destruct (forced_by_clbid cx (exc_clbid x)); [destruct H as [->|[]]; auto|destruct H].
    + destruct (find_by_clbid cx (exc_clbid x)); [destruct H as [->|[]]; auto|destruct H].
  - intros [y [[<-|I] H]]; [left|right; eauto]. destruct H as [H|[F H]].
    + unfold forced_by_clbid. rewrite H. destruct (exc_forced x); simpl; auto.
    + rewrite F, H. simpl. auto.
Qed.
Lemma block_items_spec cx es : forall data r, block_items cx es data = Ok r ->
  (forall x, In x r -> In x data) /\
  (forall x, In x data -> (forall e c, In e es -> forced_by_clbid cx (exc_clbid e) = Ok c -> x <> ICourse c) -> In x r) /\
  (NoDup data -> NoDup r /\ forall e c, In e es -> forced_by_clbid cx (exc_clbid e) = Ok c -> ~ In (ICourse c) r).
Proof.
  induction es as [|e t IH]; intros data r H; cbn [block_items] in H.
  - injection H as <-. repeat split; auto.
  - destruct (forced_by_clbid cx (exc_clbid e)) as [c|] eqn:F; cbn [bind] in H; [|discriminate]. apply IH in H. destruct H as [A [B C]].
    destruct (remove_first_split (ICourse c) data) as [[N E]|[p [q [E [N R]]]]].
    + rewrite E in *. repeat split; auto.
      * intros x I K. apply B; auto. intros e0 c0 I0. apply K. simpl. auto.
      * apply C; auto.
      * intros e0 c0 [<-|I0] F0; [|exact (proj2 (C H) e0 c0 I0 F0)]. rewrite F in F0. injection F0 as <-. intro I. apply N, A, I.
    + rewrite R in *. subst data. repeat split.
      * intros x I. apply A in I. apply in_app_iff in I. apply in_or_app. simpl. tauto.
      * intros x I K. apply B; [|intros e0 c0 I0; apply K; simpl; auto].
        apply in_app_iff in I. destruct I as [I|[I|I]]; [apply in_or_app; auto| |apply in_or_app; auto].
        exfalso. apply (K e c); simpl; auto.
      * apply C. apply NoDup_remove_1 in H. exact H.
      * intros e0 c0 [<-|I0] F0; [|exact (proj2 (C (NoDup_remove_1 _ _ _ H)) e0 c0 I0 F0)].
        rewrite F in F0. injection F0 as <-. intro I. apply A in I. apply NoDup_remove_2 in H. contradiction.
Qed.
Lemma inserts_added cx l p c : In c (inserted_list cx (get_inserts (group_exceptions l) p)) <-> added cx l p c.
Proof.
  rewrite inserted_list_in. unfold get_inserts, added. destruct (groups_ok l) as [_ [A _]]. rewrite A. split.
  - intros [x [I H]]. apply filter_In in I. destruct I as [I K]. apply filter_In in I. destruct I as [I P]. apply path_eqb_iff in P.
    unfold is_insert in K. unfold exc_clbid, exc_forced in H. destruct (ex_act x) as [k f| | | | |] eqn:X; try discriminate. exists x, k, f. auto.
  - intros [x [k [f [I [P [X H]]]]]]. exists x. split.
    + apply filter_In. split; [apply filter_In; split; auto; apply path_eqb_iff; auto|]. unfold is_insert. rewrite X. reflexivity.
    + unfold exc_clbid, exc_forced. rewrite X. exact H.
Qed.
Lemma inserted_NoDup cx l p : inserts_distinct cx l p -> NoDup (inserted_list cx (get_inserts (group_exceptions l) p)).
Proof.
  intros [N D]. destruct (groups_ok l) as [_ [A _]]. unfold get_inserts. rewrite A.
  assert (G : forall es, NoDup es -> (forall x, In x es -> In x l /\ ex_path x = p /\ is_insert x = true) -> NoDup (inserted_list cx es)).
  { induction es as [|x t IH]; intros ND I; cbn [inserted_list]; [constructor|]. inversion ND; subst.
    assert (IHt : NoDup (inserted_list cx t)) by (apply IH; auto; intros; apply I; simpl; auto).
    assert (ONE : forall c, forced_by_clbid cx (exc_clbid x) = Ok c -> NoDup ([c] ++ inserted_list cx t)).
    { intros c F. constructor; auto. intro J. apply inserted_list_in in J. destruct J as [y [Iy K]].
      assert (Fy : forced_by_clbid cx (exc_clbid y) = Ok c).
      { destruct K as [K|[_ K]]; auto. unfold forced_by_clbid. rewrite K. reflexivity. }
      destruct (I x (or_introl eq_refl)) as [Lx [Px Kx]]. destruct (I y (or_intror Iy)) as [Ly [Py Ky]].
      unfold is_insert in Kx, Ky. unfold exc_clbid in F, Fy.
      destruct (ex_act x) as [k f| | | | |] eqn:X; try discriminate. destruct (ex_act y) as [k' f'| | | | |] eqn:Y; try discriminate.
      assert (x = y) by (eapply D; eauto). subst. contradiction. }
    destruct (exc_forced x).
    - destruct (forced_by_clbid cx (exc_clbid x)) as [c|] eqn:F; [apply ONE; auto|exact IHt].
    - destruct (find_by_clbid cx (exc_clbid x)) as [c|] eqn:F; [|exact IHt]. apply ONE. unfold forced_by_clbid. rewrite F. reflexivity. }
  apply G.
  - apply NoDup_filter, NoDup_filter, N.
  - intros x I. apply filter_In in I. destruct I as [I K]. apply filter_In in I. destruct I as [I P]. apply path_eqb_iff in P. auto.
Qed.
Lemma blocks_blocked cx l p c : (exists e, In e (get_blocks (group_exceptions l) p) /\ forced_by_clbid cx (exc_clbid e) = Ok c) <-> blocked cx l p c.
Proof.
  unfold get_blocks, blocked. destruct (groups_ok l) as [_ [A _]]. rewrite A. split.
  - intros [x [I H]]. apply filter_In in I. destruct I as [I K]. apply filter_In in I. destruct I as [I P]. apply path_eqb_iff in P.
    unfold is_block in K. unfold exc_clbid in H. destruct (ex_act x) as [| |k| | |] eqn:X; try discriminate. exists x, k. auto.
  - intros [x [k [I [P [X H]]]]]. exists x. split.
    + apply filter_In. split; [apply filter_In; split; auto; apply path_eqb_iff; auto|]. unfold is_block. rewrite X. reflexivity.
    + unfold exc_clbid. rewrite X. exact H.
Qed.
Lemma as_courses data : forall cs, mapr as_course data = Ok cs -> data = map ICourse cs.
Proof.
  induction data as [|x t IH]; intros cs H; cbn [mapr] in H; [injection H as <-; reflexivity|].
  destruct x; cbn [as_course bind] in H; try discriminate. destruct (mapr as_course t) as [r|]; cbn [bind] in H; [|discriminate].
  injection H as <-. simpl. f_equal. auto.
Qed.
Lemma as_courses_map cs : mapr as_course (map ICourse cs) = Ok cs.
Proof. induction cs as [|c t IH]; [reflexivity|]. cbn [map mapr as_course bind]. rewrite IH. reflexivity. Qed.

(** the items, then the evaluation *)
Lemma audit_assertion_inv cx l data a r : cx_exc cx = group_exceptions l -> as_overridden a = false ->
  audit_assertion cx data a = Ok r -> exists filtered kept s calc,
    filtered = filter (fun x => match as_where a with Some w => match apply_pred x w with Ok b => b | Err _ => false end | None => true end) data /\
    block_items cx (get_blocks (cx_exc cx) (as_path a)) (filtered ++ map ICourse (inserted_list cx (get_inserts (cx_exc cx) (as_path a)))) = Ok kept /\
    evaluate_items a kept = Ok (s, calc) /\
    r = with_outcome a s calc (map c_clbid (inserted_list cx (get_inserts (cx_exc cx) (as_path a)))).
Proof.
  intros EX O H. unfold audit_assertion in H. rewrite O in H.
  destruct (match as_where a with Some w => _ | None => _ end) as [filtered|] eqn:W in H; cbn [bind] in H; [|discriminate].
  assert (FE : filtered = filter (fun x => match as_where a with Some w => match apply_pred x w with Ok b => b | Err _ => false end | None => true end) data).
  { destruct (as_where a).
    - apply filter_res_items in W. tauto.
    - injection W as <-. clear. induction data; simpl; congruence. }
  destruct (insert_items cx _ filtered []) as [[d i]|] eqn:I; cbn [bind fst snd] in H; [|discriminate].
  apply insert_items_spec in I. destruct I as [-> ->]. cbn [app] in H.
  destruct (block_items cx _ _) as [kept|] eqn:B; cbn [bind] in H; [|discriminate].
  destruct (evaluate_items a kept) as [[s calc]|] eqn:E; cbn [bind fst snd] in H; [|discriminate]. injection H as <-.
  exists filtered, kept, s, calc. auto.
Qed.

(** ranks *)
Lemma Qminb_le_l a b : Qminb a b <= a.
Proof. unfold Qminb. destruct (Qltb b a) eqn:E; [apply Qltb_iff in E; apply Qlt_le_weak; auto|apply Qle_refl]. Qed.
Lemma as_rank_le a : as_rank a <= 1.
Proof.
  unfold as_rank. destruct (as_state a); try apply Qle_refl;
    (destruct (as_resolved a); [|discriminate]; destruct (as_op a); try discriminate; destruct (Qeqb _ _); try discriminate; apply Qminb_le_l).
Qed.
Lemma any_rank_le a : any_rank a <= 1.
Proof.
  destruct a as [x|p c t e|p c t]; cbn [any_rank]; [apply as_rank_le| |].
  - destruct (e_result c) as [[|]|]; [apply as_rank_le| |discriminate]. destruct e; [apply as_rank_le|discriminate].
  - destruct (d_result c) as [[|]|]; [apply as_rank_le|discriminate|apply Qle_refl].
Qed.
