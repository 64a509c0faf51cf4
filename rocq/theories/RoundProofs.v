From Coq Require Import ZArith QArith Bool Lia.
From Verif Require Import Dec Round.
Local Open Scope Z_scope.

Lemma p10_pos x : 0 < p10 x.
Proof. unfold p10. apply Z.pow_pos_nonneg; lia. Qed.
Lemma p10_nn x : 0 <= x -> p10 x = 10 ^ x.
Proof. intro. unfold p10. rewrite Z.max_l by lia. reflexivity. Qed.
Lemma p10_neg x : x <= 0 -> p10 x = 1.
Proof. intro. unfold p10. rewrite Z.max_r by lia. reflexivity. Qed.
Lemma p10_succ x : p10 (x + 1) * p10 (- x) = 10 * (p10 x * p10 (- (x + 1))).
Proof.
  destruct (Z_le_gt_dec 0 x).
  - rewrite (p10_nn (x + 1)), (p10_neg (- x)), (p10_nn x), (p10_neg (- (x + 1))) by lia. rewrite Z.pow_add_r by lia. lia.
  - rewrite (p10_neg (x + 1)), (p10_nn (- x)), (p10_neg x), (p10_nn (- (x + 1))) by lia.
    replace (- x) with (- (x + 1) + 1) by lia. rewrite Z.pow_add_r by lia. lia.
Qed.
(** ratio of powers *)
Lemma p10_diff a b : 0 <= a -> 0 <= b -> 10 ^ a * p10 (b - a) = 10 ^ b * p10 (a - b).
Proof.
  intros A B. destruct (Z_le_gt_dec a b).
  - rewrite (p10_nn (b - a)), (p10_neg (a - b)) by lia. rewrite <- Z.pow_add_r by lia. replace (a + (b - a)) with b by lia. lia.
  - rewrite (p10_neg (b - a)), (p10_nn (a - b)) by lia. rewrite <- Z.pow_add_r by lia. replace (b + (a - b)) with a by lia. lia.
Qed.

Lemma ndig_fuel_spec f : forall z, 0 < z -> z < 2 ^ Z.of_nat f -> 1 <= ndig_fuel f z /\ 10 ^ (ndig_fuel f z - 1) <= z < 10 ^ ndig_fuel f z.
Proof.
  induction f as [|f IH]; intros z P L.
  - simpl in L. lia.
  - cbn [ndig_fuel]. destruct (z <=? 0) eqn:E; [apply Z.leb_le in E; lia|].
    destruct (Z_lt_ge_dec z 10) as [S|S].
    + rewrite Z.div_small by lia. assert (H : ndig_fuel f 0 = 0) by (destruct f; reflexivity). rewrite H. simpl. lia.
    + assert (Q : 0 < z / 10) by (apply Z.div_str_pos; lia).
      assert (L' : z / 10 < 2 ^ Z.of_nat f).
      { apply Z.div_lt_upper_bound; [lia|]. rewrite Nat2Z.inj_succ, Z.pow_succ_r in L by lia. lia. }
      destruct (IH _ Q L') as (A & B & C). set (k := ndig_fuel f (z / 10)) in *.
      split; [lia|]. replace (1 + k - 1) with (k - 1 + 1) by lia. rewrite Z.pow_add_r, (Z.add_comm 1 k), Z.pow_add_r by lia.
      pose proof (Z.div_mod z 10 ltac:(lia)) as M. pose proof (Z.mod_pos_bound z 10 ltac:(lia)).
      change (10 ^ 1) with 10. split; lia.
Qed.
Lemma ndig_spec z : 0 < z -> 1 <= ndig z /\ 10 ^ (ndig z - 1) <= z < 10 ^ ndig z.
Proof.
  intro P. apply ndig_fuel_spec; [exact P|].
  pose proof (Z.log2_spec z P) as [_ U]. pose proof (Z.log2_nonneg z).
  rewrite Nat2Z.inj_succ, Z2Nat.id by lia. exact U.
Qed.

(** 10^x <= n/d < 10^(x+1) *)
Definition leads (n d x : Z) : Prop := d * p10 x <= n * p10 (- x) /\ n * p10 (- (x + 1)) < d * p10 (x + 1).

Lemma lead_spec n d : 0 < n -> 0 < d -> leads n d (lead n d).
Proof.
  intros N D. destruct (ndig_spec n N) as (n1 & nl & nu). destruct (ndig_spec d D) as (d1 & dl & du).
  unfold lead. set (a := ndig n) in *. set (b := ndig d) in *.
  assert (LO : d * p10 (a - b - 1) <= n * p10 (- (a - b - 1))).
  { pose proof (p10_diff b (a - 1) ltac:(lia) ltac:(lia)) as E. replace (a - 1 - b) with (a - b - 1) in E by lia.
    replace (b - (a - 1)) with (- (a - b - 1)) in E by lia. pose proof (p10_pos (a - b - 1)). pose proof (p10_pos (- (a - b - 1))). nia. }
  assert (UP : n * p10 (- (a - b + 1)) < d * p10 (a - b + 1)).
  { pose proof (p10_diff (b - 1) a ltac:(lia) ltac:(lia)) as E. replace (a - (b - 1)) with (a - b + 1) in E by lia.
    replace (b - 1 - a) with (- (a - b + 1)) in E by lia. pose proof (p10_pos (a - b + 1)). pose proof (p10_pos (- (a - b + 1))). nia. }
  destruct (d * p10 (a - b) <=? n * p10 (- (a - b))) eqn:T.
  - apply Z.leb_le in T. split; assumption.
  - apply Z.leb_gt in T. split; [exact LO|]. replace (a - b - 1 + 1) with (a - b) by lia. exact T.
Qed.

Lemma round_even_near n d : 0 <= n -> 0 < d -> 2 * Z.abs (round_even n d * d - n) <= d.
Proof.
  intros N D. unfold round_even. pose proof (Z.div_mod n d ltac:(lia)) as M. pose proof (Z.mod_pos_bound n d D) as B.
  destruct (Z.compare_spec (2 * (n mod d)) d); [destruct (Z.even (n / d))|..]; lia.
Qed.
Lemma round_even_exact n d m : 0 < d -> n = m * d -> round_even n d = m.
Proof.
  intros D ->. unfold round_even. rewrite Z.mod_mul, Z.div_mul by lia. simpl. destruct d; try lia; reflexivity.
Qed.

(** the value of a decimal with negative exponent *)
Lemma dval_neg c k : 0 <= k -> (dval (mkDec c (- k)) == inject_Z c / inject_Z (10 ^ k))%Q.
Proof.
  intro K. unfold dval. cbn [dexp dcoef]. pose proof (Z.pow_pos_nonneg 10 k ltac:(lia) K) as P.
  destruct (0 <=? - k) eqn:E.
  - apply Z.leb_le in E. assert (k = 0) by lia. subst k. change (- 0) with 0. change (10 ^ 0) with 1.
    unfold Qeq, Qdiv, Qinv, inject_Z, Qmult. cbn. lia.
  - rewrite Z.opp_involutive. destruct (10 ^ k) as [|p|p] eqn:Q; try lia. cbn [Z.to_pos].
    unfold Qeq, Qdiv, Qinv, inject_Z, Qmult. cbn. lia.
Qed.

(** floor of s times the rounded quotient *)
Lemma div28_floor n d s m :
  0 <= n -> 0 < d -> (s = 1 \/ s = 100) -> s * n < 2 * 10 ^ 27 -> m = s * n / d ->
  (inject_Z m <= inject_Z s * dval (div28 n d))%Q /\ (inject_Z s * dval (div28 n d) < inject_Z (m + 1))%Q.
Proof.
  intros N D S B M. unfold div28. destruct (n =? 0) eqn:Z0.
  - apply Z.eqb_eq in Z0. subst n. rewrite Z.mul_0_r, Z.div_0_l in M by lia. subst m. unfold dval. simpl.
    split; unfold Qle, Qlt; simpl; lia.
  - apply Z.eqb_neq in Z0. assert (NP : 0 < n) by lia. pose proof (lead_spec n d NP D) as [LO UP].
    set (x := lead n d) in *. set (k := 27 - x).
    assert (X25 : x <= 27).
    { destruct (Z_le_gt_dec x 27); [assumption|]. exfalso. rewrite (p10_nn x), (p10_neg (- x)) in LO by lia.
      assert (10 ^ 28 <= 10 ^ x) by (apply Z.pow_le_mono_r; lia). nia. }
    assert (K2 : s = 100 -> 2 <= k).
    { intros ->. destruct (Z_le_gt_dec x 25); [subst k; lia|]. exfalso. rewrite (p10_nn x), (p10_neg (- x)) in LO by lia.
      assert (10 ^ 26 <= 10 ^ x) by (apply Z.pow_le_mono_r; lia). nia. }
    assert (K0 : 0 <= k) by (subst k; lia).
    rewrite (p10_nn k), (p10_neg (- k)), Z.mul_1_r by lia.
    set (P := 10 ^ k). assert (PP : 0 < P) by (apply Z.pow_pos_nonneg; lia).
    set (c := round_even (n * P) d). rewrite dval_neg by lia. fold P.
    pose proof (round_even_near (n * P) d ltac:(nia) D) as R. fold c in R.
    (* 10^27 * d <= n * P *)
    assert (SIG : 10 ^ 27 * d <= n * P).
    { subst P k. destruct (Z_le_gt_dec 0 x).
      - rewrite (p10_nn x), (p10_neg (- x)) in LO by lia.
        replace (10 ^ 27) with (10 ^ (27 - x) * 10 ^ x) by (rewrite <- Z.pow_add_r by lia; f_equal; lia). nia.
      - rewrite (p10_neg x), (p10_nn (- x)) in LO by lia.
        replace (27 - x) with (27 + - x) by lia. rewrite Z.pow_add_r by lia. nia. }
    pose proof (Z.div_mod (s * n) d ltac:(lia)) as DM. rewrite <- M in DM. pose proof (Z.mod_pos_bound (s * n) d D) as MB.
    assert (S0 : 0 < s) by (destruct S; lia).
    (* m * P <= s * c < (m+1) * P *)
    assert (LE : m * P <= s * c).
    { destruct (Z.eq_dec ((s * n) mod d) 0) as [E|E].
      - (* exact *) rewrite E in DM.
        assert (c * s = m * P).
        { destruct S as [-> | ->].
          - rewrite Z.mul_1_l in DM. assert (c = m * P); [|lia]. unfold c. apply round_even_exact; [exact D|]. nia.
          - assert (P = 100 * 10 ^ (k - 2)).
            { unfold P. replace k with (2 + (k - 2)) at 1 by lia. rewrite Z.pow_add_r by (specialize (K2 eq_refl); lia). reflexivity. }
            assert (c = m * 10 ^ (k - 2)); [|nia]. unfold c. apply round_even_exact; [exact D|]. nia. }
        lia.
      - (* s*n >= m*d + 1 : s*n*P >= m*d*P + P, error s*d/2 *)
        assert (G : m * d * P + P <= s * n * P) by nia.
        assert (EB : 2 * (s * n * P - s * (c * d)) <= s * d) by nia.
        assert (SM : s * d < 2 * P).
        { assert (10 ^ 27 * (s * d) <= (s * n) * P) by nia. nia. }
        nia. }
    assert (LT : s * c < (m + 1) * P).
    { assert (G : s * n * P + P <= (m + 1) * d * P) by nia.
      assert (EB : 2 * (s * (c * d) - s * n * P) <= s * d) by nia.
      assert (SM : s * d < 2 * P).
      { assert (10 ^ 27 * (s * d) <= (s * n) * P) by nia. nia. }
      nia. }
    assert (EQ : (inject_Z s * (inject_Z c / inject_Z P) == inject_Z (s * c) / inject_Z P)%Q).
    { rewrite inject_Z_mult. field. intro H. unfold Qeq in H. simpl in H. lia. }
    rewrite EQ. assert (QP : (0 < inject_Z P)%Q) by (unfold Qlt; simpl; lia). split.
    + apply Qle_shift_div_l; [exact QP|]. rewrite <- inject_Z_mult, <- Zle_Qle. exact LE.
    + apply Qlt_shift_div_r; [exact QP|]. rewrite <- inject_Z_mult, <- Zlt_Qlt. exact LT.
Qed.
