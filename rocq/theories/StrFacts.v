(** Facts about strings: the order, decimal rendering and parsing. *)
From Coq Require Import List Bool ZArith NArith String Ascii Lia.
From Verif Require Import Prelude Dec Paths.
Import ListNotations.

Lemma str_compare_refl s : String.compare s s = Eq.
Proof.
  induction s as [|c s IH]; simpl; [reflexivity|].
  assert (Ascii.compare c c = Eq) as -> by apply N.compare_refl. exact IH.
Qed.

Lemma ascii_compare_eq a b : Ascii.compare a b = Eq -> a = b.
Proof.
  intro H. apply N.compare_eq in H.
  rewrite <- (ascii_N_embedding a), <- (ascii_N_embedding b), H. reflexivity.
Qed.

Lemma str_compare_eq s t : String.compare s t = Eq <-> s = t.
Proof. split; [apply String.compare_eq_iff | intros ->; apply str_compare_refl]. Qed.

Lemma str_lt_trans a : forall b c, String.compare a b = Lt -> String.compare b c = Lt -> String.compare a c = Lt.
Proof.
  induction a as [|x a IH]; intros [|y b] [|z c]; simpl; try discriminate; try reflexivity.
  destruct (Ascii.compare x y) eqn:E1; try discriminate;
  destruct (Ascii.compare y z) eqn:E2; try discriminate; intros H1 H2.
  - apply ascii_compare_eq in E1, E2. subst.
    assert (Ascii.compare z z = Eq) as -> by apply N.compare_refl. eauto.
  - apply ascii_compare_eq in E1. subst. rewrite E2. reflexivity.
  - apply ascii_compare_eq in E2. subst. rewrite E1. reflexivity.
  - assert (Ascii.compare x z = Lt) as ->; [|reflexivity].
    unfold Ascii.compare in *. rewrite N.compare_lt_iff in *. lia.
Qed.

Lemma str_compare_lt_gt a b : String.compare a b = Lt <-> String.compare b a = Gt.
Proof. rewrite (String.compare_antisym a b). destruct (String.compare b a); simpl; split; congruence. Qed.

(** ** decimal text *)
Lemma digit_val_ascii d : (0 <= d < 10)%Z -> digit_val (digit_ascii d) = Some d.
Proof.
  intro H. assert (E : exists n, (n < 10)%nat /\ d = Z.of_nat n) by (exists (Z.to_nat d); lia).
  destruct E as (n & L & ->). clear H.
  do 10 (destruct n as [|n]; [reflexivity|]). lia.
Qed.

Lemma zdigits_val f : forall z acc, (0 <= z)%Z -> (z < 10 ^ Z.of_nat f)%Z ->
  digits_val (zdigits f z acc) 0 = digits_val acc z.
Proof.
  induction f as [|f IH]; intros z acc Z0 ZL.
  - simpl in ZL. assert (z = 0)%Z by lia. subst. reflexivity.
  - cbn [zdigits]. assert (M : (0 <= z mod 10 < 10)%Z) by (apply Z.mod_pos_bound; lia).
    destruct (Z.ltb_spec z 10).
    + cbn [digits_val]. rewrite digit_val_ascii by exact M. rewrite Z.mod_small by lia. reflexivity.
    + rewrite IH.
      * cbn [digits_val]. rewrite digit_val_ascii by exact M. f_equal.
        rewrite (Z.div_mod z 10) at 3 by lia. reflexivity.
      * apply Z.div_pos; lia.
      * apply Z.div_lt_upper_bound; [lia|]. rewrite Nat2Z.inj_succ, Z.pow_succ_r in ZL by lia. lia.
Qed.

Lemma zdigits_nonempty f z acc : acc <> EmptyString \/ f <> O -> zdigits f z acc <> EmptyString.
Proof.
  revert z acc. induction f as [|f IH]; intros z acc H; cbn [zdigits].
  - tauto.
  - destruct (z <? 10)%Z; [discriminate|]. apply IH. left. discriminate.
Qed.

Lemma digits_py_int s z : digits_val s 0 = Some z -> s <> EmptyString -> py_int s = Ok z.
Proof.
  intros H N. destruct s as [|c s]; [congruence|]. unfold py_int.
  destruct (Ascii.eqb_spec c "-"%char) as [->|_]; [discriminate H|]. now rewrite H.
Qed.

Lemma str_of_Z_digits z : (0 <= z)%Z -> digits_val (str_of_Z z) 0 = Some z /\ str_of_Z z <> EmptyString.
Proof.
  intro H. unfold str_of_Z. destruct (Z.ltb_spec z 0); [lia|]. split.
  - rewrite zdigits_val; [reflexivity|exact H|].
    destruct (Z.eq_dec z 0) as [->|N]; [reflexivity|].
    assert (L : (z < 2 ^ Z.succ (Z.log2 z))%Z) by (apply Z.log2_spec; lia).
    pose proof (Z.log2_nonneg z).
    eapply Z.lt_le_trans; [exact L|]. rewrite Nat2Z.inj_succ, Z2Nat.id by lia.
    apply Z.pow_le_mono_l. lia.
  - apply zdigits_nonempty. right. discriminate.
Qed.

Lemma py_int_str z : (0 <= z)%Z -> py_int (str_of_Z z) = Ok z.
Proof. intro H. destruct (str_of_Z_digits z H). apply digits_py_int; auto. Qed.

Lemma drop_last_app s c : drop_last (s ++ String c EmptyString) = s.
Proof.
  induction s as [|d s IH]; simpl; [reflexivity|].
  destruct (s ++ String c "")%string eqn:E; [destruct s; discriminate|]. now rewrite IH.
Qed.
