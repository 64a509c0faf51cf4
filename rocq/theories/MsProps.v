(** Quotients of decimals, averages and durations. *)
From Coq Require Import List ZArith QArith Qround Qabs Bool String Lia.
From Verif Require Import Prelude Dec Course Transcript Round RoundProofs Ms.
Import ListNotations.
Local Open Scope Z_scope.

Lemma floor_unique q a : (inject_Z a <= q)%Q -> (q < inject_Z (a + 1))%Q -> Qfloor q = a.
Proof.
  intros L U. pose proof (Qfloor_le q) as FL. pose proof (Qlt_floor q) as FU.
  assert (a < Qfloor q + 1) by (rewrite Zlt_Qlt; eapply Qle_lt_trans; eauto).
  assert (Qfloor q < a + 1) by (rewrite Zlt_Qlt; eapply Qle_lt_trans; eauto). lia.
Qed.
Lemma floor_frac n d : 0 < d -> Qfloor (inject_Z n / inject_Z d) = n / d.
Proof.
  intro D. pose proof (Z.div_mod n d ltac:(lia)) as M. pose proof (Z.mod_pos_bound n d D) as B.
  assert (QD : (0 < inject_Z d)%Q) by (unfold Qlt; simpl; lia).
  apply floor_unique; [apply Qle_shift_div_l|apply Qlt_shift_div_r]; try exact QD; rewrite <- inject_Z_mult.
  - rewrite <- Zle_Qle. lia.
  - rewrite <- Zlt_Qlt. lia.
Qed.
Lemma floor_div28 n d : 0 <= n -> 0 < d -> n < 2 * 10 ^ 27 -> Qfloor (dval (div28 n d)) = n / d.
Proof.
  intros N D B. destruct (div28_floor n d 1 (n / d) N D (or_introl eq_refl) ltac:(lia) ltac:(rewrite Z.mul_1_l; reflexivity)) as [L U].
  rewrite Qmult_1_l in L, U. apply floor_unique; assumption.
Qed.
Lemma floor_qmod q m : 0 < m -> Qfloor (qmod q m) = Qfloor q mod m.
Proof.
  intro M. unfold qmod. set (a := Qfloor q).
  assert (QM : (0 < inject_Z m)%Q) by (unfold Qlt; simpl; lia).
  pose proof (Qfloor_le q) as FL. pose proof (Qlt_floor q) as FU. fold a in FL, FU.
  pose proof (Z.div_mod a m ltac:(lia)) as DM. pose proof (Z.mod_pos_bound a m M) as B.
  assert (F : Qfloor (q / inject_Z m) = a / m).
  { apply floor_unique.
    - apply Qle_shift_div_l; [exact QM|]. rewrite <- inject_Z_mult. eapply Qle_trans; [|exact FL]. rewrite <- Zle_Qle. lia.
    - apply Qlt_shift_div_r; [exact QM|]. rewrite <- inject_Z_mult. eapply Qlt_le_trans; [exact FU|]. rewrite <- Zle_Qle. lia. }
  rewrite F. apply floor_unique.
  - assert (E : (inject_Z (a mod m) == inject_Z a - inject_Z (m * (a / m)))%Q).
    { unfold Qminus. rewrite <- inject_Z_opp, <- inject_Z_plus. replace (a + - (m * (a / m))) with (a mod m) by lia. reflexivity. }
    rewrite E. apply Qplus_le_compat; [exact FL|apply Qle_refl].
  - assert (E : (inject_Z (a mod m + 1) == inject_Z (a + 1) - inject_Z (m * (a / m)))%Q).
    { unfold Qminus. rewrite <- inject_Z_opp, <- inject_Z_plus. replace (a + 1 + - (m * (a / m))) with (a mod m + 1) by lia. reflexivity. }
    rewrite E. unfold Qminus. apply Qplus_lt_le_compat; [exact FU|apply Qle_refl].
Qed.

(** ** C109: quotients *)
(** 28 significant digits, and the nearest such number *)
Lemma shifted n d x : 0 < n -> 0 < d -> leads n d x ->
  10 ^ 27 * (d * p10 (- (27 - x))) <= n * p10 (27 - x) < 10 ^ 28 * (d * p10 (- (27 - x))).
Proof.
  intros N D [LO UP]. destruct (Z_le_gt_dec x 27) as [L|G].
  - rewrite (p10_neg (- (27 - x))), (p10_nn (27 - x)), Z.mul_1_r by lia. destruct (Z_le_gt_dec 0 x) as [P|P].
    + rewrite (p10_nn x), (p10_neg (- x)) in LO by lia. rewrite (p10_nn (x + 1)), (p10_neg (- (x + 1))) in UP by lia.
      assert (E1 : 10 ^ 27 = 10 ^ (27 - x) * 10 ^ x) by (rewrite <- Z.pow_add_r by lia; f_equal; lia).
      assert (E2 : 10 ^ 28 = 10 ^ (27 - x) * 10 ^ (x + 1)) by (rewrite <- Z.pow_add_r by lia; f_equal; lia).
      rewrite E1, E2. assert (0 < 10 ^ (27 - x)) by (apply Z.pow_pos_nonneg; lia). nia.
    + rewrite (p10_neg x), (p10_nn (- x)) in LO by lia. rewrite (p10_neg (x + 1)), (p10_nn (- (x + 1))) in UP by lia.
      assert (E1 : 10 ^ (27 - x) = 10 ^ 27 * 10 ^ (- x)) by (rewrite <- Z.pow_add_r by lia; f_equal; lia).
      assert (E2 : 10 ^ (27 - x) = 10 ^ 28 * 10 ^ (- (x + 1))) by (rewrite <- Z.pow_add_r by lia; f_equal; lia).
      split; [rewrite E1|rewrite E2]; nia.
  - rewrite (p10_nn (- (27 - x))), (p10_neg (27 - x)), Z.mul_1_r by lia.
    rewrite (p10_nn x), (p10_neg (- x)) in LO by lia. rewrite (p10_nn (x + 1)), (p10_neg (- (x + 1))) in UP by lia.
    assert (E1 : 10 ^ x = 10 ^ 27 * 10 ^ (- (27 - x))) by (rewrite <- Z.pow_add_r by lia; f_equal; lia).
    assert (E2 : 10 ^ (x + 1) = 10 ^ 28 * 10 ^ (- (27 - x))) by (rewrite <- Z.pow_add_r by lia; f_equal; lia).
    nia.
Qed.
Lemma dval_p10 c k : (dval (mkDec c (- k)) == inject_Z (c * p10 (- k)) / inject_Z (p10 k))%Q.
Proof.
  destruct (Z_le_gt_dec 0 k).
  - rewrite dval_neg, (p10_nn k), (p10_neg (- k)), Z.mul_1_r by lia. reflexivity.
  - rewrite (p10_nn (- k)), (p10_neg k) by lia. unfold dval. cbn [dexp dcoef].
    destruct (0 <=? - k) eqn:E; [|apply Z.leb_gt in E; lia]. field.
Qed.

Theorem quotients_are_rounded_to_28_digits :
  forall n d, 0 < n -> 0 < d ->
  10 ^ 27 <= dcoef (div28 n d) <= 10 ^ 28 /\
  forall c, (Qabs (dval (div28 n d) - inject_Z n / inject_Z d) <=
             Qabs (dval (mkDec c (dexp (div28 n d))) - inject_Z n / inject_Z d))%Q.
Proof.
  intros n d N D. unfold div28. destruct (n =? 0) eqn:E0; [apply Z.eqb_eq in E0; lia|]. cbn [dcoef dexp].
  pose proof (shifted n d _ N D (lead_spec n d N D)) as [LO UP]. set (k := 27 - lead n d) in *.
  set (P := p10 k) in *. set (E := p10 (- k)) in *. pose proof (p10_pos k) as PP. pose proof (p10_pos (- k)) as PE. fold P in PP. fold E in PE.
  pose proof (round_even_near (n * P) (d * E) ltac:(nia) ltac:(nia)) as R. set (c0 := round_even (n * P) (d * E)) in *.
  assert (DE : 0 < d * E) by nia.
  split; [nia|]. intro c. rewrite !dval_p10. fold P E.
  assert (DIFF : forall z, (inject_Z (z * E) / inject_Z P - inject_Z n / inject_Z d == inject_Z (z * (d * E) - n * P) / inject_Z (P * d))%Q).
  { intro z. unfold Z.sub. rewrite !inject_Z_plus, !inject_Z_opp, !inject_Z_mult. field. split; intro H; unfold Qeq in H; simpl in H; lia. }
  rewrite !DIFF. unfold Qdiv. rewrite !Qabs_Qmult.
  apply Qmult_le_compat_r; [|apply Qabs_nonneg].
  unfold Qabs, inject_Z, Qle. cbn [Qnum Qden]. rewrite !Z.mul_1_r.
  destruct (Z.eq_dec c c0) as [->|NE]; [lia|].
  assert (d * E <= Z.abs (c * (d * E) - c0 * (d * E))). { rewrite <- Z.mul_sub_distr_r, Z.abs_mul. rewrite (Z.abs_eq (d * E)) by lia. assert (1 <= Z.abs (c - c0)) by lia. nia. }
  lia.
Qed.
Print Assumptions quotients_are_rounded_to_28_digits.

Theorem small_quotients_keep_their_hundredths :
  forall n d, 0 <= n -> 0 < d -> 100 * n < 2 * 10 ^ 27 ->
  trunc2 (dval (div28 n d)) = 100 * n / d.
Proof.
  intros n d N D B. destruct (div28_floor n d 100 (100 * n / d) N D (or_intror eq_refl) B eq_refl) as [L U].
  set (v := dval (div28 n d)) in *. set (m := 100 * n / d) in *.
  assert (M0 : 0 <= m) by (apply Z.div_pos; lia).
  unfold trunc2. destruct v as [a b]. cbn [Qnum Qden] in *. unfold Qle, Qlt, Qmult, inject_Z in L, U. cbn [Qnum Qden] in L, U. rewrite ?Pos.mul_1_l, ?Z.mul_1_r in L, U.
  assert (0 <= a) by nia. rewrite Z.quot_div_nonneg by lia. symmetry. apply Z.div_unique with (r := a * 100 - m * Zpos b); lia.
Qed.
Print Assumptions small_quotients_keep_their_hundredths.

(** dp/lib.py:13-27 with the division of the default context *)
Definition python_gpa (cs : list course) : dec :=
  let gp := Qsum (map (fun c => dval (c_gpa_points c)) (gpa_items cs)) in
  let cr := Qsum (map (fun c => dval (c_credits c)) (gpa_items cs)) in
  if Qeqb cr 0 then hundredths 0
  else let q := Qred (gp / cr) in hundredths (trunc2 (dval (div28 (Qnum q) (Zpos (Qden q))))).

(** The rounding of python's division never shows in an average. *)
Theorem rounding_does_not_change_averages :
  forall cs,
  let q := Qred (Qsum (map (fun c => dval (c_gpa_points c)) (gpa_items cs)) / Qsum (map (fun c => dval (c_credits c)) (gpa_items cs))) in
  0 <= Qnum q -> 100 * Qnum q < 2 * 10 ^ 27 -> python_gpa cs = grade_point_average cs.
Proof.
  intros cs q N B. unfold python_gpa, grade_point_average. destruct (Qeqb _ 0); [reflexivity|].
  fold q. f_equal. rewrite small_quotients_keep_their_hundredths by (try exact N; try exact B; lia).
  unfold trunc2. rewrite Z.quot_div_nonneg by lia. rewrite Z.mul_comm. reflexivity.
Qed.
Print Assumptions rounding_does_not_change_averages.

(** beyond that it can: 8.005 less a tiny bit *)
Theorem rounding_can_change_hundredths_refuted :
  exists n d, 0 < n /\ 0 < d /\ trunc2 (dval (div28 n d)) <> 100 * n / d.
Proof. exists (4 * 10 ^ 30 - 1), (10 ^ 30). repeat split; vm_compute; discriminate. Qed.
Print Assumptions rounding_can_change_hundredths_refuted.

(** ** C59 *)
(** clock readings of a duration of n/d milliseconds *)
Definition reads (n d : Z) (m : msec) : Prop :=
  0 <= days m /\ 0 <= hours m < 24 /\ 0 <= minutes m < 60 /\ 0 <= seconds m < 60 /\
  0 <= millis m < 1000 /\ 0 <= micros m < 1000 /\ 0 <= nanos m < 1000 /\
  (((((days m * 24 + hours m) * 60 + minutes m) * 60 + seconds m) * 1000 + millis m) * 1000 + micros m) * 1000 + nanos m
  = 1000000 * n / d.

Lemma reads_unique n d a b : reads n d a -> reads n d b -> a = b.
Proof. intros A B. destruct a as [a1 a2 a3 a4 a5 a6 a7], b as [b1 b2 b3 b4 b5 b6 b7]. unfold reads in *. cbn [days hours minutes seconds millis micros nanos] in *. f_equal; lia. Qed.

Lemma div_step n a b : 0 < a -> 0 < b -> n / a = n / (a * b) * b + (n / a) mod b.
Proof. intros A B. rewrite <- Z.div_div by lia. pose proof (Z.div_mod (n / a) b ltac:(lia)). lia. Qed.

Theorem durations_decompose :
  forall n d, 0 <= n -> 0 < d -> n < 2 * 10 ^ 27 ->
  reads n d (parse_ms n d) /\ (forall m, reads n d m -> m = parse_ms n d) /\
  ms_total (parse_ms n d) = n / d.
Proof.
  intros n d N D B.
  assert (R : reads n d (parse_ms n d) /\ ms_total (parse_ms n d) = n / d).
  { unfold reads, ms_total, parse_ms, to_zero. cbn [days hours minutes seconds millis micros nanos].
    unfold one_day, one_hour, one_minute, one_second.
    rewrite !floor_qmod by lia. rewrite !floor_div28 by lia.
    assert (E0 : forall z, Qfloor (inject_Z n / inject_Z d * inject_Z z) = z * n / d).
    { intro z. assert (Q : (inject_Z n / inject_Z d * inject_Z z == inject_Z (z * n) / inject_Z d)%Q).
      { rewrite inject_Z_mult. field. intro H. unfold Qeq in H. simpl in H. lia. }
      rewrite (Qfloor_comp _ _ Q). apply floor_frac, D. }
    rewrite !E0, floor_frac by exact D.
    set (t := 1000000 * n / d).
    assert (EU : 1000 * n / d = t / 1000). { unfold t. rewrite Z.div_div by lia. replace (1000000 * n) with (1000 * n * 1000) by lia. rewrite Z.div_mul_cancel_r by lia. reflexivity. }
    assert (EM : n / d = t / 1000 / 1000). { unfold t. rewrite !Z.div_div by lia. replace (1000000 * n) with (n * 1000000) by lia. replace (d * (1000 * 1000)) with (d * 1000000) by lia. rewrite Z.div_mul_cancel_r by lia. reflexivity. }
    assert (ES : n / (d * 1000) = n / d / 1000) by (rewrite Z.div_div by lia; reflexivity).
    assert (EMi : n / (d * 60000) = n / d / 1000 / 60) by (rewrite !Z.div_div by lia; f_equal; lia).
    assert (EH : n / (d * 3600000) = n / d / 1000 / 60 / 60) by (rewrite !Z.div_div by lia; f_equal; lia).
    assert (ED : n / (d * 86400000) = n / d / 1000 / 60 / 60 / 24) by (rewrite !Z.div_div by lia; f_equal; lia).
    rewrite ES, EMi, EH, ED, EM, EU. assert (0 <= t) by (apply Z.div_pos; lia). clearbody t. clear - H.
    pose proof (Z.div_mod t 1000 ltac:(lia)). pose proof (Z.mod_pos_bound t 1000 ltac:(lia)). set (t1 := t / 1000) in *. clearbody t1.
    pose proof (Z.div_mod t1 1000 ltac:(lia)). pose proof (Z.mod_pos_bound t1 1000 ltac:(lia)). set (t2 := t1 / 1000) in *. clearbody t2.
    pose proof (Z.div_mod t2 1000 ltac:(lia)). pose proof (Z.mod_pos_bound t2 1000 ltac:(lia)). set (t3 := t2 / 1000) in *. clearbody t3.
    pose proof (Z.div_mod t3 60 ltac:(lia)). pose proof (Z.mod_pos_bound t3 60 ltac:(lia)). set (t4 := t3 / 60) in *. clearbody t4.
    pose proof (Z.div_mod t4 60 ltac:(lia)). pose proof (Z.mod_pos_bound t4 60 ltac:(lia)). set (t5 := t4 / 60) in *. clearbody t5.
    pose proof (Z.div_mod t5 24 ltac:(lia)). pose proof (Z.mod_pos_bound t5 24 ltac:(lia)). set (t6 := t5 / 24) in *. clearbody t6.
    lia. }
  destruct R as [R T]. split; [exact R|]. split; [|exact T]. intros m M. exact (reads_unique n d m _ M R).
Qed.
Print Assumptions durations_decompose.

(** durations of more digits than decimals have are not *)
Theorem all_durations_decompose_refuted :
  exists n, 0 <= n /\ ms_total (parse_ms n 1) <> n.
Proof. exists (86400000 * 10 ^ 21 - 1). split; vm_compute; discriminate. Qed.
Print Assumptions all_durations_decompose_refuted.

Example durations_example :
  parse_ms 93784005678 1000 = mkMs 1 2 3 4 5 678 0 /\ reads 93784005678 1000 (mkMs 1 2 3 4 5 678 0).
Proof. split; [vm_compute; reflexivity|]. unfold reads. cbn [days hours minutes seconds millis micros nanos]. vm_compute. intuition congruence. Qed.

(** ** C110: durations in words *)
Local Open Scope string_scope.
(** the units and what they are worth in nanoseconds *)
Definition units : list (string * Z) :=
  [("y", 365 * 24 * 3600 * 1000000000); ("d", 24 * 3600 * 1000000000); ("h", 3600 * 1000000000); ("m", 60 * 1000000000);
   ("s", 1000000000); ("ms", 1000000); ("us", 1000); ("ns", 1)].
(** the largest unit first, each count less than one of the unit before *)
Fixpoint counts (us : list (string * Z)) (vs : list Z) (total : Z) : Prop :=
  match us, vs with
  | [], [] => total = 0
  | (_, w) :: us, v :: vs => 0 <= v /\ 0 <= total - v * w < w /\ counts us vs (total - v * w)
  | _, _ => False
  end.
Definition shown (us : list (string * Z)) (vs : list Z) : list string :=
  map (fun x => str_of_Z (snd x) ++ fst (fst x)) (filter (fun x => negb (snd x =? 0)%Z) (combine us vs)).

Lemma counts_unique us : forall vs vs' t, counts us vs t -> counts us vs' t -> vs = vs'.
Proof.
  induction us as [|[u w] us IH]; intros [|v vs] [|v' vs'] t; cbn [counts]; try tauto.
  intros (A & B & C) (A' & B' & C'). assert (v = v') by nia. subst v'. f_equal. eapply IH; eauto.
Qed.

Lemma add_Z_shown st v l s w us vs : verbose st = false ->
  (add_Z st v l s ++ shown us vs)%list = shown ((s, w) :: us) (v :: vs).
Proof.
  intro V. unfold add_Z, add_part, shown. rewrite V. cbn [combine filter snd]. destruct (v =? 0)%Z; cbn [negb app map fst snd]; reflexivity.
Qed.

Theorem durations_in_words :
  forall st n d, sub_ms st = true -> verbose st = false -> compact st = false -> unit_count st = None -> (1 <= sec_digits st)%nat ->
  0 <= n -> 0 < d -> n < 2 * 10 ^ 27 ->
  exists vs, counts units vs (1000000 * n / d) /\
    pretty_ms st n d = match shown units vs with [] => "ms" | l => String.concat " " l end.
Proof.
  intros st n d SUB VB CP UC SD N D B. destruct (durations_decompose n d N D B) as (R & _ & _).
  assert (P : parts st n d =
    (add_Z st (days (parse_ms n d) / 365) "year" "y" ++ add_Z st (days (parse_ms n d) mod 365) "day" "d" ++ add_Z st (hours (parse_ms n d)) "hour" "h" ++
     add_Z st (minutes (parse_ms n d)) "minute" "m" ++ add_Z st (seconds (parse_ms n d)) "second" "s" ++ add_Z st (millis (parse_ms n d)) "millisecond" "ms" ++
     add_Z st (micros (parse_ms n d)) "microsecond" "us" ++ add_Z st (nanos (parse_ms n d)) "nanosecond" "ns")%list).
  { unfold parts. rewrite CP, SUB, orb_true_r. destruct (sec_digits st <? 1)%nat eqn:L; [apply Nat.ltb_lt in L; lia|].
    cbn [andb orb]. reflexivity. }
  unfold pretty_ms. rewrite VB, CP, UC, P. set (p := parse_ms n d) in *. clearbody p.
  exists [days p / 365; days p mod 365; hours p; minutes p; seconds p; millis p; micros p; nanos p]%Z. split.
  - unfold reads in R. destruct R as (R1 & R2 & R3 & R4 & R5 & R6 & R7 & R8).
    pose proof (Z.div_mod (days p) 365 ltac:(lia)) as M. pose proof (Z.mod_pos_bound (days p) 365 ltac:(lia)) as MB.
    pose proof (Z.div_pos (days p) 365 R1 ltac:(lia)) as DP.
    set (y := days p / 365) in *. set (dd := days p mod 365) in *. rewrite <- R8, M. clearbody y dd.
    unfold units. cbn [counts]. lia.
  - assert (E : (add_Z st (days p / 365) "year" "y" ++ add_Z st (days p mod 365) "day" "d" ++ add_Z st (hours p) "hour" "h" ++
     add_Z st (minutes p) "minute" "m" ++ add_Z st (seconds p) "second" "s" ++ add_Z st (millis p) "millisecond" "ms" ++
     add_Z st (micros p) "microsecond" "us" ++ add_Z st (nanos p) "nanosecond" "ns")%list =
     shown units [days p / 365; days p mod 365; hours p; minutes p; seconds p; millis p; micros p; nanos p]%Z).
    { rewrite <- (app_nil_r (add_Z st (nanos p) "nanosecond" "ns")). change (@nil string) with (shown [] []).
      do 8 erewrite (add_Z_shown st) by exact VB. reflexivity. }
    rewrite E. destruct (shown units _) as [|x r]; reflexivity.
Qed.
Print Assumptions durations_in_words.

(** *** All styles *)
(** In whole numbers: a duration is [t] nanoseconds; with no digits for the seconds ([compact], or
    asked for) more than half a second counts as one. *)
Definition shown_digits (st : style) : nat := if compact st then 0 else sec_digits st.
Definition rounded_up (st : style) (n d : Z) : Z :=
  match shown_digits st with
  | O => if (500 * d <? n mod (1000 * d))%Z then (n / (1000 * d) + 1) * (1000 * d) else n
  | S _ => n
  end.
Definition counted (st : style) (v : Z) (long short : string) : list string :=
  match v with
  | 0 => []
  | 1 => ["1" ++ (if verbose st then " " ++ long else short)]
  | _ => [str_of_Z v ++ (if verbose st then " " ++ long ++ "s" else short)]
  end.
(** the multiple [z / u] of a second, where [z] is the nearest whole number of [u]ths *)
Definition nearest (z u : Z) (q : Q) : Prop :=
  let off := (2 * Qabs (inject_Z z - inject_Z u * q))%Q in (off < 1)%Q \/ (off == 1)%Q /\ Z.even z = true.
Definition second_text (st : style) (z : Z) : list string :=
  let u := 10 ^ Z.of_nat (shown_digits st) in
  if (z =? 0)%Z then []
  else [fixed_text z (shown_digits st) ++ (if verbose st then " " ++ (if (z =? u)%Z then "second" else "seconds") else "s")].
Definition framed (st : style) (l : list string) : string :=
  match l, compact st, unit_count st with
  | [], _, _ => if verbose st then "0 milliseconds" else "ms"
  | x :: _, true, _ => "~" ++ x
  | _, false, Some k => "~" ++ String.concat " " (firstn k l)
  | _, false, None => String.concat " " l
  end.
Definition large_units (st : style) (t : Z) : list string :=
  (counted st (t / (365 * 24 * 3600 * 1000000000)) "year" "y" ++ counted st (t / (24 * 3600 * 1000000000) mod 365) "day" "d" ++
   counted st (t / (3600 * 1000000000) mod 24) "hour" "h" ++ counted st (t / (60 * 1000000000) mod 60) "minute" "m")%list.
Definition in_words (st : style) (n0 d : Z) (text : string) : Prop :=
  let n := rounded_up st n0 d in
  let t := 1000000 * n / d in
  if sub_ms st then
    text = framed st (large_units st t ++ counted st (t / 1000000000 mod 60) "second" "s" ++ counted st (t / 1000000 mod 1000) "millisecond" "ms" ++
                      counted st (t / 1000 mod 1000) "microsecond" "us" ++ counted st (t mod 1000) "nanosecond" "ns")
  else if separate_ms st || (n <? 1000 * d)%Z then
    (* the rest is rounded up to milliseconds, a thousand of them at most *)
    text = framed st (large_units st t ++ counted st (t / 1000000000 mod 60) "second" "s" ++
                      counted st ((t mod 1000000000 + 999999) / 1000000) "millisecond" "ms")
  else
    exists z, nearest z (10 ^ Z.of_nat (shown_digits st)) (inject_Z (n mod (60000 * d)) / inject_Z (1000 * d)) /\
      text = framed st (large_units st t ++ second_text st z).

Lemma counted_add st v l s : add_Z st v l s = counted st v l s.
Proof.
  unfold add_Z, add_part, counted. destruct v as [|[p|p|]|p]; cbn [Z.eqb Pos.eqb]; try reflexivity.
Qed.
Lemma framed_pretty st l : parts st = l -> forall n d, pretty_ms st n d = framed st (l n d).
Proof.
  intros <- n d. unfold pretty_ms, framed. destruct (parts st n d) as [|x r]; [reflexivity|]. destruct (compact st); [reflexivity|]. destruct (unit_count st); reflexivity.
Qed.
Lemma reads_counts t n d p : reads n d p -> t = 1000000 * n / d ->
  days p / 365 = t / (365 * 24 * 3600 * 1000000000) /\ days p mod 365 = t / (24 * 3600 * 1000000000) mod 365 /\
  hours p = t / (3600 * 1000000000) mod 24 /\ minutes p = t / (60 * 1000000000) mod 60 /\ seconds p = t / 1000000000 mod 60 /\
  millis p = t / 1000000 mod 1000 /\ micros p = t / 1000 mod 1000 /\ nanos p = t mod 1000.
Proof.
  unfold reads. intros (R1 & R2 & R3 & R4 & R5 & R6 & R7 & R8) ->. rewrite <- R8. clear R8.
  destruct p as [a b c e f g h]. cbn [days hours minutes seconds millis micros nanos] in *.
  assert (E : forall x y w r, 0 <= r < w -> x = y * w + r -> x / w = y) by (intros; symmetry; eapply Z.div_unique; [left; eassumption|lia]).
  assert (F : forall y m k r, 0 <= r < m -> y = k * m + r -> y mod m = r) by (intros y m k r H H0; symmetry; apply Z.mod_unique with (q := k); [left; exact H|rewrite H0; ring]).
  set (x := (((((a * 24 + b) * 60 + c) * 60 + e) * 1000 + f) * 1000 + g) * 1000 + h).
  assert (E1 : x / 1000 = ((((a * 24 + b) * 60 + c) * 60 + e) * 1000 + f) * 1000 + g) by (apply (E _ _ _ h); unfold x; lia).
  assert (E2 : x / 1000000 = (((a * 24 + b) * 60 + c) * 60 + e) * 1000 + f) by (apply (E _ _ _ (g * 1000 + h)); unfold x; lia).
  assert (E3 : x / 1000000000 = ((a * 24 + b) * 60 + c) * 60 + e) by (apply (E _ _ _ ((f * 1000 + g) * 1000 + h)); unfold x; lia).
  assert (E4 : x / (60 * 1000000000) = (a * 24 + b) * 60 + c) by (apply (E _ _ _ (((e * 1000 + f) * 1000 + g) * 1000 + h)); unfold x; lia).
  assert (E5 : x / (3600 * 1000000000) = a * 24 + b) by (apply (E _ _ _ ((((c * 60 + e) * 1000 + f) * 1000 + g) * 1000 + h)); unfold x; lia).
  assert (E6 : x / (24 * 3600 * 1000000000) = a) by (apply (E _ _ _ (((((b * 60 + c) * 60 + e) * 1000 + f) * 1000 + g) * 1000 + h)); unfold x; lia).
  assert (E7 : x / (365 * 24 * 3600 * 1000000000) = a / 365).
  { rewrite <- E6, Z.div_div by lia. f_equal. }
  rewrite E1, E2, E3, E4, E5, E6, E7. split; [reflexivity|]. split; [reflexivity|]. repeat split.
  - symmetry. eapply F; [lia|reflexivity].
  - symmetry. eapply F; [lia|reflexivity].
  - symmetry. eapply F; [lia|reflexivity].
  - symmetry. eapply F; [lia|reflexivity].
  - symmetry. eapply F; [lia|reflexivity].
  - symmetry. eapply F; [lia|reflexivity].
Qed.

Lemma qmod_frac n d m : 0 < d -> 0 < m -> (qmod (inject_Z n / inject_Z d) m == inject_Z (n mod (m * d)) / inject_Z d)%Q.
Proof.
  intros D M. unfold qmod.
  assert (QD : ~ (inject_Z d == 0)%Q) by (intro H; unfold Qeq in H; simpl in H; lia).
  assert (QM : ~ (inject_Z m == 0)%Q) by (intro H; unfold Qeq in H; simpl in H; lia).
  assert (E : (inject_Z n / inject_Z d / inject_Z m == inject_Z n / inject_Z (m * d))%Q) by (rewrite inject_Z_mult; field; split; assumption).
  rewrite (Qfloor_comp _ _ E), floor_frac by nia.
  pose proof (Z.div_mod n (m * d) ltac:(nia)) as DM. set (k := n / (m * d)) in *. set (r := n mod (m * d)) in *. rewrite DM.
  rewrite inject_Z_plus, !inject_Z_mult. field. exact QD.
Qed.
Lemma Qltb_lt a b : Qltb a b = true <-> (a < b)%Q.
Proof. unfold Qltb. rewrite negb_true_iff, <- Bool.not_true_iff_false, Qle_bool_iff. split; [apply Qnot_le_lt|intros H L; exact (Qlt_not_le _ _ H L)]. Qed.
Lemma frac_ltb n d m : 0 < d -> Qltb (inject_Z n / inject_Z d) (inject_Z m) = (n <? m * d)%Z.
Proof.
  intro D. apply Bool.eq_iff_eq_true. rewrite Qltb_lt, Z.ltb_lt, Zlt_Qlt, inject_Z_mult.
  assert (QD : (0 < inject_Z d)%Q) by (unfold Qlt; simpl; lia).
  split; intro H.
  - apply (Qmult_lt_r _ _ (inject_Z d) QD) in H. unfold Qdiv in H. rewrite <- Qmult_assoc, (Qmult_comm (/ _)), Qmult_inv_r, Qmult_1_r in H; [exact H|].
    intro Z0. rewrite Z0 in QD. exact (Qlt_irrefl _ QD).
  - apply Qlt_shift_div_r; assumption.
Qed.
Lemma round_even_nearest n d u q : 0 <= n -> 0 < d -> (inject_Z u * q == inject_Z n / inject_Z d)%Q -> nearest (round_even n d) u q.
Proof.
  intros N D E. unfold nearest. cbv zeta. rewrite E.
  assert (DIFF : forall z, (2 * Qabs (inject_Z z - inject_Z n / inject_Z d) == inject_Z (2 * Z.abs (z * d - n)) / inject_Z d)%Q).
  { intro z. assert (Q : (inject_Z z - inject_Z n / inject_Z d == inject_Z (z * d - n) * / inject_Z d)%Q).
    { unfold Z.sub. rewrite inject_Z_plus, inject_Z_opp, inject_Z_mult. field. intro H. unfold Qeq in H. simpl in H. lia. }
    rewrite Q, Qabs_Qmult. rewrite inject_Z_mult. rewrite (Qabs_pos (/ inject_Z d)) by (apply Qinv_le_0_compat; unfold Qle; simpl; lia).
    unfold Qdiv. rewrite Qmult_assoc. reflexivity. }
  rewrite DIFF. pose proof (Z.div_mod n d ltac:(lia)) as M. pose proof (Z.mod_pos_bound n d D) as B.
  assert (QD : (0 < inject_Z d)%Q) by (unfold Qlt; simpl; lia).
  set (k := n / d) in *. set (r := n mod d) in *.
  assert (C : forall z, (2 * Z.abs (z * d - n) < d -> (inject_Z (2 * Z.abs (z * d - n)) / inject_Z d < 1)%Q) /\ (2 * Z.abs (z * d - n) = d -> (inject_Z (2 * Z.abs (z * d - n)) / inject_Z d == 1)%Q)).
  { intro z. split; intro H.
    - apply Qlt_shift_div_r; [exact QD|]. rewrite Qmult_1_l, <- Zlt_Qlt. exact H.
    - rewrite H. unfold Qdiv. apply Qmult_inv_r. intro Z0. rewrite Z0 in QD. exact (Qlt_irrefl _ QD). }
  assert (RE : round_even n d = match (2 * r ?= d)%Z with Lt => k | Gt => k + 1 | Eq => if Z.even k then k else k + 1 end) by reflexivity.
  rewrite RE. destruct (2 * r ?= d)%Z eqn:CM.
  - apply Z.compare_eq in CM. right. destruct (Z.even k) eqn:EV; split; auto; try (apply C; nia).
    rewrite Z.even_add, EV. reflexivity.
  - change (2 * r < d) in CM. left. apply C. nia.
  - apply Z.compare_gt_iff in CM. left. apply C. nia.
Qed.
Lemma ceiling_below t : 0 <= t ->
  Qceiling (inject_Z (t / 1000000 mod 1000) + inject_Z (t / 1000 mod 1000) / inject_Z 1000 + inject_Z (t mod 1000) / inject_Z 1000000)%Q
  = (t mod 1000000000 + 999999) / 1000000.
Proof.
  intro T.
  assert (D3 : t mod 1000000000 = (t / 1000000 mod 1000) * 1000000 + (t / 1000 mod 1000) * 1000 + t mod 1000).
  { pose proof (Z.div_mod t 1000000000 ltac:(lia)). pose proof (Z.div_mod t 1000 ltac:(lia)).
    pose proof (Z.div_mod (t / 1000) 1000 ltac:(lia)) as X. rewrite Z.div_div in X by lia. change (1000 * 1000) with 1000000 in X.
    pose proof (Z.div_mod (t / 1000000) 1000 ltac:(lia)) as Y. rewrite Z.div_div in Y by lia. change (1000000 * 1000) with 1000000000 in Y. lia. }
  rewrite D3. pose proof (Z.mod_pos_bound (t / 1000000) 1000 ltac:(lia)). pose proof (Z.mod_pos_bound (t / 1000) 1000 ltac:(lia)). pose proof (Z.mod_pos_bound t 1000 ltac:(lia)).
  set (a := t / 1000000 mod 1000) in *. set (b := t / 1000 mod 1000) in *. set (c := t mod 1000) in *. clearbody a b c. clear D3 T t.
  unfold Qceiling.
  assert (Q : (- (inject_Z a + inject_Z b / inject_Z 1000 + inject_Z c / inject_Z 1000000) == inject_Z (- (a * 1000000 + b * 1000 + c)) / inject_Z 1000000)%Q).
  { rewrite inject_Z_opp, !inject_Z_plus, !inject_Z_mult. field. }
  rewrite (Qfloor_comp _ _ Q), floor_frac by lia.
  pose proof (Z.div_mod (- (a * 1000000 + b * 1000 + c)) 1000000 ltac:(lia)) as X. pose proof (Z.mod_pos_bound (- (a * 1000000 + b * 1000 + c)) 1000000 ltac:(lia)).
  apply Z.div_unique with (r := (999999 - (- (a * 1000000 + b * 1000 + c)) mod 1000000)); lia.
Qed.

Theorem durations_in_words_of_any_style :
  forall st n d, 0 <= n -> 0 < d -> n + 1000 * d < 2 * 10 ^ 27 -> in_words st n d (pretty_ms st n d).
Proof.
  intros st n d N D B.
  set (m := rounded_up st n d).
  assert (BM : 0 <= m < 2 * 10 ^ 27).
  { unfold m, rounded_up. destruct (shown_digits st); [|lia]. destruct (500 * d <? _)%Z; [|lia].
    pose proof (Z.div_mod n (1000 * d) ltac:(lia)). pose proof (Z.mod_pos_bound n (1000 * d) ltac:(lia)).
    pose proof (Z.div_pos n (1000 * d) N ltac:(lia)). nia. }
  assert (SD : sec_digits (if compact st then mkStyle (unit_count st) true (verbose st) 0 (separate_ms st) (sub_ms st) else st) = shown_digits st) by (unfold shown_digits; destruct (compact st); reflexivity).
  assert (EM : (if (shown_digits st <? 1)%nat && Qltb (inject_Z 1000 - qmod (inject_Z n / inject_Z d) 1000) (inject_Z 500)
                then (n / d + 1000 - (n / d) mod 1000) * d else n)%Z = m).
  { assert (L : Qltb (inject_Z 1000 - qmod (inject_Z n / inject_Z d) 1000) (inject_Z 500) = (500 * d <? n mod (1000 * d))%Z).
    { apply Bool.eq_iff_eq_true. rewrite Qltb_lt, Z.ltb_lt. rewrite (qmod_frac n d 1000 D ltac:(lia)).
      set (r := n mod (1000 * d)). assert (QD : (0 < inject_Z d)%Q) by (unfold Qlt; simpl; lia).
      assert (Q : (inject_Z 1000 - inject_Z r / inject_Z d == inject_Z (1000 * d - r) / inject_Z d)%Q).
      { unfold Z.sub. rewrite inject_Z_plus, inject_Z_opp, inject_Z_mult. field. intro H. rewrite H in QD. exact (Qlt_irrefl _ QD). }
      rewrite Q. rewrite <- Qltb_lt, frac_ltb by exact D. rewrite Z.ltb_lt. lia. }
    rewrite L. unfold m, rounded_up. destruct (shown_digits st) as [|k]; [|reflexivity]. cbn [Nat.ltb Nat.leb andb].
    destruct (500 * d <? _)%Z; [|reflexivity].
    replace (1000 * d) with (d * 1000) by lia. rewrite <- Z.div_div by lia. pose proof (Z.div_mod (n / d) 1000 ltac:(lia)). nia. }
  destruct (durations_decompose m d (proj1 BM) D (proj2 BM)) as (R & _ & _).
  destruct (reads_counts _ m d _ R eq_refl) as (E1 & E2 & E3 & E4 & E5 & E6 & E7 & E8).
  assert (T0 : 0 <= 1000000 * m / d) by (apply Z.div_pos; lia).
  rewrite (framed_pretty st _ eq_refl). unfold in_words. cbv zeta. fold m. unfold parts. cbv zeta.
  set (st' := if compact st then mkStyle (unit_count st) true (verbose st) 0 (separate_ms st) (sub_ms st) else st) in *.
  assert (SEP : separate_ms st' = separate_ms st /\ sub_ms st' = sub_ms st /\ verbose st' = verbose st) by (unfold st'; destruct (compact st); auto).
  destruct SEP as (SEP & SUB & VB). rewrite SD, EM, SEP, SUB. rewrite !counted_add.
  assert (CO : forall v l s, counted st' v l s = counted st v l s) by (intros; unfold counted; rewrite VB; reflexivity). rewrite !CO.
  rewrite frac_ltb by exact D. rewrite E1, E2, E3, E4, E5, E6, E7, E8. set (t := 1000000 * m / d) in *.
  assert (LU : forall x, framed st (counted st (t / (365 * 24 * 3600 * 1000000000)) "year" "y" ++ counted st (t / (24 * 3600 * 1000000000) mod 365) "day" "d" ++
    counted st (t / (3600 * 1000000000) mod 24) "hour" "h" ++ counted st (t / (60 * 1000000000) mod 60) "minute" "m" ++ x)%list = framed st (large_units st t ++ x)%list).
  { intro x. unfold large_units. rewrite <- !app_assoc. reflexivity. }
  destruct (sub_ms st); [rewrite orb_true_r; cbn [orb]; apply LU|]. rewrite orb_false_r.
  destruct (separate_ms st || (m <? 1000 * d))%Z.
  - rewrite ceiling_below by exact T0. apply LU.
  - set (u := 10 ^ Z.of_nat (shown_digits st)). set (sec := Qred (qmod (inject_Z m / inject_Z d / inject_Z 1000) 60)).
    exists (round_even (Qnum sec * u) (Zpos (Qden sec))). split.
    + assert (QD : ~ (inject_Z d == 0)%Q) by (intro H; unfold Qeq in H; simpl in H; lia).
      assert (SE : (sec == inject_Z (m mod (60000 * d)) / inject_Z (1000 * d))%Q).
      { unfold sec. rewrite Qred_correct. assert (Q : (inject_Z m / inject_Z d / inject_Z 1000 == inject_Z m / inject_Z (1000 * d))%Q) by (rewrite inject_Z_mult; field; auto).
        assert (QM : forall a b k, (a == b)%Q -> (qmod a k == qmod b k)%Q).
        { intros a b k H. unfold qmod. assert (QQ : (a / inject_Z k == b / inject_Z k)%Q) by (rewrite H; reflexivity). rewrite (Qfloor_comp _ _ QQ), H. reflexivity. }
        rewrite (QM _ _ _ Q), qmod_frac by lia. replace (60 * (1000 * d)) with (60000 * d) by lia. reflexivity. }
      assert (NN : 0 <= Qnum sec).
      { pose proof (Z.mod_pos_bound m (60000 * d) ltac:(lia)). assert (0 <= sec)%Q.
        { rewrite SE. apply Qle_shift_div_l; [change 0%Q with (inject_Z 0); rewrite <- Zlt_Qlt; lia|]. rewrite Qmult_0_l. change 0%Q with (inject_Z 0). rewrite <- Zle_Qle. lia. }
        destruct sec as [a b]. unfold Qle in H0. cbn [Qnum Qden] in *. lia. }
      apply round_even_nearest; [|lia|].
      * assert (0 < u) by (apply Z.pow_pos_nonneg; lia). nia.
      * rewrite <- SE. rewrite inject_Z_mult. assert (Q : (sec == inject_Z (Qnum sec) / inject_Z (Zpos (Qden sec)))%Q).
        { destruct sec as [a b]. cbn [Qnum Qden]. rewrite (Qmake_Qdiv a b). reflexivity. }
        rewrite Q at 1. field. intro H. unfold Qeq in H. simpl in H. lia.
    + unfold second_text. fold u. unfold add_part. rewrite VB. set (z := round_even _ _). apply LU.
Qed.
Print Assumptions durations_in_words_of_any_style.

(** Nothing is printed for the number zero. *)
Theorem zero_duration_has_a_number_refuted :
  pretty_ms default_style 0 1 = "ms" /\ pretty_ms (mkStyle None false false 1 false true) 1 10000000 = "ms".
Proof. split; vm_compute; reflexivity. Qed.
Print Assumptions zero_duration_has_a_number_refuted.

(** Without [format_sub_ms] the seconds are rounded after the minutes were taken off. *)
Theorem seconds_stay_below_sixty_refuted :
  pretty_ms default_style 59960 1 = "60s" /\ pretty_ms default_style 119960 1 = "1m 60s".
Proof. split; vm_compute; reflexivity. Qed.
Print Assumptions seconds_stay_below_sixty_refuted.

Example durations_in_words_example :
  pretty_ms (mkStyle None false false 1 false true) 93784005678 1000 = "1d 2h 3m 4s 5ms 678us" /\
  pretty_ms default_style 1234567 1 = "20m 34.6s" /\
  pretty_ms (mkStyle (Some 2%nat) false true 1 false true) 93784005678 1000 = "~1 day 2 hours" /\
  pretty_ms (mkStyle None true false 1 false false) 1999 1 = "~2s" /\
  pretty_ms (mkStyle None false true 2 false false) 61050 1 = "1 minute 1.05 seconds" /\
  pretty_ms (mkStyle None false true 1 true false) 1999001 1000 = "1 second 1000 milliseconds" /\
  pretty_ms (mkStyle None false true 1 false false) 0 1 = "0 milliseconds".
Proof. repeat split; vm_compute; reflexivity. Qed.
