From Coq Require Import List Bool Arith ZArith QArith String Ascii Lia Lqa.
From Verif Require Import Prelude Dec ListFacts StrFacts Paths Course Op OpProofs OpMemo OpMemoProofs Context CondExpr Predicate PredicateProofs Limit LabelSpec LabelProofs StudentLoad StudentSpec StudentProofs StudentProps AreaLoadProofs LimitLoad LimitLoadSpec.
Import Limit.
Import ListNotations.
Local Open Scope string_scope.

(** ** Decimal numbers *)
Lemma digit_of_val c : digit_of c = digit_val c.
Proof. destruct c as [[] [] [] [] [] [] [] []]; vm_compute; reflexivity. Qed.
Lemma digit_numeral c : In c numerals <-> exists d, digit_of c = Some d.
Proof.
  split; [|intros (d & H); rewrite digit_of_val in H; eapply digit_val_in; exact H].
  intro I. destruct c as [[] [] [] [] [] [] [] []]; vm_compute in I |- *; try (eexists; reflexivity); repeat destruct I as [I|I]; try discriminate I; destruct I.
Qed.
Definition reads (z : Z) (s : string) : Z := fold_left (fun z c => 10 * z + numeral_value c)%Z (list_ascii_of_string s) z.
Lemma digit_value c d : digit_of c = Some d -> numeral_value c = d.
Proof. destruct c as [[] [] [] [] [] [] [] []]; vm_compute; intro H; try discriminate H; injection H as <-; reflexivity. Qed.
Lemma frac_exact s : forall z e d, dec_frac s z e = Some d <-> all_in numerals s /\ d = mkDec (reads z s) (e - Z.of_nat (String.length s)).
Proof.
  induction s as [|c s IH]; intros z e d.
  - cbn. rewrite Z.sub_0_r. split; [intro H; injection H as <-; split; [intros ? []|reflexivity]|intros [_ ->]; reflexivity].
  - cbn [dec_frac String.length]. rewrite all_in_cons. destruct (digit_of c) as [x|] eqn:D.
    + rewrite IH. assert (IC : In c numerals) by (apply digit_numeral; eauto). assert (E : reads (z * 10 + x) s = reads z (String c s)) by (unfold reads; cbn [list_ascii_of_string fold_left]; rewrite (digit_value _ _ D); f_equal; lia).
      rewrite E. replace (e - 1 - Z.of_nat (String.length s))%Z with (e - Z.of_nat (S (String.length s)))%Z by lia. tauto.
    + split; [discriminate|]. intros [[I _] _]. apply digit_numeral in I. destruct I as (x & I). congruence.
Qed.
Lemma int_exact s : forall z d, dec_int s z = Some d <->
  (all_in numerals s /\ d = mkDec (reads z s) 0) \/ exists a b, s = a ++ "." ++ b /\ b <> "" /\ all_in numerals a /\ all_in numerals b /\ d = mkDec (reads z (a ++ b)) (- Z.of_nat (String.length b)).
Proof.
  induction s as [|c s IH]; intros z d.
  - cbn. split; [intro H; injection H as <-; left; split; [intros ? []|reflexivity]|]. intros [[_ ->]|(a & b & E & _)]; [reflexivity|]. destruct a; discriminate.
  - cbn [dec_int]. destruct (Ascii.eqb_spec c ".") as [->|N].
    + destruct s as [|c' s'].
      * split; [discriminate|]. intros [[H _]|(a & b & E & NB & _)].
        -- exfalso. assert (I := H "."%char (or_introl eq_refl)). vm_compute in I. repeat destruct I as [I|I]; try discriminate I; destruct I.
        -- exfalso. destruct a as [|x a]; cbn in E; [injection E as <-; congruence|]. injection E as _ E. destruct a; discriminate.
      * remember (String c' s') as t eqn:ET. rewrite frac_exact, Z.sub_0_l. split.
        -- intros [A ->]. right. exists "", t. split; [reflexivity|]. split; [subst; discriminate|]. split; [intros ? []|]. split; [exact A|reflexivity].
        -- intros [[H _]|(a & b & E & NB & A & B & ->)].
           ++ exfalso. assert (I := H "."%char (or_introl eq_refl)). vm_compute in I. repeat destruct I as [I|I]; try discriminate I; destruct I.
           ++ destruct a as [|x a]; cbn in E; [injection E as ->; split; [exact B|reflexivity]|]. injection E as <- _. exfalso.
              assert (I := A "."%char (or_introl eq_refl)). vm_compute in I. repeat destruct I as [I|I]; try discriminate I; destruct I.
    + destruct (digit_of c) as [x|] eqn:D.
      * assert (IC : In c numerals) by (apply digit_numeral; eauto).
        assert (E : forall t, reads (z * 10 + x) t = reads z (String c t)) by (intro t; unfold reads; cbn [list_ascii_of_string fold_left]; rewrite (digit_value _ _ D); f_equal; lia).
        rewrite IH. rewrite all_in_cons. split.
        -- intros [[A ->]|(a & b & -> & NB & A & B & ->)]; [left; rewrite E; auto|]. right. exists (String c a), b. split; [reflexivity|]. split; [exact NB|]. split; [apply all_in_cons; auto|]. split; [exact B|]. rewrite E. reflexivity.
        -- intros [[[_ A] ->]|(a & b & ES & NB & A & B & ->)]; [left; rewrite E; auto|]. right. destruct a as [|y a]; cbn in ES; [injection ES as -> _; congruence|]. injection ES as <- ->. apply all_in_cons in A.
           exists a, b. split; [reflexivity|]. split; [exact NB|]. split; [apply A|]. split; [exact B|]. rewrite E. reflexivity.
      * split; [discriminate|]. intros [[H _]|(a & b & E & NB & A & B & _)].
        -- apply all_in_cons in H. destruct H as [H _]. apply digit_numeral in H. destruct H as (x & H). congruence.
        -- destruct a as [|y a]; cbn in E; [injection E as -> _; congruence|]. injection E as <- _. apply all_in_cons in A. destruct A as [A _]. apply digit_numeral in A. destruct A as (x & A). congruence.
Qed.
Lemma no_minus s : all_in numerals s -> forall t, s <> String "-" t.
Proof. intros A t ->. assert (I := A "-"%char (or_introl eq_refl)). vm_compute in I. repeat destruct I as [I|I]; try discriminate I; destruct I. Qed.
Theorem decimals_are_read_exactly : forall s d, dec_of_str s = Ok d <-> decimal_text s d.
Proof.
  intros s d. assert (POS : forall s, s <> "" -> (forall t, s <> String "-" t) -> dec_of_str s = match dec_int s 0 with Some d => Ok d | None => Err ValueErr end).
  { clear. intros s NE NM. unfold dec_of_str. destruct s as [|c s]; [congruence|]. destruct c as [[] [] [] [] [] [] [] []]; try reflexivity. exfalso. eapply NM. reflexivity. }
  assert (NEG : forall s, s <> "" -> dec_of_str (String "-" s) = match dec_int s 0 with Some d => Ok (mkDec (- dcoef d) (dexp d)) | None => Err ValueErr end).
  { clear. intros s NE. unfold dec_of_str. destruct s as [|c s]; [congruence|]. destruct (dec_int (String c s) 0); reflexivity. }
  split.
  - intro H. destruct s as [|c s]; [discriminate|]. destruct (Ascii.eqb_spec c "-") as [->|N].
    + destruct s as [|c s]; [discriminate|]. rewrite NEG in H by discriminate. destruct (dec_int (String c s) 0) as [d'|] eqn:E; [|discriminate]. injection H as <-.
      apply int_exact in E. destruct E as [[A ->]|(a & b & -> & NB & A & B & ->)].
      * apply (dt_whole true); [discriminate|exact A].
      * apply (dt_point true a b); auto.
    + rewrite POS in H; [|discriminate|congruence]. destruct (dec_int (String c s) 0) as [d'|] eqn:E; [|discriminate]. injection H as <-.
      apply int_exact in E. destruct E as [[A ->]|(a & b & -> & NB & A & B & ->)].
      * apply (dt_whole false); [discriminate|exact A].
      * apply (dt_point false a b); auto.
  - intros [neg ds NE A|neg a b NB A B].
    + assert (E : dec_int ds 0 = Some (mkDec (year_number ds) 0)) by (apply int_exact; left; split; [exact A|reflexivity]).
      destruct neg; cbn [sign_text signed append]; [rewrite NEG by exact NE|rewrite POS by (auto; apply no_minus; exact A)]; rewrite E; reflexivity.
    + assert (E : dec_int (a ++ "." ++ b) 0 = Some (mkDec (year_number (a ++ b)) (- Z.of_nat (String.length b)))) by (apply int_exact; right; exists a, b; auto 6).
      assert (N0 : a ++ "." ++ b <> "") by (destruct a; discriminate).
      destruct neg; cbn [sign_text signed append] in *; [rewrite NEG by exact N0; rewrite E; reflexivity|]. rewrite POS; [rewrite E; reflexivity|exact N0|].
      intros t E'. destruct a as [|x a]; [discriminate|]. cbn in E'. injection E' as -> _. exact (no_minus _ A _ eq_refl).
Qed.
Print Assumptions decimals_are_read_exactly.

(** ** Words *)
Lemma not_white c : white c = false <-> ~ In c blanks.
Proof. rewrite <- white_blank. destruct (white c); split; congruence. Qed.
Lemma words_blank a s : all_in blanks a -> words (a ++ s) "" = words s "".
Proof. induction a as [|c a IH]; intro A; [reflexivity|]. apply all_in_cons in A. cbn [append words]. rewrite (proj2 (white_blank c) (proj1 A)). cbn. apply IH. apply A. Qed.
Lemma string_app_nil (t : string) : t ++ "" = t.
Proof. induction t; cbn; congruence. Qed.
Lemma app_assoc_s (a b c : string) : (a ++ b) ++ c = a ++ b ++ c.
Proof. induction a; cbn; congruence. Qed.
Lemma words_word w : forall s acc, no_blank w -> words (w ++ s) acc = words s (acc ++ w).
Proof.
  induction w as [|c w IH]; intros s acc N; [cbn; f_equal; induction acc; cbn; congruence|]. cbn [append words]. rewrite (proj2 (not_white c) (N c (or_introl eq_refl))).
  rewrite IH by (intros x I; apply N; right; exact I). rewrite app_assoc_s. reflexivity.
Qed.
Lemma words_end acc s : acc <> "" -> s = "" \/ starts_blank s -> words s acc = acc :: words s "".
Proof.
  intros NE [->|(c & t & -> & I)]; cbn [words].
  - rewrite (proj2 (String.eqb_neq acc "") NE). reflexivity.
  - rewrite (proj2 (white_blank c) I), (proj2 (String.eqb_neq acc "") NE). reflexivity.
Qed.
Lemma word_split s : exists w r, s = w ++ r /\ no_blank w /\ (r = "" \/ starts_blank r).
Proof.
  induction s as [|c s (w & r & E & N & R)]; [exists "", ""; split; [reflexivity|]; split; [intros ? []|auto]|].
  destruct (white c) eqn:W.
  - exists "", (String c s). split; [reflexivity|]. split; [intros ? []|]. right. exists c, s. split; [reflexivity|apply white_blank; exact W].
  - exists (String c w), r. split; [cbn; congruence|]. split; [|exact R]. intros x [<-|I]; [apply not_white; exact W|auto].
Qed.
Lemma words_next s : exists a w r, s = a ++ w ++ r /\ all_in blanks a /\ no_blank w /\ (r = "" \/ starts_blank r) /\ (w = "" -> r = "") /\
  words s "" = if w =? "" then [] else w :: words r "".
Proof.
  destruct (lstrip_split s) as (a & E & A & NS). destruct (word_split (lstrip s)) as (w & r & E2 & N & R). exists a, w, r. rewrite E2 in E. split; [exact E|]. split; [exact A|]. split; [exact N|]. split; [exact R|].
  assert (W0 : w = "" -> r = "").
  { intros ->. cbn in E2. destruct R as [R|R]; [exact R|]. exfalso. apply NS. rewrite E2. exact R. }
  split; [exact W0|]. rewrite E, words_blank, words_word by assumption. cbn [append]. destruct (String.eqb_spec w "") as [->|NE]; [rewrite W0 by reflexivity; reflexivity|]. apply words_end; assumption.
Qed.
Lemma words_none s : words s "" = [] -> all_in blanks s.
Proof.
  intro H. destruct (words_next s) as (a & w & r & E & A & N & R & W0 & EW). destruct (String.eqb_spec w "") as [->|NE]; [|congruence].
  rewrite W0 in E by reflexivity. cbn in E. assert (X : forall t : string, t ++ "" = t) by (induction t; cbn; congruence). rewrite X in E. subst. exact A.
Qed.
Lemma words_two s n u : words s "" = [n; u] <-> two_words s n u.
Proof.
  split.
  - intro H. destruct (words_next s) as (a & w & r & E & A & N & R & W0 & EW). rewrite H in EW. destruct (String.eqb_spec w "") as [->|NE]; [discriminate|]. injection EW as <- EW.
    destruct (words_next r) as (b & w2 & r2 & E2 & B & N2 & R2 & W2 & EW2). rewrite <- EW in EW2. destruct (String.eqb_spec w2 "") as [->|NE2]; [discriminate|]. injection EW2 as <- EW2.
    exists a, b, r2. subst s r. split; [reflexivity|]. split; [exact A|]. split; [exact B|]. split; [apply words_none; symmetry; exact EW2|]. split.
    + intros ->. cbn in R. destruct R as [R|(c & t & R & I)]; [destruct u; [congruence|discriminate]|]. destruct u as [|x u]; [congruence|]. cbn in R. injection R as <- _. exact (N2 x (or_introl eq_refl) I).
    + auto.
  - intros (a & b & c & -> & A & B & C & NB & NN & NU & BN & BU). rewrite words_blank by exact A. rewrite words_word by exact BN. cbn [append].
    assert (SB : forall t, b <> "" -> starts_blank (b ++ t)) by (intros t X; destruct b as [|x b]; [congruence|]; exists x, (b ++ t); split; [reflexivity|exact (proj1 (proj1 (all_in_cons _ _ _) B))]).
    rewrite words_end; [|exact NN|right; apply SB; exact NB]. rewrite words_blank by exact B. rewrite words_word by exact BU. cbn [append].
    rewrite words_end; [|exact NU|]. 
    + f_equal. f_equal. rewrite <- (string_app_nil c), words_blank by exact C. reflexivity.
    + destruct c as [|x c]; [left; reflexivity|right]. exists x, c. split; [reflexivity|exact (proj1 (proj1 (all_in_cons _ _ _) C))].
Qed.

(** ** Amounts *)
Lemma cut_exact q z : int_of_Q q = z <-> toward_zero q z.
Proof.
  assert (F : forall z, toward_zero q z <-> ((0 <= Qnum q -> z * Zpos (Qden q) <= Qnum q < (z + 1) * Zpos (Qden q)) /\ (Qnum q < 0 -> (z - 1) * Zpos (Qden q) < Qnum q <= z * Zpos (Qden q)))%Z).
  { clear z. intro z. unfold toward_zero, Qle, Qlt, inject_Z. cbn [Qnum Qden]. rewrite !Z.mul_0_l, !Z.mul_1_r. split; intros [A B]; split; intro H; specialize (A) || specialize (B); try (apply A in H); try (apply B in H); lia. }
  assert (E : toward_zero q (int_of_Q q)).
  { apply F. unfold int_of_Q. assert (Q := Z.quot_rem' (Qnum q) (Zpos (Qden q))). assert (P : (0 < Zpos (Qden q))%Z) by reflexivity. split; intro H.
    - assert (R := Z.rem_bound_pos (Qnum q) (Zpos (Qden q)) H P). nia.
    - assert (R := Z.rem_bound_pos (- Qnum q) (Zpos (Qden q)) ltac:(lia) P). rewrite Z.rem_opp_l in R by lia. nia. }
  split; [intros <-; exact E|]. intro T. apply F in E. apply F in T. destruct E as [E1 E2], T as [T1 T2]. assert (P : (0 < Zpos (Qden q))%Z) by reflexivity.
  destruct (Z_lt_le_dec (Qnum q) 0) as [H|H]; [specialize (E2 H); specialize (T2 H)|specialize (E1 H); specialize (T1 H)]; nia.
Qed.
Lemma numeral_blank t z : numeral_text t z -> no_blank t.
Proof.
  intros (ds & NE & A & H) c I J. assert (X : In c ("-"%char :: numerals)).
  { destruct H as [[-> _]|[-> _]]; [right; apply A; exact I|]. destruct I as [<-|I]; [left; reflexivity|right; apply A; exact I]. }
  vm_compute in X, J. repeat destruct X as [<-|X]; repeat destruct J as [J|J]; try discriminate J; try destruct J; destruct X.
Qed.
Lemma words_one s t : trimmed s t -> no_blank t -> t <> "" -> words s "" = [t].
Proof.
  intros (_ & _ & a & b & -> & A & B) N NE. rewrite words_blank, words_word by assumption. cbn [append]. rewrite words_end; [|exact NE|].
  - f_equal. rewrite <- (string_app_nil b), words_blank by exact B. reflexivity.
  - destruct b as [|c b]; [left; reflexivity|right]. exists c, b. split; [reflexivity|exact (proj1 (proj1 (all_in_cons _ _ _) B))].
Qed.
Lemma unit_exact u what : (if (u =? "course") || (u =? "courses") then Ok (Courses) else if (u =? "credit") || (u =? "credits") then Ok Credits else Err ValueErr) = Ok what <-> unit_of u what.
Proof.
  split.
  - destruct (String.eqb_spec u "course") as [->|N1]; [intro H; injection H as <-; constructor|]. destruct (String.eqb_spec u "courses") as [->|N2]; [intro H; injection H as <-; constructor|].
    destruct (String.eqb_spec u "credit") as [->|N3]; [intro H; injection H as <-; constructor|]. destruct (String.eqb_spec u "credits") as [->|N4]; [intro H; injection H as <-; constructor|]. discriminate.
  - intros []; reflexivity.
Qed.
Lemma amount_exact v d what : load_amount v = Ok (d, what) <-> amount_of v d what.
Proof.
  unfold load_amount. destruct v as [|b|z|f|s|]; cbn [amount_int].
  - split; [discriminate|intro H; inversion H].
  - split; [intro H; injection H as <- <-; destruct b; constructor|intro H; inversion H; reflexivity].
  - split; [intro H; injection H as <- <-; constructor|intro H; inversion H; reflexivity].
  - split; [intro H; injection H as <- <-; apply ao_float; apply cut_exact; reflexivity|]. intro H. inversion H as [| | |d' z T| |]; subst. apply cut_exact in T. rewrite T. reflexivity.
  - destruct (py_int (strip s)) as [z|e] eqn:P.
    + apply py_int_numeral in P. assert (T : trimmed s (strip s)) by (apply strip_exact; reflexivity). split; [intro H; injection H as <- <-; eapply ao_text; eassumption|].
      intro H. inversion H as [| | | |s' t z' T' N|s' n u d' w' W D U]; subst.
      * apply strip_exact in T'. subst t. apply py_int_numeral in P, N. rewrite P in N. injection N as <-. reflexivity.
      * exfalso. apply words_two in W. rewrite (words_one s _ T (numeral_blank _ _ P)) in W; [discriminate|]. intro E. rewrite E in P. destruct P as (ds & NE & _ & [[X _]|[X _]]); [congruence|discriminate].
    + assert (EV := py_int_fails _ _ P). subst e. split.
      * intro H. destruct (words s "") as [|n [|u [|x l]]] eqn:W; try discriminate. apply words_two in W. apply bind_iff in H. destruct H as (d' & D & H). apply decimals_are_read_exactly in D.
        assert (U : unit_of u what /\ d' = d).
        { destruct ((u =? "course") || (u =? "courses")) eqn:E1; [injection H as <- <-; split; [apply unit_exact; rewrite E1|]; reflexivity|].
          destruct ((u =? "credit") || (u =? "credits")) eqn:E2; [injection H as <- <-; split; [apply unit_exact; rewrite E1, E2|]; reflexivity|discriminate]. }
        destruct U as [U ->]. eapply ao_words; eassumption.
      * intro H. inversion H as [| | | |s' t z' T' N|s' n u d' w' W D U]; subst.
        -- apply strip_exact in T'. subst t. apply py_int_numeral in N. congruence.
        -- apply words_two in W. rewrite W. apply decimals_are_read_exactly in D. rewrite D. cbn [bind]. apply unit_exact in U. destruct ((u =? "course") || (u =? "courses")); [injection U as <-; reflexivity|]. destruct ((u =? "credit") || (u =? "credits")); [injection U as <-; reflexivity|discriminate].
  - split; [discriminate|intro H; inversion H].
Qed.

(** ** Equality *)
Lemma py_eq_refl x : py_eq x x = true.
Proof.
  destruct x as [| |z|d|s|g|o]; cbn; try reflexivity.
  - destruct b; reflexivity.
  - apply OpProofs.Qeqb_spec. reflexivity.
  - apply OpProofs.Qeqb_spec. reflexivity.
  - apply String.eqb_refl.
  - unfold grade_eqb. destruct (grade_code_eq_dec g g); congruence.
  - unfold opt_eqb. destruct (grade_option_eq_dec o o); congruence.
Qed.
(** numbers are equal by value, the rest by what it is *)
Lemma py_eq_iff x y : py_eq x y = true <-> x = y \/ exists p q, num x = Some p /\ num y = Some q /\ (p == q)%Q.
Proof.
  split.
  - destruct x as [|[]|z|d|s|g|o], y as [|[]|z'|d'|s'|g'|o']; cbn; intro H; try discriminate; auto;
      try (right; do 2 eexists; split; [reflexivity|]; split; [reflexivity|]; apply OpProofs.Qeqb_spec; exact H).
    + apply String.eqb_eq in H. subst. auto.
    + unfold grade_eqb in H. destruct (grade_code_eq_dec g g'); [subst; auto|discriminate].
    + unfold opt_eqb in H. destruct (grade_option_eq_dec o o'); [subst; auto|discriminate].
  - intros [->|(p & q & P & Q & E)]; [apply py_eq_refl|]. destruct x, y; cbn in P, Q |- *; try discriminate; try rewrite P; try rewrite Q; try (injection P as <-); try (injection Q as <-); apply OpProofs.Qeqb_spec; exact E.
Qed.
Lemma py_eq_sym x y : py_eq x y = true -> py_eq y x = true.
Proof. rewrite !py_eq_iff. intros [->|(p & q & P & Q & E)]; [auto|right]. exists q, p. split; [exact Q|]. split; [exact P|]. symmetry. exact E. Qed.
Lemma py_eq_trans x y z : py_eq x y = true -> py_eq y z = true -> py_eq x z = true.
Proof.
  rewrite !py_eq_iff. intros [->|(p & q & P & Q & E)]; [auto|]. intros [->|(p' & q' & P' & Q' & E')]; [right; exists p, q; auto|]. rewrite Q in P'. injection P' as <-.
  right. exists p, q'. split; [exact P|]. split; [exact Q'|]. rewrite E. exact E'.
Qed.
Section Lists.
  Context {A : Type} (R : A -> A -> Prop).
  Lemma list_eqb_iff (f : A -> A -> bool) l : (forall x, In x l -> forall y, f x y = true <-> R x y) -> forall m, list_eqb f l m = true <-> Forall2 R l m.
  Proof.
    induction l as [|x l IH]; intros H [|y m]; cbn [list_eqb]; try (split; [discriminate|intro X; inversion X]); [split; [constructor|reflexivity]|].
    rewrite andb_true_iff, (H x (or_introl eq_refl) y), IH by (intros z I; apply H; right; exact I). split; [intros [P Q]; constructor; assumption|intro X; inversion X; auto].
  Qed.
  Lemma Forall2_refl' l : (forall x, In x l -> R x x) -> Forall2 R l l.
  Proof. induction l as [|x l IH]; intro H; constructor; [apply H; left; reflexivity|apply IH; intros y I; apply H; right; exact I]. Qed.
  Lemma Forall2_sym' l : (forall x, In x l -> forall y, R x y -> R y x) -> forall m, Forall2 R l m -> Forall2 R m l.
  Proof. intros H m F. induction F as [|x y l m P F IH]; constructor; [apply H; [left; reflexivity|exact P]|apply IH; intros z I; apply H; right; exact I]. Qed.
  Lemma Forall2_trans' l : (forall x, In x l -> forall y z, R x y -> R y z -> R x z) -> forall m n, Forall2 R l m -> Forall2 R m n -> Forall2 R l n.
  Proof.
    intros H m n F. revert n. induction F as [|x y l m P F IH]; intros n G; inversion G as [|? z ? k Q G']; subst; constructor; [eapply H; [left; reflexivity|exact P|exact Q]|].
    apply IH; [intros w I; apply H; right; exact I|exact G'].
  Qed.
End Lists.
Lemma value_same a b : value_eqb a b = true <-> same_value a b.
Proof.
  destruct a as [x|l], b as [y|m]; cbn [value_eqb]; try (split; [discriminate|intro H; inversion H]).
  - split; [constructor; assumption|intro H; inversion H; assumption].
  - rewrite (list_eqb_iff (fun x y => py_eq x y = true)) by (intros; reflexivity). split; [constructor; assumption|intro H; inversion H; assumption].
Qed.
Lemma opt_same_iff {A} (f : A -> A -> bool) (R : A -> A -> Prop) a b : (forall x y, f x y = true <-> R x y) -> (opt_same f a b = true <-> same_opt R a b).
Proof. intro H. destruct a, b; cbn; try (split; [discriminate|intro X; inversion X]); [rewrite H|]; (split; [constructor; assumption|intro X; inversion X; try assumption; reflexivity]). Qed.
Lemma op_same a b : op_eqb a b = true <-> a = b.
Proof. destruct a, b; cbn; split; congruence. Qed.
Lemma leaf_same a b : leaf_eqb a b = true <-> same_leaf a b.
Proof.
  unfold leaf_eqb. rewrite !andb_true_iff, String.eqb_eq, op_same, value_same, (opt_same_iff _ same_value) by (intros; apply value_same). split.
  - intros (((A & B) & C) & D). constructor; assumption.
  - intros [A B C D]. auto.
Qed.
Section EInd.
  Variable P : pexpr -> Prop.
  Hypothesis HAnd : forall l r, Forall P l -> P (EAnd l r).
  Hypothesis HOr : forall l r, Forall P l -> P (EOr l r).
  Hypothesis HNot : forall e r, P e -> P (ENot e r).
  Hypothesis HFun : forall f a r, P (EFun f a r).
  Fixpoint pexpr_ind' (x : pexpr) : P x :=
    let go := fix go l : Forall P l :=
      match l with [] => Forall_nil _ | y :: t => Forall_cons _ (pexpr_ind' y) (go t) end in
    match x with
    | EAnd l r => HAnd l r (go l)
    | EOr l r => HOr l r (go l)
    | ENot e r => HNot e r (pexpr_ind' e)
    | EFun f a r => HFun f a r
    end.
End EInd.
Lemma Forall2_eq {A} (l m : list A) : Forall2 eq l m <-> l = m.
Proof. split; [induction 1; congruence|intros <-; induction l; constructor; auto]. Qed.
Lemma result_same a b : opt_same Bool.eqb a b = true <-> a = b.
Proof. destruct a as [[]|], b as [[]|]; cbn; split; congruence. Qed.
Lemma pexpr_same a : forall b, pexpr_eqb a b = true <-> a = b.
Proof.
  induction a as [l r IH|l r IH|e r IH|f x r] using pexpr_ind'; intros [l' r'|l' r'|e' r'|f' x' r']; cbn [pexpr_eqb]; try (split; [discriminate|congruence]).
  - rewrite Forall_forall in IH. rewrite andb_true_iff, (list_eqb_iff eq) by exact IH. rewrite Forall2_eq, result_same. split; [intros [-> ->]; reflexivity|intro E; injection E; auto].
  - rewrite Forall_forall in IH. rewrite andb_true_iff, (list_eqb_iff eq) by exact IH. rewrite Forall2_eq, result_same. split; [intros [-> ->]; reflexivity|intro E; injection E; auto].
  - rewrite andb_true_iff, IH, result_same. split; [intros [-> ->]; reflexivity|intro E; injection E; auto].
  - rewrite !andb_true_iff, String.eqb_eq, result_same. destruct (pfun_eq_dec f f') as [->|N]; [split; [intros [[_ ->] ->]; reflexivity|intro E; injection E; auto]|split; [intros [[H _] _]; discriminate|intro E; injection E; congruence]].
Qed.
Lemma pred_same a : forall b, pred_eqb a b = true <-> same_pred a b.
Proof.
  induction a as [l IH|l IH|p IH|c t IH|c t e IHt IHe|l] using pred_ind'; intros [l'|l'|p'|c' t' e'|l']; cbn [pred_eqb]; try (split; [discriminate|intro H; inversion H]; fail).
  - rewrite Forall_forall in IH. rewrite (list_eqb_iff same_pred) by exact IH. split; [apply sp_and|intro H; inversion H; assumption].
  - rewrite Forall_forall in IH. rewrite (list_eqb_iff same_pred) by exact IH. split; [apply sp_or|intro H; inversion H; assumption].
  - rewrite IH. split; [apply sp_not|intro H; inversion H; assumption].
  - destruct e' as [e'|]; [rewrite andb_false_r; split; [discriminate|intro H; inversion H]|]. rewrite !andb_true_iff, pexpr_same, IH. split; [intros [[-> H] _]; apply sp_if; exact H|intro H; inversion H; auto].
  - destruct e' as [e'|]; [|rewrite andb_false_r; split; [discriminate|intro H; inversion H]]. rewrite !andb_true_iff, pexpr_same, IHt, IHe. split; [intros [[-> H] H2]; apply sp_else; assumption|intro H; inversion H; auto].
  - rewrite leaf_same. split; [apply sp_leaf|intro H; inversion H; assumption].
Qed.
Lemma what_same a b : what_eqb a b = true <-> a = b.
Proof. destruct a, b; cbn; split; congruence. Qed.
Lemma limit_same a b : limit_eqb a b = true <-> same_key a b.
Proof.
  unfold limit_eqb. rewrite !andb_true_iff, what_same, pred_same, (list_eqb_iff same_value) by (intros; apply value_same). rewrite OpProofs.Qeqb_spec, (opt_same_iff _ eq) by (intros; apply String.eqb_eq).
  assert (M : same_opt eq (ll_message a) (ll_message b) <-> ll_message a = ll_message b) by (split; [intro H; inversion H; congruence|intros ->; destruct (ll_message b); constructor; reflexivity]). rewrite M.
  split; [intros ((((A & B) & C) & D) & E); constructor; assumption|intros [A B C D E]; auto].
Qed.
(** an equivalence *)
Lemma same_value_refl v : same_value v v.
Proof. destruct v; constructor; [apply py_eq_refl|apply Forall2_refl'; intros; apply py_eq_refl]. Qed.
Lemma same_value_sym a b : same_value a b -> same_value b a.
Proof. intros []; constructor; [apply py_eq_sym; assumption|eapply Forall2_sym'; [|eassumption]; intros; apply py_eq_sym; assumption]. Qed.
Lemma same_value_trans a b c : same_value a b -> same_value b c -> same_value a c.
Proof.
  intros [x y H|l m H] K; inversion K as [? z E|? n E]; subst; constructor; [eapply py_eq_trans; eassumption|]. eapply (Forall2_trans' (fun x y => py_eq x y = true)); [|eassumption|eassumption]. intros ? _ ? ?. apply py_eq_trans.
Qed.
Lemma same_opt_refl {A} (R : A -> A -> Prop) o : (forall x, R x x) -> same_opt R o o.
Proof. destruct o; constructor; auto. Qed.
Lemma same_opt_sym {A} (R : A -> A -> Prop) a b : (forall x y, R x y -> R y x) -> same_opt R a b -> same_opt R b a.
Proof. intros H []; constructor; auto. Qed.
Lemma same_opt_trans {A} (R : A -> A -> Prop) a b c : (forall x y z, R x y -> R y z -> R x z) -> same_opt R a b -> same_opt R b c -> same_opt R a c.
Proof. intros H [|x y P] Q; inversion Q; subst; constructor; eauto. Qed.
Lemma same_leaf_refl a : same_leaf a a.
Proof. constructor; try reflexivity; [apply same_value_refl|apply same_opt_refl; apply same_value_refl]. Qed.
Lemma same_leaf_sym a b : same_leaf a b -> same_leaf b a.
Proof. intros [A B C D]. constructor; auto; [apply same_value_sym; assumption|apply same_opt_sym; [apply same_value_sym|assumption]]. Qed.
Lemma same_leaf_trans a b c : same_leaf a b -> same_leaf b c -> same_leaf a c.
Proof. intros [A B C D] [A' B' C' D']. constructor; try congruence; [eapply same_value_trans; eassumption|eapply same_opt_trans; [apply same_value_trans|eassumption|eassumption]]. Qed.
Lemma same_pred_refl a : same_pred a a.
Proof.
  induction a as [l IH|l IH|p IH|c t IH|c t e IHt IHe|l] using pred_ind'; constructor; try assumption; try (rewrite Forall_forall in IH; apply Forall2_refl'; exact IH). apply same_leaf_refl.
Qed.
Lemma same_pred_sym a : forall b, same_pred a b -> same_pred b a.
Proof.
  induction a as [l IH|l IH|p IH|c t IH|c t e IHt IHe|l] using pred_ind'; intros b H; inversion H; subst; constructor; auto; try (rewrite Forall_forall in IH; eapply Forall2_sym'; [exact IH|assumption]). apply same_leaf_sym. assumption.
Qed.
Lemma same_pred_trans a : forall b c, same_pred a b -> same_pred b c -> same_pred a c.
Proof.
  induction a as [l IH|l IH|p IH|c t IH|c t e IHt IHe|l] using pred_ind'; intros b d H K; inversion H; subst; inversion K; subst; constructor; eauto;
    try (rewrite Forall_forall in IH; eapply (Forall2_trans' same_pred); [exact IH|eassumption|eassumption]). eapply same_leaf_trans; eassumption.
Qed.
Lemma same_key_refl a : same_key a a.
Proof. constructor; try reflexivity; [apply same_pred_refl|apply Forall2_refl'; intros; apply same_value_refl]. Qed.
Lemma same_key_sym a b : same_key a b -> same_key b a.
Proof. intros [A B C D E]. constructor; auto; [symmetry; exact A|apply same_pred_sym; exact C|]. eapply Forall2_sym'; [|exact D]. intros ? _ ?. apply same_value_sym. Qed.
Lemma same_key_trans a b c : same_key a b -> same_key b c -> same_key a c.
Proof.
  intros [A B C D E] [A' B' C' D' E']. constructor; try congruence; [rewrite A; exact A'|eapply same_pred_trans; eassumption|]. eapply (Forall2_trans' same_value); [|exact D|exact D']. intros ? _ ? ?. apply same_value_trans.
Qed.
