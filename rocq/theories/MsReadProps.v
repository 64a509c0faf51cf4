(** C147, C148: durations read from text. *)
From Coq Require Import List Bool Arith ZArith QArith String Ascii Lia.
From Verif Require Import Prelude Dec Paths StrFacts Keys Ms MsProps LabelSpec StudentSpec StudentProofs LimitLoadSpec LimitLoadProofs MsRead Testbed.
Import ListNotations.
Local Open Scope Z_scope.
Local Open Scope string_scope.

(** ** What a text says *)
(** the units, in milliseconds *)
Definition known_units : list (string * Z) :=
  [("d", 24 * 60 * 60 * 1000); ("h", 60 * 60 * 1000); ("m", 60 * 1000); ("s", 1000); ("ms", 1)].
Definition unit_worth (u : string) (w : Z) : Prop :=
  In (u, w) known_units \/ (~ In u (map fst known_units) /\ w = 0).
(** neither a minus sign nor a digit *)
Definition apart (c : ascii) : Prop := c <> "-"%char /\ ~ In c numerals.
Definition all_apart (u : string) : Prop := forall c, In c (list_ascii_of_string u) -> apart c.
(** the end, or a character of this kind *)
Definition next_is (P : ascii -> Prop) (r : string) : Prop := match r with "" => True | String c _ => P c end.

(** A text without blanks, from left to right: a number with its unit counts, everything else is
    passed over, numbers without a unit too. *)
Inductive adds_up : string -> Z -> Prop :=
| au_end : adds_up "" 0
| au_count neg ds u w r z :
    ds <> "" -> all_in numerals ds -> u <> "" -> all_apart u -> next_is (fun c => ~ apart c) r -> unit_worth u w -> adds_up r z ->
    adds_up (sign_text neg ++ ds ++ u ++ r) (signed neg (year_number ds) * w + z)
| au_bare neg ds r z :
    ds <> "" -> all_in numerals ds -> next_is (eq "-"%char) r -> adds_up r z -> adds_up (sign_text neg ++ ds ++ r) z
| au_minus r z : next_is (fun c => ~ In c numerals) r -> adds_up r z -> adds_up ("-" ++ r) z
| au_other c r z : apart c -> adds_up r z -> adds_up (String c r) z.

(** the text without its blanks *)
Definition without_blanks (s t : string) : Prop :=
  list_ascii_of_string t = filter (fun c => negb (existsb (Ascii.eqb c) blanks)) (list_ascii_of_string s).
Definition milliseconds_of (s : string) (z : Z) : Prop :=
  exists t, without_blanks s t /\ (numeral_text t z \/ (forall y, ~ numeral_text t y) /\ adds_up t z).

(** ** Characters and spans *)
Lemma digit_iff c : is_digit c = true <-> In c numerals.
Proof. rewrite digit_numeral, digit_of_val. unfold is_digit. destruct (digit_val c) as [d|]; split; try discriminate; eauto. intros [? ?]; discriminate. Qed.
Lemma digit_not c : is_digit c = false <-> ~ In c numerals.
Proof. rewrite <- digit_iff. destruct (is_digit c); split; congruence. Qed.
Lemma other_iff c : is_other c = true <-> apart c.
Proof.
  unfold is_other, apart. rewrite andb_true_iff, !negb_true_iff, digit_not, Ascii.eqb_neq. reflexivity.
Qed.
Lemma other_not c : is_other c = false <-> ~ apart c.
Proof. rewrite <- other_iff. destruct (is_other c); split; congruence. Qed.
Lemma minus_no_digit : is_digit "-" = false.
Proof. reflexivity. Qed.
Lemma minus_numeral : ~ In "-"%char numerals.
Proof. apply digit_not. reflexivity. Qed.

Lemma span_app p a : forall r, (forall c, In c (list_ascii_of_string a) -> p c = true) -> next_is (fun c => p c = false) r -> span p (a ++ r) = (a, r).
Proof.
  induction a as [|c a IH]; intros r A N.
  - cbn [append]. destruct r as [|c r]; [reflexivity|]. cbn in N. cbn [span]. rewrite N. reflexivity.
  - change ((String c a) ++ r) with (String c (a ++ r)). cbn [span]. rewrite (A c) by (left; reflexivity).
    rewrite IH; [reflexivity| |exact N]. intros d D. apply A. right. exact D.
Qed.
Lemma span_split p s : exists a r, s = a ++ r /\ (forall c, In c (list_ascii_of_string a) -> p c = true) /\ next_is (fun c => p c = false) r.
Proof.
  induction s as [|c s (a & r & E & A & N)]; [exists "", ""; cbn; intuition|].
  destruct (p c) eqn:P; [|exists "", (String c s); cbn; intuition].
  exists (String c a), r. split; [rewrite E; reflexivity|]. split; [|exact N].
  intros d [<-|D]; auto.
Qed.
Lemma digits_in ds : all_in numerals ds <-> (forall c, In c (list_ascii_of_string ds) -> is_digit c = true).
Proof. unfold all_in. split; intros H c I; apply digit_iff, H, I. Qed.
Lemma others_in u : all_apart u <-> (forall c, In c (list_ascii_of_string u) -> is_other c = true).
Proof. unfold all_apart. split; intros H c I; apply other_iff, H, I. Qed.
Lemma digits_number ds : forall z, all_in numerals ds -> digits_val ds z = Some (fold_left (fun z c => 10 * z + numeral_value c)%Z (list_ascii_of_string ds) z).
Proof.
  induction ds as [|c ds IH]; intros z A; [reflexivity|]. apply all_in_cons in A. destruct A as [I A].
  cbn [digits_val list_ascii_of_string fold_left]. apply digit_numeral in I. destruct I as [d D]. rewrite (digit_value _ _ D).
  rewrite digit_of_val in D. rewrite D. apply IH. exact A.
Qed.
Lemma int_of_digits neg ds : all_in numerals ds -> int_of neg ds = signed neg (year_number ds).
Proof. intro A. unfold int_of. rewrite digits_number by exact A. reflexivity. Qed.
Lemma minus_taken neg ds r : ds <> "" -> all_in numerals ds -> take_minus (sign_text neg ++ ds ++ r) = (neg, ds ++ r).
Proof.
  intros N A. destruct neg; [reflexivity|]. destruct ds as [|c ds]; [congruence|]. apply all_in_cons in A. cbn.
  destruct (Ascii.eqb_spec c "-") as [->|]; [destruct (minus_numeral (proj1 A))|reflexivity].
Qed.
Lemma chunk_worth u w : unit_worth u w <-> chunk u = w.
Proof.
  unfold unit_worth, chunk, known_units. cbn [In map fst].
  destruct (String.eqb_spec u "ms") as [->|N1]; [|destruct (String.eqb_spec u "s") as [->|N2]; [|destruct (String.eqb_spec u "m") as [->|N3]; [|
    destruct (String.eqb_spec u "h") as [->|N4]; [|destruct (String.eqb_spec u "d") as [->|N5]]]]].
  6: { split; [|intros <-; right; split; [intuition congruence|reflexivity]].
       intros [[E|[E|[E|[E|[E|[]]]]]]|[_ E]]; congruence. }
  all: split; [intros [[E|[E|[E|[E|[E|[]]]]]]|[N _]]; [first [discriminate E|injection E as <-; reflexivity]..|exfalso; tauto]|intros <-; left; cbv; tauto].
Qed.

(** ** Tokens *)
Lemma next_other r : next_is (fun c => ~ apart c) r -> next_is (fun c => is_other c = false) r.
Proof. destruct r; [auto|]. apply other_not. Qed.

Lemma token_count neg ds u r : ds <> "" -> all_in numerals ds -> u <> "" -> all_apart u -> next_is (fun c => ~ apart c) r ->
  token (sign_text neg ++ ds ++ u ++ r) = Some (signed neg (year_number ds), u, r).
Proof.
  intros N A NU U R. unfold token. rewrite minus_taken by assumption. rewrite (span_app is_digit ds (u ++ r)).
  - rewrite (span_app is_other u r); [|apply others_in, U|apply next_other, R]. rewrite int_of_digits by exact A.
    destruct ds; [congruence|]. destruct u; [congruence|]. reflexivity.
  - apply digits_in, A.
  - destruct u as [|c u]; [congruence|]. cbn. apply digit_not. apply (U c). left. reflexivity.
Qed.
Lemma token_bare ds r : all_in numerals ds -> next_is (eq "-"%char) r -> ds <> "" -> token (ds ++ r) = None.
Proof.
  intros A R N. unfold token. pose proof (minus_taken false ds r N A) as M. cbn [sign_text append] in M. rewrite M. clear M. rewrite (span_app is_digit ds r).
  - destruct r as [|c r]; cbn in R; [destruct ds; reflexivity|]. subst c. cbn [span]. change (is_other "-") with false. destruct ds; reflexivity.
  - apply digits_in, A.
  - destruct r as [|c r]; [exact Logic.I|]. cbn in *. subst c. reflexivity.
Qed.
Lemma token_bare_minus neg ds r : all_in numerals ds -> next_is (eq "-"%char) r -> ds <> "" -> token (sign_text neg ++ ds ++ r) = None.
Proof.
  intros A R N. destruct neg; [|exact (token_bare ds r A R N)]. pose proof (token_bare ds r A R N) as T. unfold token in *.
  rewrite (minus_taken true ds r N A). pose proof (minus_taken false ds r N A) as M. cbn [sign_text append] in M. rewrite M in T. clear M.
  destruct (span is_digit (ds ++ r)) as [a b]. destruct (span is_other b) as [u q]. destruct a; [reflexivity|]. destruct u; [reflexivity|discriminate].
Qed.
Lemma token_minus r : next_is (fun c => ~ In c numerals) r -> token ("-" ++ r) = None.
Proof.
  intro N. unfold token. cbn [append take_minus]. change (Ascii.eqb "-" "-") with true. cbn iota.
  destruct r as [|c r]; [reflexivity|]. cbn in N. cbn [span]. rewrite (proj2 (digit_not c) N). destruct (span is_other (String c r)). reflexivity.
Qed.
Lemma token_other c r : apart c -> token (String c r) = None.
Proof.
  intros [M N]. unfold token. cbn [take_minus]. rewrite (proj2 (Ascii.eqb_neq c "-") M). cbn [span]. rewrite (proj2 (digit_not c) N).
  destruct (span is_other (String c r)). reflexivity.
Qed.

Lemma chunks_step k c t : chunks (S k) (String c t) = match token (String c t) with Some (z, u, r) => z * chunk u + chunks k r | None => chunks k t end.
Proof. reflexivity. Qed.
Lemma len_app a b : String.length (a ++ b) = (String.length a + String.length b)%nat.
Proof. induction a; cbn; congruence. Qed.

Lemma chunks_bare ds r z : next_is (eq "-"%char) r -> (forall k, (String.length r <= k)%nat -> chunks k r = z) -> all_in numerals ds ->
  forall k, (String.length (ds ++ r) <= k)%nat -> chunks k (ds ++ r) = z.
Proof.
  intros R H. induction ds as [|c ds IH]; intros A k L; [apply H; exact L|].
  change (String c ds ++ r) with (String c (ds ++ r)) in *. destruct k as [|k]; [cbn in L; lia|]. rewrite chunks_step.
  change (String c (ds ++ r)) with (String c ds ++ r). rewrite (token_bare (String c ds) r A R) by discriminate.
  apply all_in_cons in A. apply IH; [apply A|cbn in L; lia].
Qed.
Lemma adds_chunks s z : adds_up s z -> forall k, (String.length s <= k)%nat -> chunks k s = z.
Proof.
  induction 1 as [|neg ds u w r z N A NU U R W _ IH|neg ds r z N A R _ IH|r z N _ IH|c r z P _ IH]; intros k L.
  - destruct k; reflexivity.
  - pose proof (token_count neg ds u r N A NU U R) as T.
    destruct (sign_text neg ++ ds ++ u ++ r) as [|c t] eqn:E; [destruct neg; [discriminate|destruct ds; [congruence|discriminate]]|].
    destruct k as [|k]; [cbn in L; lia|]. rewrite chunks_step, T. apply chunk_worth in W. rewrite W. f_equal. apply IH.
    assert (Q : (String.length (String c t) >= S (String.length r))%nat).
    { rewrite <- E, !len_app. destruct u; [congruence|]. cbn. lia. }
    lia.
  - destruct neg; [|exact (chunks_bare ds r z R IH A k L)]. cbn [sign_text append] in L. destruct k as [|k]; [cbn in L; lia|].
    change (sign_text true ++ ds ++ r) with (String "-" (ds ++ r)). rewrite chunks_step.
    change (String "-" (ds ++ r)) with (sign_text true ++ ds ++ r). rewrite token_bare_minus by assumption.
    apply chunks_bare with (z := z); [assumption..|cbn in L; lia].
  - cbn [append] in L. destruct k as [|k]; [cbn in L; lia|]. change ("-" ++ r) with (String "-" r). rewrite chunks_step.
    change (String "-" r) with ("-" ++ r). rewrite token_minus by exact N. apply IH. cbn in L. lia.
  - destruct k as [|k]; [cbn in L; lia|]. rewrite chunks_step, token_other by exact P. apply IH. cbn in L. lia.
Qed.

Lemma adds_up_total s : exists z, adds_up s z.
Proof.
  assert (H : forall n s, (String.length s <= n)%nat -> exists z, adds_up s z).
  2: { apply (H (String.length s) s). lia. }
  clear s. induction n as [|n IH]; intros s L; [destruct s; [exists 0; constructor|cbn in L; lia]|].
  assert (NUM : forall neg ds r, (String.length (ds ++ r) <= S n)%nat -> ds <> "" -> all_in numerals ds -> next_is (fun c => is_digit c = false) r ->
    exists z, adds_up (sign_text neg ++ ds ++ r) z).
  { intros neg ds r Lr N A R. destruct (span_split is_other r) as (u & q & E & U & Q). subst r. rewrite !len_app in Lr.
    destruct ds as [|d ds]; [congruence|]. cbn [String.length] in Lr. destruct (IH q) as [z Z]; [lia|].
    destruct u as [|c u].
    - exists z. apply (au_bare neg (String d ds) q); [exact N|exact A| |exact Z]. destruct q as [|c q]; [exact Logic.I|]. cbn in *.
      unfold is_other in Q. rewrite R, andb_true_r in Q. apply negb_false_iff, Ascii.eqb_eq in Q. congruence.
    - eexists. apply (au_count neg (String d ds) (String c u)); [exact N|exact A|discriminate|apply others_in, U| |apply chunk_worth; reflexivity|exact Z].
      destruct q as [|e q]; [exact Logic.I|]. cbn in *. apply other_not, Q. }
  destruct s as [|c t]; [exists 0; constructor|]. destruct (Ascii.eqb_spec c "-") as [->|M].
  - destruct (span_split is_digit t) as (ds & r & E & A & R). destruct ds as [|d ds].
    + cbn [append] in E. subst r. destruct (IH t) as [z Z]; [cbn in L; lia|]. exists z. change (String "-" t) with ("-" ++ t). apply au_minus; [|exact Z].
      destruct t as [|e t]; [exact Logic.I|]. cbn in *. apply digit_not, R.
    + destruct (NUM true (String d ds) r) as [z Z]; [rewrite <- E; cbn in L; lia|discriminate|apply digits_in, A|exact R|].
      exists z. rewrite E. exact Z.
  - destruct (is_digit c) eqn:D.
    + destruct (span_split is_digit (String c t)) as (ds & r & E & A & R). destruct ds as [|d ds]; [cbn [append] in E; subst r; cbn in R; congruence|].
      destruct (NUM false (String d ds) r) as [z Z]; [rewrite <- E; exact L|discriminate|apply digits_in, A|exact R|].
      exists z. rewrite E. exact Z.
    + destruct (IH t) as [z Z]; [cbn in L; lia|]. exists z. apply au_other; [|exact Z]. split; [exact M|apply digit_not, D].
Qed.
Lemma chunks_exact s z : chunks (String.length s) s = z <-> adds_up s z.
Proof.
  split; [|intro A; apply (adds_chunks s z A); lia]. intros <-. destruct (adds_up_total s) as [z A].
  rewrite (adds_chunks s z A) by lia. exact A.
Qed.

(** ** C147 *)
Lemma no_white_blank s t : no_white s = t <-> without_blanks s t.
Proof.
  assert (H : list_ascii_of_string (no_white s) = filter (fun c => negb (existsb (Ascii.eqb c) blanks)) (list_ascii_of_string s)).
  { induction s as [|c s IH]; [reflexivity|]. cbn [no_white list_ascii_of_string filter].
    assert (W : existsb (Ascii.eqb c) blanks = white c).
    { apply eq_true_iff_eq. rewrite existsb_exists, white_blank. split.
      - intros (x & X & E). apply Ascii.eqb_eq in E. subst x. exact X.
      - intro X. exists c. split; [exact X|apply Ascii.eqb_refl]. }
    rewrite W. destruct (white c); cbn [negb]; [exact IH|]. cbn [list_ascii_of_string]. f_equal. exact IH. }
  unfold without_blanks. rewrite <- H. split; [intros <-; reflexivity|]. intro E.
  rewrite <- (string_of_list_ascii_of_string (no_white s)), <- E. apply string_of_list_ascii_of_string.
Qed.
Lemma numeral_signed t z : numeral_text t z <-> exists neg ds, ds <> "" /\ all_in numerals ds /\ t = sign_text neg ++ ds /\ z = signed neg (year_number ds).
Proof.
  split.
  - intros (ds & N & A & [[-> ->]|[-> ->]]); [exists false, ds|exists true, ds]; auto.
  - intros ([|] & ds & N & A & -> & ->); exists ds; auto.
Qed.
Lemma whole_numeral t z : numeral_text t z -> whole t = z /\ adds_up t 0.
Proof.
  rewrite numeral_signed. intros (neg & ds & N & A & -> & ->). split.
  - unfold whole. rewrite <- (string_app_nil ds). rewrite minus_taken by assumption.
    rewrite (span_app is_digit ds ""); [|apply digits_in, A|exact Logic.I]. rewrite string_app_nil, int_of_digits by exact A. destruct ds; [congruence|reflexivity].
  - rewrite <- (string_app_nil ds). apply au_bare; [exact N|exact A|exact Logic.I|constructor].
Qed.
Lemma whole_none t : (forall y, ~ numeral_text t y) -> whole t = 0.
Proof.
  intro H. unfold whole. destruct (take_minus t) as [neg s1] eqn:M. destruct (span_split is_digit s1) as (ds & r & E & A & R).
  assert (T : t = sign_text neg ++ s1).
  { unfold take_minus in M. destruct t as [|c t]; [injection M as <- <-; reflexivity|]. destruct (Ascii.eqb_spec c "-") as [->|_]; injection M as <- <-; reflexivity. }
  subst s1. rewrite span_app by assumption. destruct ds as [|c ds]; [reflexivity|]. destruct r; [|reflexivity]. exfalso.
  apply (H (signed neg (year_number (String c ds)))). apply numeral_signed. exists neg, (String c ds). rewrite string_app_nil in T.
  split; [discriminate|]. split; [apply digits_in, A|]. auto.
Qed.
Lemma numeral_dec t : (exists y, numeral_text t y) \/ (forall y, ~ numeral_text t y).
Proof.
  destruct (py_int t) as [z|e] eqn:P; [left; exists z; apply py_int_numeral, P|]. right. intros y Y. apply py_int_numeral in Y. congruence.
Qed.

Theorem durations_are_read_exactly : forall s z, text_total s = z <-> milliseconds_of s z.
Proof.
  intros s z. unfold text_total, milliseconds_of. set (t := no_white s). assert (B : without_blanks s t) by (apply no_white_blank; reflexivity).
  assert (U : forall t', without_blanks s t' -> t' = t) by (intros t' T; apply no_white_blank in T; symmetry; exact T).
  destruct (numeral_dec t) as [[y Y]|NO].
  - destruct (whole_numeral t y Y) as [W A]. apply chunks_exact in A. rewrite W, A, Z.add_0_r. split.
    + intros <-. exists t. auto.
    + intros (t' & B' & [N|[N _]]); rewrite (U t' B') in N; [apply whole_numeral in N; destruct N; congruence|destruct (N y Y)].
  - rewrite (whole_none t NO), Z.add_0_l, chunks_exact. split.
    + intro A. exists t. auto.
    + intros (t' & B' & [N|[_ A]]); rewrite (U t' B') in *; [destruct (NO z N)|exact A].
Qed.
Print Assumptions durations_are_read_exactly.

Lemma neg_total m : ms_total (neg_ms m) = - ms_total m.
Proof. unfold ms_total, neg_ms. cbn [days hours minutes seconds millis]. lia. Qed.
Lemma total_of_Z z : - (2 * 10 ^ 27) < z < 2 * 10 ^ 27 -> ms_total (parse_ms_Z z) = z.
Proof.
  intro B. unfold parse_ms_Z. destruct (Z.ltb_spec z 0) as [L|L].
  - rewrite neg_total. destruct (durations_decompose (- z) 1) as (_ & _ & ->); [lia..|]. rewrite Z.div_1_r. lia.
  - destruct (durations_decompose z 1) as (_ & _ & ->); [lia..|]. apply Z.div_1_r.
Qed.

(** the duration that is used; no text is no time *)
Theorem durations_of_texts :
  (forall s z, milliseconds_of s z -> - (2 * 10 ^ 27) < z < 2 * 10 ^ 27 ->
     ms_total (parse_ms_str (Some s)) = z /\ (sec (parse_ms_str (Some s)) == z # 1000)%Q) /\
  ms_total (parse_ms_str None) = 0.
Proof.
  split; [|vm_compute; reflexivity]. intros s z M B. apply durations_are_read_exactly in M. unfold sec, parse_ms_str. rewrite M, total_of_Z by exact B.
  split; [reflexivity|]. rewrite (Qmake_Qdiv z 1000). reflexivity.
Qed.
Print Assumptions durations_of_texts.

(** spaces do not matter, days to milliseconds add up with their signs; "1.5s" is five seconds,
    a number at the end without a unit and units of other names do not count *)
Example durations_read_example :
  map text_total ["1d 2h 3m 4s 5ms"; "1 h -30m"; " -2 500 "; "30"; "1.5s"; "1h30"; "2 hours"; "5-3s"; "--3s"; "s"; ""] =
  [93784005; 1800000; -2500; 30; 5000; 3600000; 0; -3000; -3000; 0; 0] /\
  milliseconds_of "1.5s" 5000 /\ sec (parse_ms_str (Some "30s")) = (30000 # 1000)%Q.
Proof. split; [vm_compute; reflexivity|]. split; [apply durations_are_read_exactly; vm_compute; reflexivity|vm_compute; reflexivity]. Qed.

(** the testbed's [--min]: audits that took less than it are run; given without a value, none is *)
Theorem min_option_chooses :
  (forall s z code rows k, milliseconds_of s z -> - (2 * 10 ^ 27) < z < 2 * 10 ^ 27 ->
     (In k (chosen (sec (parse_ms_str (Some s))) code rows) <->
      exists o, In (k, o) rows /\ (o_duration o * 1000 < inject_Z z)%Q /\ (forall c, code = Some c -> tk_code k = c))) /\
  (forall code rows, (forall k o, In (k, o) rows -> 0 <= o_duration o)%Q -> chosen (sec (parse_ms_str None)) code rows = []).
Proof.
  split.
  - intros s z code rows k M B. destruct (proj1 durations_of_texts s z M B) as [_ E]. unfold chosen. rewrite in_map_iff. split.
    + intros ((k', o) & K & F). cbn [fst] in K. subst k'. apply filter_In in F. destruct F as [I F]. cbn [fst snd] in F. apply andb_prop in F. destruct F as [L C].
      exists o. split; [exact I|]. split.
      * apply negb_true_iff in L. apply Qnot_le_lt. intro H. assert (T : Qle_bool (sec (parse_ms_str (Some s))) (o_duration o) = true); [|congruence].
        apply Qle_bool_iff. rewrite E. apply (Qmult_le_r _ _ 1000); [reflexivity|]. refine (Qle_trans _ _ _ _ H). rewrite (Qmake_Qdiv z 1000). apply Qle_lteq. right. field.
      * intros c ->. apply String.eqb_eq, C.
    + intros (o & I & L & C). exists (k, o). split; [reflexivity|]. apply filter_In. split; [exact I|]. cbn [fst snd]. apply andb_true_iff. split.
      * apply negb_true_iff, not_true_is_false. intro H. apply Qle_bool_iff in H. rewrite E in H. apply (Qmult_le_r _ _ 1000) in H; [|reflexivity].
        apply (Qlt_not_le _ _ L). refine (Qle_trans _ _ _ _ H). rewrite (Qmake_Qdiv z 1000). apply Qle_lteq. right. field.
      * destruct code as [c|]; [|reflexivity]. apply String.eqb_eq, C. reflexivity.
  - intros code rows P. unfold chosen. assert (F : filter (fun r : tkey * outcome => negb (Qle_bool (sec (parse_ms_str None)) (o_duration (snd r))) &&
      match code with Some c => tk_code (fst r) =? c | None => true end) rows = []); [|rewrite F; reflexivity].
    induction rows as [|[k o] rows IH]; [reflexivity|]. cbn [filter fst snd].
    assert (L : Qle_bool (sec (parse_ms_str None)) (o_duration o) = true) by (apply Qle_bool_iff; assert (Z0 : (sec (parse_ms_str None) == 0)%Q) by (vm_compute; reflexivity); rewrite Z0; exact (P k o (or_introl eq_refl))).
    rewrite L. cbn [negb andb]. apply IH. intros k' o' I. apply (P k' o'). right. exact I.
Qed.
Print Assumptions min_option_chooses.

(** ** C148: durations that were written *)
(** counts with their units, with a space between *)
Definition written (l : list (Z * string)) : string := String.concat " " (map (fun p => str_of_Z (fst p) ++ snd p) l).
Definition unit_text (u : string) : Prop := u <> "" /\ all_apart u /\ no_blank u.
Fixpoint sum_products (l : list (Z * string)) (ws : list Z) : Z :=
  match l, ws with (z, _) :: l, w :: ws => z * w + sum_products l ws | _, _ => 0 end.

Lemma numerals_digits ds z : digits_val ds z <> None -> all_in numerals ds.
Proof.
  revert z. induction ds as [|c ds IH]; intros z H; [intros ? []|]. cbn [digits_val] in H. apply all_in_cons. destruct (digit_val c) as [d|] eqn:D; [|congruence].
  split; [apply digit_iff; unfold is_digit; rewrite D; reflexivity|eapply IH; exact H].
Qed.
Lemma str_signed z : exists neg ds, ds <> "" /\ all_in numerals ds /\ str_of_Z z = sign_text neg ++ ds /\ z = signed neg (year_number ds).
Proof.
  assert (P : forall y, 0 <= y -> str_of_Z y <> "" /\ all_in numerals (str_of_Z y) /\ year_number (str_of_Z y) = y).
  { intros y Y. destruct (str_of_Z_digits y Y) as [D N]. split; [exact N|]. assert (A : all_in numerals (str_of_Z y)) by (apply (numerals_digits _ 0); congruence).
    split; [exact A|]. rewrite digits_number in D by exact A. injection D as D. exact D. }
  destruct (Z.ltb_spec z 0) as [L|L].
  - exists true, (str_of_Z (- z)). destruct (P (- z)) as (N & A & E); [lia|]. split; [exact N|]. split; [exact A|]. split; [|cbn [signed]; lia].
    unfold str_of_Z. destruct (Z.ltb_spec z 0); [|lia]. destruct (Z.ltb_spec (- z) 0); [lia|]. reflexivity.
  - exists false, (str_of_Z z). destruct (P z) as (N & A & E); [lia|]. cbn [signed]. auto.
Qed.
Lemma no_white_app a b : no_white (a ++ b) = no_white a ++ no_white b.
Proof. induction a as [|c a IH]; [reflexivity|]. change (String c a ++ b) with (String c (a ++ b)). cbn [no_white]. rewrite IH. destruct (white c); reflexivity. Qed.
Lemma no_white_self a : no_blank a -> no_white a = a.
Proof.
  induction a as [|c a IH]; intro N; [reflexivity|]. cbn [no_white]. assert (W : white c = false) by (apply not_white, N; left; reflexivity).
  rewrite W, IH; [reflexivity|]. intros d D. apply N. right. exact D.
Qed.
Lemma numeral_no_blank c : In c numerals -> ~ In c blanks.
Proof. intro H. apply not_white. cbn in H. repeat (destruct H as [<-|H]; [reflexivity|]). destruct H. Qed.
Lemma str_no_blank z : no_blank (str_of_Z z).
Proof.
  destruct (str_signed z) as (neg & ds & _ & A & -> & _). assert (D : no_blank ds) by (intros c I; apply numeral_no_blank, A, I).
  destruct neg; [|exact D]. intros c [<-|I]; [apply not_white; reflexivity|apply D, I].
Qed.
Definition pieces (l : list (Z * string)) : string := String.concat "" (map (fun p => str_of_Z (fst p) ++ snd p) l).
Lemma concat_cons sep a l : l <> [] -> String.concat sep (a :: l) = a ++ sep ++ String.concat sep l.
Proof. destruct l; [congruence|reflexivity]. Qed.
Lemma pieces_cons z u l : pieces ((z, u) :: l) = str_of_Z z ++ u ++ pieces l.
Proof.
  unfold pieces. cbn [map fst snd]. destruct l as [|q l]; [cbn; rewrite !string_app_nil; reflexivity|]. rewrite concat_cons by discriminate. cbn [append]. apply app_assoc_s.
Qed.
Lemma written_cleaned l : Forall (fun p => unit_text (snd p)) l -> no_white (written l) = pieces l.
Proof.
  induction 1 as [|[z u] l (_ & _ & B) _ IH]; [reflexivity|]. rewrite pieces_cons. cbn [snd] in B. unfold written in *. cbn [map fst snd].
  destruct l as [|q l].
  - cbn [map String.concat]. rewrite no_white_app, (no_white_self u B), (no_white_self _ (str_no_blank z)). cbn. rewrite string_app_nil. reflexivity.
  - rewrite concat_cons by discriminate. rewrite !no_white_app, IH, (no_white_self u B), (no_white_self _ (str_no_blank z)). change (no_white " ") with "". cbn [append]. apply app_assoc_s.
Qed.
Lemma pieces_next l : Forall (fun p => unit_text (snd p)) l -> next_is (fun c => ~ apart c) (pieces l).
Proof.
  destruct l as [|[z u] l]; intros _; [exact Logic.I|]. rewrite pieces_cons. destruct (str_signed z) as (neg & ds & N & A & -> & _).
  destruct neg; [cbn; intros [H _]; congruence|]. destruct ds as [|c ds]; [congruence|]. cbn. intros [_ H]. apply H, A. left. reflexivity.
Qed.
Lemma pieces_add l ws : Forall (fun p => unit_text (snd p)) l -> Forall2 (fun p w => unit_worth (snd p) w) l ws -> adds_up (pieces l) (sum_products l ws).
Proof.
  intros U F. induction F as [|[z u] w l ws W F IH]; [constructor|]. inversion U as [|? ? (NU & AU & _) U']; subst. cbn [snd] in *. rewrite pieces_cons.
  cbn [sum_products]. pose proof (pieces_next l U') as NX. destruct (str_signed z) as (neg & ds & N & A & -> & ->).
  rewrite app_assoc_s. apply au_count; auto.
Qed.
Lemma pieces_whole l : Forall (fun p => unit_text (snd p)) l -> whole (pieces l) = 0.
Proof.
  destruct l as [|[z u] l]; intro U; [reflexivity|]. rewrite pieces_cons. inversion U as [|? ? (NU & AU & _) U']; subst. cbn [snd] in *.
  destruct (str_signed z) as (neg & ds & N & A & -> & _). rewrite app_assoc_s. unfold whole. rewrite minus_taken by assumption.
  destruct u as [|c u]; [congruence|]. rewrite span_app.
  - destruct ds; reflexivity.
  - apply digits_in, A.
  - cbn. apply digit_not. apply (AU c). left. reflexivity.
Qed.
(** counts with units add up, whatever the order and the signs *)
Theorem written_counts_add_up :
  forall l ws, Forall (fun p => unit_text (snd p)) l -> Forall2 (fun p w => unit_worth (snd p) w) l ws ->
  text_total (written l) = sum_products l ws.
Proof.
  intros l ws U F. unfold text_total. rewrite written_cleaned by exact U. rewrite pieces_whole by exact U. rewrite Z.add_0_l.
  apply chunks_exact, pieces_add; assumption.
Qed.
Print Assumptions written_counts_add_up.

Definition unit_words : list string := ["y"; "d"; "h"; "m"; "s"; "ms"; "us"; "ns"].
Lemma unit_words_texts u : In u unit_words -> unit_text u.
Proof.
  intro H. assert (E : forallb (fun u => negb (u =? "") && forallb (fun c => is_other c && negb (white c)) (list_ascii_of_string u)) unit_words = true) by reflexivity.
  rewrite forallb_forall in E. apply E in H. apply andb_prop in H. destruct H as [N F]. rewrite forallb_forall in F.
  split; [apply negb_true_iff, String.eqb_neq in N; exact N|]. split; intros c I; apply F, andb_prop in I; destruct I as [O W].
  - apply other_iff, O.
  - apply not_white, negb_true_iff, W.
Qed.
Lemma worth_sum l ws : Forall2 (fun p w => unit_worth (snd p) w) l ws -> sum_products l ws = fold_right (fun p t => fst p * chunk (snd p) + t) 0 l.
Proof. induction 1 as [|[z u] w l ws W F IH]; [reflexivity|]. cbn [sum_products fold_right fst snd]. apply chunk_worth in W. cbn [snd] in W. rewrite W, IH. reflexivity. Qed.
Lemma worths l : exists ws, Forall2 (fun p : Z * string => fun w => unit_worth (snd p) w) l ws.
Proof. induction l as [|p l [ws F]]; [exists []; constructor|]. exists (chunk (snd p) :: ws). constructor; [apply chunk_worth; reflexivity|exact F]. Qed.

Lemma drop_zeros l : fold_right (fun p t => fst p * chunk (snd p) + t) 0 (filter (fun p => negb (fst p =? 0)%Z) l) =
  fold_right (fun p t => fst p * chunk (snd p) + t) 0 l.
Proof.
  induction l as [|[z u] l IH]; [reflexivity|]. cbn [filter fst]. destruct (Z.eqb_spec z 0) as [->|N]; cbn [negb fold_right fst snd]; rewrite IH; reflexivity.
Qed.

(** What is written with milliseconds and below, in short words, is read back up to whole years:
    there is no unit for years. What is less than a millisecond is dropped. *)
Theorem written_durations_are_read_back :
  forall st n d, sub_ms st = true -> verbose st = false -> compact st = false -> unit_count st = None -> (1 <= sec_digits st)%nat ->
  0 <= n -> 0 < d -> n < 2 * 10 ^ 27 ->
  milliseconds_of (pretty_ms st n d) (n / d mod (365 * 24 * 60 * 60 * 1000)).
Proof.
  intros st n d SUB VB CP UC SD N D B. destruct (durations_in_words st n d SUB VB CP UC SD N D B) as (vs & C & ->).
  apply durations_are_read_exactly.
  set (l := map (fun x : (string * Z) * Z => (snd x, fst (fst x))) (combine units vs)).
  set (l' := filter (fun p : Z * string => negb (fst p =? 0)%Z) l).
  assert (E : shown units vs = map (fun p : Z * string => str_of_Z (fst p) ++ snd p) l').
  { unfold shown, l', l. generalize (combine units vs) as q. induction q as [|[[u w] v] q IH]; [reflexivity|]. cbn [filter map fst snd].
    destruct (v =? 0)%Z; cbn [negb]; [exact IH|]. cbn [map fst snd]. f_equal. exact IH. }
  assert (U : Forall (fun p => unit_text (snd p)) l').
  { apply Forall_forall. intros p P. apply filter_In in P. destruct P as [P _]. unfold l in P. apply in_map_iff in P. destruct P as ([[u w] v] & <- & P).
    cbn [fst snd]. apply in_combine_l in P. apply unit_words_texts. unfold units in P. cbn [In] in P.
    unfold unit_words. cbn [In]. repeat (destruct P as [P|P]; [injection P as <- _; auto 12|]). destruct P. }
  assert (T : text_total (match shown units vs with [] => "ms" | q => String.concat " " q end) = text_total (written l')).
  { rewrite E. unfold written. destruct l'; reflexivity. }
  rewrite T. destruct (worths l') as [ws F]. rewrite (written_counts_add_up l' ws U F), (worth_sum l' ws F). unfold l'. rewrite drop_zeros. unfold l.
  assert (LEN : exists y dd h m s ms us ns, vs = [y; dd; h; m; s; ms; us; ns]%Z).
  { clear -C. unfold units in C. destruct vs as [|y [|dd [|h [|m [|s [|ms [|us [|ns [|x vs]]]]]]]]]; cbn [counts] in C; try tauto. eauto 12. }
  destruct LEN as (y & dd & h & m & s & ms & us & ns & ->). unfold units. cbn [combine map fst snd fold_right].
  change (chunk "y") with 0. change (chunk "d") with 86400000. change (chunk "h") with 3600000. change (chunk "m") with 60000. change (chunk "s") with 1000.
  change (chunk "ms") with 1. change (chunk "us") with 0. change (chunk "ns") with 0.
  unfold units in C. cbn [counts] in C. destruct C as (C1 & R1 & C2 & R2 & C3 & R3 & C4 & R4 & C5 & R5 & C6 & R6 & C7 & R7 & C8 & R8 & Z0).
  assert (DIV : n / d = 1000000 * n / d / 1000000).
  { rewrite Z.div_div by lia. replace (d * 1000000) with (1000000 * d) by lia. rewrite Z.div_mul_cancel_l by lia. reflexivity. }
  rewrite DIV. set (t := 1000000 * n / d) in *. clearbody t.
  assert (Q : t / 1000000 = y * (365 * 24 * 60 * 60 * 1000) + (dd * 86400000 + h * 3600000 + m * 60000 + s * 1000 + ms)).
  { symmetry. apply (Z.div_unique t 1000000 _ (us * 1000 + ns)); [left; lia|lia]. }
  rewrite Q. symmetry. rewrite Z.add_comm, Z.mod_add by lia. rewrite Z.mod_small by lia. lia.
Qed.
Print Assumptions written_durations_are_read_back.

(** not in other styles: a fraction of a second, long words *)
Theorem all_written_durations_are_read_back_refuted :
  (exists n, n < 365 * 24 * 60 * 60 * 1000 /\ pretty_ms default_style n 1 = "1.5s" /\ n = 1500 /\ milliseconds_of (pretty_ms default_style n 1) 5000) /\
  (exists st, sub_ms st = true /\ compact st = false /\ unit_count st = None /\ verbose st = true /\ pretty_ms st 1000 1 = "1 second" /\ milliseconds_of (pretty_ms st 1000 1) 0).
Proof.
  split.
  - exists 1500. repeat split; try (vm_compute; reflexivity). apply durations_are_read_exactly. vm_compute. reflexivity.
  - exists (mkStyle None false true 1 false true). repeat split; try (vm_compute; reflexivity). apply durations_are_read_exactly. vm_compute. reflexivity.
Qed.
Print Assumptions all_written_durations_are_read_back_refuted.

Example read_back_example :
  let st := mkStyle None false false 1 false true in
  pretty_ms st 93784005 1 = "1d 2h 3m 4s 5ms" /\ text_total (pretty_ms st 93784005 1) = 93784005 /\
  pretty_ms st 31536000001 1 = "1y 1ms" /\ text_total (pretty_ms st 31536000001 1) = 1.
Proof. vm_compute. repeat split. Qed.
