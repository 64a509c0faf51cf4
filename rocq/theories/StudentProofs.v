From Coq Require Import List Bool Arith ZArith QArith String Ascii Permutation Sorting.Sorted Lia.
From Verif Require Import Prelude Dec ListFacts StrFacts Claims ClaimsProofs Course Exceptions Context Predicate Transcript Paths Loader Label LabelSpec LabelProofs
  AreaLoadProofs StudentLoad StudentSpec.
Import ListNotations.
Local Open Scope string_scope.

(** ** Numbers *)
Lemma digit_val_in c z : digit_val c = Some z -> In c numerals.
Proof. intro H. apply in_chars. unfold digit_val in H. destruct c as [[] [] [] [] [] [] [] []]; vm_compute in H |- *; try discriminate; reflexivity. Qed.
Lemma digits_in s : forall a z, digits_val s a = Some z -> all_in numerals s.
Proof.
  induction s as [|c s IH]; intros a z H; [intros x []|]. cbn [digits_val] in H. destruct (digit_val c) eqn:D; [|discriminate].
  intros x [<-|I]; [eapply digit_val_in; eauto|]. eapply IH; eauto.
Qed.
Lemma py_int_numeral s z : py_int s = Ok z <-> numeral_text s z.
Proof.
  split.
  - intro H. destruct s as [|c s]; [discriminate|]. unfold py_int in H. destruct (Ascii.eqb c "-") eqn:E.
    + apply Ascii.eqb_eq in E. subst c. destruct s as [|d s]; [discriminate|]. destruct (digits_val (String d s) 0) eqn:D; [|discriminate]. injection H as <-.
      pose proof (digits_in _ _ _ D) as A. rewrite digits_number in D by exact A. injection D as <-.
      exists (String d s). split; [discriminate|]. split; [exact A|]. right. split; reflexivity.
    + destruct (digits_val (String c s) 0) eqn:D; [|discriminate]. injection H as <-.
      pose proof (digits_in _ _ _ D) as A. rewrite digits_number in D by exact A. injection D as <-.
      exists (String c s). split; [discriminate|]. split; [exact A|]. left. split; reflexivity.
  - intros (ds & N & A & [[-> ->]|[-> ->]]).
    + apply digits_py_int; [|exact N]. apply digits_number. exact A.
    + destruct ds as [|d ds]; [contradiction|]. cbn [append]. unfold py_int. rewrite Ascii.eqb_refl. rewrite digits_number by exact A. reflexivity.
Qed.
Lemma py_int_fails s e : py_int s = Err e -> e = ValueErr.
Proof.
  destruct s as [|c s]; [intro H; injection H; auto|]. unfold py_int. destruct (Ascii.eqb c "-").
  - destruct s as [|d s]; [intro H; injection H; auto|]. destruct (digits_val _ _); intro H; [discriminate|injection H; auto].
  - destruct (digits_val _ _); intro H; [discriminate|injection H; auto].
Qed.
Lemma int_number v z : int_of v = Ok z <-> number_of v z.
Proof.
  destruct v as [|b|x|s]; cbn [int_of]; split; intro H; try discriminate; try (inversion H; fail).
  - destruct b; injection H as <-; constructor.
  - inversion H; reflexivity.
  - injection H as <-. constructor.
  - inversion H; reflexivity.
  - constructor. apply py_int_numeral. exact H.
  - inversion H; subst. apply py_int_numeral. assumption.
Qed.
Lemma falsy_nothing v : falsy v = true <-> nothing v.
Proof.
  destruct v as [|[]|x|s]; cbn [falsy negb]; split; intro H; try discriminate; try constructor; try (inversion H; fail).
  - apply Z.eqb_eq in H. subst. constructor.
  - inversion H. reflexivity.
  - apply String.eqb_eq in H. subst. constructor.
  - inversion H. reflexivity.
Qed.
Lemma matriculation_exact o z : matriculation_of o = Ok z <-> matriculation_is o z.
Proof.
  destruct o as [v|]; cbn [matriculation_of].
  - pose proof (falsy_nothing v) as F. destruct (falsy v).
    + split; [intro H; injection H as <-; apply mi_nothing, F; reflexivity|]. intro H. inversion H; subst; [reflexivity|]. exfalso. tauto.
    + assert (N : ~ nothing v) by (intro X; apply F in X; discriminate). rewrite int_number. split; [apply mi_number; exact N|]. intro H. inversion H; subst; [contradiction|assumption].
  - split; [intro H; injection H as <-; constructor|]. intro H. inversion H. reflexivity.
Qed.
Lemma curriculum_exact o z : curriculum_of o = Ok z <-> curriculum_is o z.
Proof.
  unfold curriculum_of. destruct o as [v|]; cbn [get].
  - destruct v as [|b|x|s]; try (rewrite int_number; split; [apply ci_number|]; intro H; inversion H; subst; assumption).
    destruct (s =? "None") eqn:E.
    + apply String.eqb_eq in E. subst s. split; [intro H; vm_compute in H; injection H as <-; constructor|]. intro H. inversion H; subst; [reflexivity|]. exfalso.
      match goal with X : number_of _ _ |- _ => apply int_number in X; vm_compute in X; discriminate X end.
    + rewrite int_number. split; [apply ci_number|]. intro H. inversion H; subst; [discriminate E|assumption].
  - split; [intro H; vm_compute in H; injection H as <-; constructor|]. intro H. inversion H. reflexivity.
Qed.
Lemma catalog_exact o z : catalog_of o = Ok z <-> catalog_is o z.
Proof.
  unfold catalog_of. destruct o as [v|]; cbn [get]; [|split; [intro H; injection H as <-; constructor|intro H; inversion H; reflexivity]].
  destruct v as [|b|x|s]; cbn [int_of].
  - split; [discriminate|]. intro H. inversion H; subst. inversion H1.
  - split; [intro H; apply ca_number, int_number; exact H|]. intro H. inversion H; subst. apply int_number in H1. exact H1.
  - split; [intro H; apply ca_number, int_number; exact H|]. intro H. inversion H; subst. apply int_number in H1. exact H1.
  - destruct (py_int s) as [y|e] eqn:P.
    + split; [intro H; injection H as <-; apply ca_number; constructor; apply py_int_numeral; exact P|].
      intro H. inversion H; subst.
      * apply int_number in H1. cbn [int_of] in H1. congruence.
      * exfalso. apply (H1 y), py_int_numeral, P.
    + rewrite (py_int_fails _ _ P) in *. split.
      * intro H. injection H as <-. apply ca_text. intros x X. apply py_int_numeral in X. congruence.
      * intro H. inversion H; subst; [|reflexivity]. apply int_number in H1. cbn [int_of] in H1. congruence.
Qed.
(** what fails *)
Lemma matriculation_ok o : (exists z, matriculation_of o = Ok z) \/ (exists e, matriculation_of o = Err e).
Proof. destruct (matriculation_of o); eauto. Qed.

(** ** Areas, performances, recitals, proficiencies *)
Lemma decimal_amount v d : decimal_of v = Ok d <-> amount v d.
Proof.
  destruct v as [|[]|x|s]; cbn [decimal_of]; split; intro H; try discriminate; try (inversion H; subst; try reflexivity; try assumption; fail); try (injection H as <-; constructor); try (constructor; exact H).
Qed.
Lemma status_exact s x : area_status_of s = Ok x <-> status_code s x.
Proof.
  unfold area_status_of, of_table. cbn [find fst]. split.
  - repeat (match goal with |- context [if ?a =? s then _ else _] => destruct (String.eqb_spec a s); [subst; intro H; injection H as <-; constructor|] end). discriminate.
  - intro H. destruct H; reflexivity.
Qed.
Lemma kind_exact s x : area_kind_of s = Ok x <-> kind_code s x.
Proof.
  unfold area_kind_of, of_table. cbn [find fst]. split.
  - repeat (match goal with |- context [if ?a =? s then _ else _] => destruct (String.eqb_spec a s); [subst; intro H; injection H as <-; constructor|] end). discriminate.
  - intro H. destruct H; reflexivity.
Qed.
Lemma key_some {A} (o : option A) a : key o = Ok a <-> o = Some a.
Proof. destruct o; cbn [key]; split; intro H; try discriminate; injection H as <-; reflexivity. Qed.
Lemma bind_iff {A B} (r : res A) (f : A -> res B) b : bind r f = Ok b <-> exists a, r = Ok a /\ f a = Ok b.
Proof. destruct r as [a|e]; cbn [bind]; split; [eauto|intros (x & H & G); injection H as ->; exact G|discriminate|intros (x & H & _); discriminate]. Qed.
Lemma key_bind {A B} (o : option A) (f : A -> res B) (P : A -> B -> Prop) b : (forall a b, f a = Ok b <-> P a b) -> (bind (key o) f = Ok b <-> exists a, o = Some a /\ P a b).
Proof.
  intro E. rewrite bind_iff. split; intros (a & H & G); exists a.
  - apply key_some in H. apply E in G. auto.
  - apply key_some in H. apply E in G. auto.
Qed.
Lemma pointer_exact a p : load_pointer a = Ok p <-> pointer_of a p.
Proof.
  assert (G : forall o, match ra_gpa a with Some v => let! d := decimal_of v in Ok (Some d) | None => Ok None end = Ok o <-> if_there amount (ra_gpa a) o).
  { intro o. destruct (ra_gpa a) as [v|].
    - rewrite bind_iff. split; [intros (d & H & E); injection E as <-; constructor; apply decimal_amount; exact H|]. intro H. inversion H; subst. exists b. split; [apply decimal_amount; assumption|reflexivity].
    - split; [intro H; injection H as <-; constructor|]. intro H. inversion H. reflexivity. }
  unfold load_pointer. split.
  - intro H. apply bind_iff in H. destruct H as (c & Hc & H). apply key_some in Hc. apply bind_iff in H. destruct H as (s & Hs & H). apply (key_bind _ _ _ _ status_exact) in Hs.
    apply bind_iff in H. destruct H as (k & Hk & H). apply (key_bind _ _ _ _ kind_exact) in Hk. apply bind_iff in H. destruct H as (n & Hn & H). apply key_some in Hn.
    apply bind_iff in H. destruct H as (d & Hd & H). apply key_some in Hd. apply bind_iff in H. destruct H as (g & Hg & H). apply G in Hg. injection H as <-. constructor; auto.
  - intros [Hc Hs Hk Hn Hd Hg Ht Hm]. rewrite Hc, Hn, Hd. cbn [key bind]. apply (key_bind _ _ _ _ status_exact) in Hs. rewrite Hs. cbn [bind].
    apply (key_bind _ _ _ _ kind_exact) in Hk. rewrite Hk. cbn [bind]. apply G in Hg. rewrite Hg. cbn [bind]. rewrite Ht, Hm. destruct p; reflexivity.
Qed.
Lemma kept_exact code l m : student_areas code l = m <-> kept code l m.
Proof.
  unfold student_areas. revert m. induction l as [|a l IH]; intro m; cbn [filter].
  - split; [intros <-; constructor|]. intro H. inversion H. reflexivity.
  - destruct (negb _ || _) eqn:E.
    + assert (K : a_status a <> AsWhatIfDrop \/ a_code a = code).
      { apply orb_true_iff in E. destruct E as [E|E]; [left; intros X; rewrite X in E; discriminate|right; apply String.eqb_eq, E]. }
      split; [intros <-; apply kp_in; [exact K|]; apply IH; reflexivity|]. intro H. inversion H; subst; [f_equal; apply IH; assumption|]. destruct K; contradiction.
    + apply orb_false_iff in E. destruct E as [E F]. apply String.eqb_neq in F. assert (K : a_status a = AsWhatIfDrop) by (destruct (a_status a); try discriminate; reflexivity).
      split; [intros <-; apply kp_out; auto; apply IH; reflexivity|]. intro H. inversion H; subst; [|apply IH; assumption]. destruct H2; contradiction.
Qed.
Lemma slip_exact r s : load_slip r = Ok s <-> slip_of r s.
Proof.
  unfold load_slip. split.
  - intro H. apply bind_iff in H. destruct H as (n & Hn & H). apply key_some in Hn. apply bind_iff in H. destruct H as (i & Hi & H). apply key_some in Hi.
    apply bind_iff in H. destruct H as (y & Hy & H). apply (key_bind _ _ _ _ int_number) in Hy. apply bind_iff in H. destruct H as (t & Ht & H). apply (key_bind _ _ _ _ int_number) in Ht.
    injection H as <-. constructor; auto.
  - intros [Hn Hi Hy Ht]. rewrite Hn, Hi. cbn [key bind]. apply (key_bind _ _ _ _ int_number) in Hy. rewrite Hy. cbn [bind]. apply (key_bind _ _ _ _ int_number) in Ht. rewrite Ht. cbn [bind].
    destruct s; reflexivity.
Qed.
Lemma audition_exact o x : perf_status_of (get o "") = Ok x <-> audition o x.
Proof.
  unfold perf_status_of. destruct o as [s|]; cbn [get].
  - split.
    + destruct (String.eqb_spec s "E"); [subst; intro H; injection H as <-; constructor|]. destruct (String.eqb_spec s "C"); [subst; intro H; injection H as <-; constructor|].
      destruct (String.eqb_spec s ""); [subst; intro H; injection H as <-; constructor|]. discriminate.
    + intro H. inversion H; subst; reflexivity.
  - split; [intro H; vm_compute in H; injection H as <-; constructor|]. intro H. inversion H. reflexivity.
Qed.
Lemma perf_exact r p : load_perf r = Ok p <-> perf_of r p.
Proof.
  unfold load_perf. split.
  - intro H. apply bind_iff in H. destruct H as (s & Hs & H). apply slip_exact in Hs. apply bind_iff in H. destruct H as (t & Ht & H). apply audition_exact in Ht. injection H as <-. constructor; auto.
  - intros [Hs Hr Ht]. apply slip_exact in Hs. rewrite Hs. cbn [bind]. apply audition_exact in Ht. rewrite Ht. cbn [bind]. rewrite Hr. destruct p; reflexivity.
Qed.
Lemma under_exact {A} k (d : list (string * A)) o : under k d o <-> dget d k = o.
Proof.
  split.
  - intro U. destruct U as [l N|a v b N].
    + apply dget_None_notin. exact N.
    + induction a as [|[x y] a IH]; cbn [app dget]; [rewrite String.eqb_refl; reflexivity|].
      rewrite (String.eqb_sym k x); destruct (x =? k) eqn:E; [apply String.eqb_eq in E; subst; exfalso; apply N; left; reflexivity|]. apply IH. intro I. apply N. right. exact I.
  - intros <-. induction d as [|[x y] d IH]; cbn [dget]; [constructor; intros []|].
    rewrite (String.eqb_sym k x); destruct (x =? k) eqn:E; [apply String.eqb_eq in E; subst; apply (un_some k [] y d); intros []|]. apply String.eqb_neq in E.
    inversion IH as [l N E1 E2|a v b N E1 E2].
    + constructor. intros [X|X]; [exact (E X)|exact (N X)].
    + apply (un_some k ((x, y) :: a) v b). intros [X|X]; [exact (E X)|exact (N X)].
Qed.
Lemma proficiency_exact o p : parse_proficiency (get o (JStr "N")) = Ok p <-> proficiency_is o p.
Proof.
  destruct o as [v|]; cbn [get]; [|split; [intro H; vm_compute in H; injection H as <-; constructor|intro H; inversion H; reflexivity]].
  destruct v as [|[]|x|s]; cbn [parse_proficiency]; try (split; [intro H; try discriminate; injection H as <-; constructor|intro H; inversion H; reflexivity]).
  split.
  - destruct (String.eqb_spec s ""); [subst; intro H; injection H as <-; constructor|]. unfold of_table. cbn [find fst].
    repeat (match goal with |- context [if ?a =? s then _ else _] => destruct (String.eqb_spec a s); [subst; intro H; injection H as <-; constructor|] end). discriminate.
  - intro H. inversion H; subst; reflexivity.
Qed.
Lemma look_exact d k p : parse_proficiency (get (dget d k) (JStr "N")) = Ok p <-> under_is proficiency_is d k p.
Proof.
  rewrite proficiency_exact. unfold under_is. split.
  - intro H. exists (dget d k). split; [apply under_exact; reflexivity|exact H].
  - intros (o & U & H). apply under_exact in U. subst o. exact H.
Qed.
Lemma proficiencies_exact d p : load_proficiencies d = Ok p <-> proficiencies_are d p.
Proof.
  unfold load_proficiencies, proficiencies_are. rewrite <- !look_exact. split.
  - intro H. apply bind_iff in H. destruct H as (a & Ha & H). apply bind_iff in H. destruct H as (b & Hb & H). apply bind_iff in H. destruct H as (c & Hc & H).
    apply bind_iff in H. destruct H as (e & He & H). apply bind_iff in H. destruct H as (f & Hf & H). injection H as <-. auto.
  - intros (H1 & H2 & H3 & H4 & H5). rewrite H1, H2, H3, H4, H5. cbn [bind]. destruct p; reflexivity.
Qed.

(** ** The order *)
Lemma slip_cmp_earlier a b : slip_cmp a b = Lt <-> earlier a b.
Proof.
  unfold slip_cmp, then_cmp. split.
  - destruct (Z.compare_spec (s_year a) (s_year b)) as [Y|Y|Y]; intro H; try discriminate; [|apply ea_year; exact Y].
    destruct (Z.compare_spec (s_term a) (s_term b)) as [T|T|T]; try discriminate; [|apply ea_term; auto].
    destruct (String.compare (s_name a) (s_name b)) eqn:N; try discriminate; [|apply ea_name; auto]. apply ea_id; auto. apply str_compare_eq. exact N.
  - intros [Y|Y T|Y T N|Y T N I].
    + apply Z.compare_lt_iff in Y. rewrite Y. reflexivity.
    + rewrite Y, Z.compare_refl. apply Z.compare_lt_iff in T. rewrite T. reflexivity.
    + rewrite Y, T, !Z.compare_refl, N. reflexivity.
    + rewrite Y, T, N, !Z.compare_refl. rewrite (proj2 (str_compare_eq _ _) eq_refl), I. reflexivity.
Qed.
Lemma slip_cmp_sym a b : slip_cmp b a = CompOpp (slip_cmp a b).
Proof.
  unfold slip_cmp, then_cmp. rewrite (Z.compare_antisym (s_year a) (s_year b)). destruct (Z.compare (s_year a) (s_year b)); try reflexivity. cbn [CompOpp].
  rewrite (Z.compare_antisym (s_term a) (s_term b)). destruct (Z.compare (s_term a) (s_term b)); try reflexivity. cbn [CompOpp].
  rewrite (String.compare_antisym (s_name b) (s_name a)). destruct (String.compare (s_name a) (s_name b)); try reflexivity. cbn [CompOpp].
  apply String.compare_antisym.
Qed.
Lemma slip_cmp_eq a b : slip_cmp a b = Eq -> a = b.
Proof.
  unfold slip_cmp, then_cmp. destruct (Z.compare_spec (s_year a) (s_year b)) as [Y|Y|Y]; try discriminate. destruct (Z.compare_spec (s_term a) (s_term b)) as [T|T|T]; try discriminate.
  destruct (String.compare (s_name a) (s_name b)) eqn:N; try discriminate. intro I. apply str_compare_eq in N. apply str_compare_eq in I. destruct a as [y1 i1 t1 n1], b as [y2 i2 t2 n2]. cbn in *. congruence.
Qed.
Lemma slip_leb_earlier a b : slip_leb a b = true <-> ~ earlier b a.
Proof.
  unfold slip_leb. rewrite <- slip_cmp_earlier, (slip_cmp_sym a b). destruct (slip_cmp a b); cbn [CompOpp]; split; intro H; try discriminate; try reflexivity; try (intro; discriminate); exfalso; apply H; reflexivity.
Qed.
Lemma earlier_trans a b c : earlier a b -> earlier b c -> earlier a c.
Proof.
  intros [Y|Y T|Y T N|Y T N I] [Y'|Y' T'|Y' T' N'|Y' T' N' I'].
  all: try (apply ea_year; lia).
  all: try (apply ea_term; lia).
  - apply ea_name; [congruence|congruence|]. eapply str_lt_trans; eauto.
  - apply ea_name; [congruence|congruence|]. rewrite <- N'. exact N.
  - apply ea_name; [congruence|congruence|]. rewrite N. exact N'.
  - apply ea_id; [congruence|congruence|congruence|]. eapply str_lt_trans; eauto.
Qed.
Lemma slip_leb_total a b : slip_leb a b = true \/ slip_leb b a = true.
Proof. unfold slip_leb. rewrite (slip_cmp_sym a b). destruct (slip_cmp a b); cbn [CompOpp]; auto. Qed.
Lemma slip_leb_trans a b c : slip_leb a b = true -> slip_leb b c = true -> slip_leb a c = true.
Proof.
  rewrite !slip_leb_earlier. intros A B C. destruct (slip_cmp a b) eqn:E.
  - apply slip_cmp_eq in E. subst. contradiction.
  - apply slip_cmp_earlier in E. apply B. eapply earlier_trans; eauto.
  - apply A, slip_cmp_earlier. rewrite (slip_cmp_sym a b), E. reflexivity.
Qed.
Lemma slip_leb_antisym a b : slip_leb a b = true -> slip_leb b a = true -> a = b.
Proof. unfold slip_leb. rewrite (slip_cmp_sym a b). destruct (slip_cmp a b) eqn:E; cbn [CompOpp]; try discriminate. intros _ _. apply slip_cmp_eq. exact E. Qed.

(** ** Mediums *)
Lemma white_blank c : white c = true <-> In c blanks.
Proof.
  rewrite in_chars. assert (E : white c = existsb (Ascii.eqb c) blanks) by (destruct c as [[] [] [] [] [] [] [] []]; vm_compute; reflexivity).
  rewrite E. tauto.
Qed.
Lemma all_in_cons l c s : all_in l (String c s) <-> In c l /\ all_in l s.
Proof. unfold all_in. cbn [list_ascii_of_string In]. split; [intro H; split; auto|intros [A B] x [<-|I]; auto]. Qed.
Lemma all_in_app l a b : all_in l (a ++ b) <-> all_in l a /\ all_in l b.
Proof.
  unfold all_in. rewrite chars_app. split.
  - intro H. split; intros c I; apply H, in_app_iff; auto.
  - intros [A B] c I. apply in_app_iff in I. destruct I; auto.
Qed.
Lemma lstrip_split s : exists a, s = a ++ lstrip s /\ all_in blanks a /\ ~ starts_blank (lstrip s).
Proof.
  induction s as [|c s (a & E & A & N)]; cbn [lstrip].
  - exists "". split; [reflexivity|]. split; [intros x []|]. intros (c & t & X & _). discriminate.
  - destruct (white c) eqn:W.
    + exists (String c a). split; [rewrite app_eq; congruence|]. split; [apply all_in_cons; split; [apply white_blank; exact W|exact A]|exact N].
    + exists "". split; [reflexivity|]. split; [intros x []|]. intros (d & t & X & I). injection X as <- <-. apply white_blank in I. congruence.
Qed.
Lemma ends_cons c s : s <> "" -> ends_blank (String c s) -> ends_blank s.
Proof.
  intros N (d & t & E & I). destruct t as [|x t]; cbn [append] in E.
  - unfold one in E. injection E as _ E. contradiction.
  - injection E as _ E. exists d, t. auto.
Qed.
Lemma rstrip_split s : exists b, s = rstrip s ++ b /\ all_in blanks b /\ ~ ends_blank (rstrip s).
Proof.
  induction s as [|c s (b & E & A & N)]; cbn [rstrip].
  - exists "". split; [reflexivity|]. split; [intros x []|]. intros (c & [|d t] & X & _); discriminate.
  - destruct (rstrip s) as [|d r] eqn:R.
    + cbn [append] in E. subst b. destruct (white c) eqn:W.
      * exists (String c s). split; [reflexivity|]. split; [apply all_in_cons; split; [apply white_blank; exact W|exact A]|]. intros (x & [|y t] & X & _); discriminate.
      * exists s. split; [reflexivity|]. split; [exact A|]. intros (x & [|y t] & X & I).
        -- injection X as ->. apply white_blank in I. congruence.
        -- cbn [append] in X. injection X as _ X. destruct t; discriminate.
    + exists b. split; [rewrite E at 1; reflexivity|]. split; [exact A|]. intro X. apply N. eapply ends_cons; [|exact X]. discriminate.
Qed.
Lemma lstrip_blank a : all_in blanks a -> forall t, ~ starts_blank t -> lstrip (a ++ t) = t.
Proof.
  intros A t N. induction a as [|c a IH].
  - cbn [append]. destruct t as [|c t]; [reflexivity|]. cbn [lstrip]. destruct (white c) eqn:W; [|reflexivity]. exfalso. apply N. exists c, t. split; [reflexivity|apply white_blank; exact W].
  - apply all_in_cons in A. destruct A as [I A]. apply white_blank in I. rewrite app_eq. cbn [lstrip]. rewrite I. apply IH. exact A.
Qed.
Lemma rstrip_all b : all_in blanks b -> rstrip b = "".
Proof. induction b as [|c b IH]; [reflexivity|]. intro A. apply all_in_cons in A. destruct A as [I A]. apply white_blank in I. cbn [rstrip]. rewrite IH by exact A. rewrite I. reflexivity. Qed.
Lemma rstrip_blank t b : ~ ends_blank t -> all_in blanks b -> rstrip (t ++ b) = t.
Proof.
  induction t as [|c t IH]; intros N A; [apply rstrip_all; exact A|]. rewrite app_eq. cbn [rstrip]. destruct t as [|d t].
  - cbn [append]. rewrite rstrip_all by exact A. destruct (white c) eqn:W; [|reflexivity]. exfalso. apply N. exists c, "". split; [reflexivity|apply white_blank; exact W].
  - rewrite IH; [reflexivity| |exact A]. intros (x & u & E & I). apply N. exists x, (String c u). split; [rewrite app_eq, <- E; reflexivity|exact I].
Qed.
Lemma starts_app t b : t <> "" -> ~ starts_blank t -> ~ starts_blank (t ++ b).
Proof. intros N S (c & u & E & I). destruct t as [|d t]; [contradiction|]. cbn [append] in E. injection E as -> _. apply S. exists c, t. auto. Qed.
Lemma strip_exact s t : strip s = t <-> trimmed s t.
Proof.
  unfold strip. split.
  - intros <-. destruct (lstrip_split s) as (a & E & A & N). destruct (rstrip_split (lstrip s)) as (b & F & B & M).
    split; [|split; [exact M|exists a, b; split; [congruence|auto]]]. intros (c & u & X & I). apply N. exists c, (u ++ b). split; [|exact I]. rewrite F, X. reflexivity.
  - intros (S & N & a & b & -> & A & B). destruct t as [|c t].
    + cbn [append]. assert (L : lstrip (a ++ b) = "").
      { rewrite <- (str_nil (a ++ b)). apply lstrip_blank; [apply all_in_app; auto|]. intros (x & u & X & _). discriminate. }
      rewrite L. reflexivity.
    + rewrite lstrip_blank; [apply rstrip_blank; auto|exact A|]. apply starts_app; [discriminate|exact S].
Qed.

Definition unbroken (p : string) : Prop := forall a b, p <> a ++ ", " ++ b.
Lemma split_comma_acc s : forall acc, exists p r, split_comma s "" = p :: r /\ split_comma s acc = (acc ++ p) :: r.
Proof.
  remember (String.length s) as n eqn:L. revert s L. induction n as [n IH] using lt_wf_ind. intros s L acc. destruct s as [|c t]; [exists "", []; cbn; rewrite str_nil; auto|].
  assert (G : forall t', t' = t -> exists p r, split_comma t' ("" ++ String c "") = p :: r /\ split_comma t' (acc ++ String c "") = (acc ++ p) :: r).
  { intros t' ->. subst n. destruct (IH (String.length t) (Nat.lt_succ_diag_r _) t eq_refl ("" ++ String c "")) as (p & r & E1 & E2).
    destruct (IH (String.length t) (Nat.lt_succ_diag_r _) t eq_refl (acc ++ String c "")) as (p' & r' & E3 & E4).
    rewrite E1 in E3. injection E3 as <- <-. rewrite E2, E4. exists (("" ++ String c "") ++ p), r. split; [reflexivity|]. f_equal. rewrite <- !str_assoc. reflexivity. }
  destruct t as [|d u]; [exact (G "" eq_refl)|]. cbn [split_comma]. destruct (Ascii.eqb c "," && Ascii.eqb d " ").
  - exists "", (split_comma u ""). split; [reflexivity|]. rewrite str_nil. reflexivity.
  - exact (G (String d u) eq_refl).
Qed.
Lemma split_step c t : (forall u, String c t <> ", " ++ u) -> exists p r, split_comma t "" = p :: r /\ split_comma (String c t) "" = String c p :: r.
Proof.
  intro N. destruct (split_comma_acc t ("" ++ String c "")) as (p & r & E & F). exists p, r. split; [exact E|].
  destruct t as [|d u]; [exact F|]. cbn [split_comma]. destruct (Ascii.eqb c ",") eqn:C; cbn [andb]; [|exact F]. destruct (Ascii.eqb d " ") eqn:D; [|exact F].
  apply Ascii.eqb_eq in C, D. subst. exfalso. apply (N u). reflexivity.
Qed.
Lemma joined_cons p r : r <> [] -> joined (p :: r) = p ++ ", " ++ joined r.
Proof. destruct r; [contradiction|reflexivity]. Qed.
Lemma joined_head c p r : exists x, joined (String c p :: r) = String c x /\ joined (p :: r) = x.
Proof. destruct r as [|q r]; eexists; split; reflexivity. Qed.
Lemma split_ok s : split_comma s "" <> [] /\ joined (split_comma s "") = s /\ Forall unbroken (split_comma s "").
Proof.
  remember (String.length s) as n eqn:L. revert s L. induction n as [n IH] using lt_wf_ind. intros s L.
  destruct s as [|c t]; [split; [discriminate|]; split; [reflexivity|]; constructor; [intros [|] b; discriminate|constructor]|].
  destruct (Ascii.eqb c "," && match t with String d _ => Ascii.eqb d " " | "" => false end) eqn:B.
  - apply andb_true_iff in B. destruct B as [C D]. destruct t as [|d u]; [discriminate|]. apply Ascii.eqb_eq in C, D. subst c d. cbn [String.length] in L.
    destruct (IH (String.length u) ltac:(lia) u eq_refl) as (N & J & F). cbn [split_comma]. rewrite !Ascii.eqb_refl. cbn [andb]. split; [discriminate|]. split.
    + rewrite joined_cons by exact N. rewrite J. reflexivity.
    + constructor; [intros [|] b; discriminate|exact F].
  - cbn [String.length] in L. destruct (IH (String.length t) ltac:(lia) t eq_refl) as (N & J & F). destruct (split_step c t) as (p & r & E & E').
    { intros u X. cbn [append] in X. injection X as -> ->. discriminate B. }
    rewrite E' in *. rewrite E in *. split; [discriminate|]. destruct (joined_head c p r) as (x & X1 & X2). split; [rewrite X1; congruence|].
    inversion F as [|? ? F1 F2]; subst. constructor; [|exact F2]. intros a b X. destruct a as [|y a].
    + cbn [append] in X. injection X as -> X. cbn [Ascii.eqb] in B. rewrite X in B. destruct r; cbn in B; discriminate.
    + rewrite app_eq in X. injection X as _ X. exact (F1 _ _ X).
Qed.
Lemma split_first p rest : unbroken p -> split_comma (p ++ ", " ++ rest) "" = p :: split_comma rest "".
Proof.
  induction p as [|c p IH]; intro U; [reflexivity|]. rewrite app_eq. destruct (split_step c (p ++ ", " ++ rest)) as (q & r & E & E').
  - intros u X. cbn [append] in X. injection X as -> X. destruct p as [|d p]; [discriminate|]. cbn [append] in X. injection X as -> X. apply (U "" p). reflexivity.
  - rewrite E'. rewrite IH in E; [injection E as <- <-; reflexivity|]. intros a b ->. apply (U (String c a) b). rewrite app_eq. reflexivity.
Qed.
Lemma split_one p : unbroken p -> split_comma p "" = [p].
Proof.
  induction p as [|c p IH]; intro U; [reflexivity|]. destruct (split_step c p) as (q & r & E & E').
  - intros u X. apply (U "" u). exact X.
  - rewrite E'. rewrite IH in E; [injection E as <- <-; reflexivity|]. intros a b ->. apply (U (String c a) b). rewrite app_eq. reflexivity.
Qed.
Lemma split_joined l : l <> [] -> Forall unbroken l -> split_comma (joined l) "" = l.
Proof.
  induction l as [|p l IH]; intros N F; [contradiction|]. inversion F as [|? ? F1 F2]; subst. destruct l as [|q l]; [apply split_one; exact F1|].
  rewrite joined_cons by discriminate. rewrite split_first by exact F1. rewrite IH; [reflexivity|discriminate|exact F2].
Qed.
Lemma comma_in s : existsb (Ascii.eqb ",") (list_ascii_of_string s) = true <-> has_comma s.
Proof. unfold has_comma. rewrite in_chars. reflexivity. Qed.
Lemma map_strip l m : map strip l = m <-> Forall2 trimmed l m.
Proof.
  split.
  - intros <-. induction l; constructor; auto. apply strip_exact. reflexivity.
  - intro F. induction F; [reflexivity|]. cbn [map]. f_equal; auto. apply strip_exact. assumption.
Qed.
Lemma medium_exact s m : parse_medium s = m <-> medium_is s m.
Proof.
  unfold parse_medium. pose proof (comma_in s) as C. destruct (existsb _ _).
  - split.
    + intros <-. destruct (split_ok s) as (N & J & F). rewrite <- J at 1. apply md_more; [rewrite J; apply C; reflexivity|exact N| |apply map_strip; reflexivity].
      intros p I. exact (proj1 (Forall_forall _ _) F p I).
    + intro H. inversion H as [s' NC E1 E2|pieces parts HC N U F E1 E2]; subst; [exfalso; apply NC, C; reflexivity|].
      rewrite split_joined; [f_equal; apply map_strip; exact F|exact N|apply Forall_forall; exact U].
  - assert (NC : ~ has_comma s) by (intro X; apply C in X; discriminate). split.
    + intros <-. constructor. exact NC.
    + intro H. inversion H as [s' NC' E1 E2|pieces parts HC N U F E1 E2]; subst; [reflexivity|contradiction].
Qed.
Lemma mediums_exact d m : load_mediums d = m <-> mediums_are d m.
Proof.
  assert (K : forall k x, parse_medium (get (dget d k) "Unknown") = x <-> under_is (fun o x => medium_is (match o with Some s => s | None => "Unknown" end) x) d k x).
  { intros k x. rewrite medium_exact. unfold under_is. split.
    - intro H. exists (dget d k). split; [apply under_exact; reflexivity|]. exact H.
    - intros (o & U & H). apply under_exact in U. rewrite U. exact H. }
  unfold load_mediums, mediums_are. cbv zeta. rewrite <- !K. split.
  - intros <-. auto.
  - intros (E1 & E2 & E3 & E4). rewrite E1, E2, E3, E4. destruct m; reflexivity.
Qed.
