From Coq Require Import List Bool Arith ZArith String Ascii Lia.
From Verif Require Import Prelude Paths Claims Transcript Course Context CourseRule Loader Label LabelSpec.
Import ListNotations.
Local Open Scope string_scope.

(** ** Characters and text *)
Lemma in_chars (c : ascii) l : In c l <-> existsb (Ascii.eqb c) l = true.
Proof.
  rewrite existsb_exists. split; [intro H; exists c; split; [exact H|apply Ascii.eqb_refl]|intros (x & I & E)]. apply Ascii.eqb_eq in E. subst. exact I.
Qed.
Lemma upper_letter c : upper c = true <-> letter c.
Proof.
  unfold letter. rewrite in_chars. assert (E : upper c = existsb (Ascii.eqb c) capitals) by (destruct c as [[] [] [] [] [] [] [] []]; vm_compute; reflexivity).
  rewrite E. tauto.
Qed.
Lemma digit_numeral c : digit c = true <-> In c numerals.
Proof.
  rewrite in_chars. assert (E : digit c = existsb (Ascii.eqb c) numerals) by (destruct c as [[] [] [] [] [] [] [] []]; vm_compute; reflexivity).
  rewrite E. tauto.
Qed.
Lemma subject_char c : upper c || is_char "/" c = true <-> In c ("/"%char :: capitals).
Proof.
  rewrite orb_true_iff, upper_letter. unfold is_char, letter. rewrite Ascii.eqb_eq. cbn [In]. split; intros [H|H]; auto.
Qed.
Lemma any_char_line c : any_char c = true <-> c <> linefeed.
Proof. unfold any_char. rewrite negb_true_iff, Ascii.eqb_neq. reflexivity. Qed.

Lemma app_eq (c : ascii) (a b : string) : String c a ++ b = String c (a ++ b).
Proof. reflexivity. Qed.
Lemma str_assoc (a b c : string) : a ++ b ++ c = (a ++ b) ++ c.
Proof. induction a as [|x a IH]; [reflexivity|]. rewrite !app_eq, IH. reflexivity. Qed.
Lemma str_nil (a : string) : a ++ "" = a.
Proof. induction a as [|x a IH]; [reflexivity|]. rewrite app_eq, IH. reflexivity. Qed.
Lemma str_len (a b : string) : String.length (a ++ b) = (String.length a + String.length b)%nat.
Proof. induction a as [|x a IH]; [reflexivity|]. rewrite app_eq. cbn [String.length]. rewrite IH. reflexivity. Qed.
Lemma chars_app (a b : string) : list_ascii_of_string (a ++ b) = (list_ascii_of_string a ++ list_ascii_of_string b)%list.
Proof. induction a as [|x a IH]; [reflexivity|]. rewrite app_eq. cbn [list_ascii_of_string app]. rewrite IH. reflexivity. Qed.
Lemma str_cancel (a b c : string) : a ++ b = a ++ c -> b = c.
Proof. induction a as [|x a IH]; [auto|]. rewrite !app_eq. intro E. injection E. exact IH. Qed.
Lemma str_split (a b c d : string) : String.length a = String.length c -> a ++ b = c ++ d -> a = c /\ b = d.
Proof.
  revert c. induction a as [|x a IH]; intros [|y c] L E; try discriminate; [auto|]. rewrite !app_eq in E. injection E as -> E. injection L as L.
  destruct (IH c L E) as [-> ->]. auto.
Qed.
Lemma substring_all (a b : string) : substring 0 (String.length a) (a ++ b) = a.
Proof. induction a as [|x a IH]; [destruct b; reflexivity|]. rewrite app_eq. cbn [String.length substring]. rewrite IH. reflexivity. Qed.
Lemma consumed_app (a b : string) : consumed (a ++ b) b = a.
Proof. unfold consumed. rewrite str_len. replace (String.length a + String.length b - String.length b)%nat with (String.length a) by lia. apply substring_all. Qed.

Definition all_p (p : ascii -> bool) (s : string) : Prop := forall c, In c (list_ascii_of_string s) -> p c = true.
Lemma all_p_cons p c s : all_p p (String c s) <-> p c = true /\ all_p p s.
Proof. unfold all_p. cbn [list_ascii_of_string In]. split; [intro H; split; auto|intros [A B] x [<-|I]; auto]. Qed.
Lemma all_p_in p l s : (forall c, p c = true <-> In c l) -> all_p p s <-> all_in l s.
Proof. intro E. unfold all_p, all_in. split; intros H c I; apply E, H, I. Qed.
Lemma all_p_line s : all_p any_char s <-> line s.
Proof.
  unfold all_p, line. split.
  - intros H I. apply H in I. apply any_char_line in I. congruence.
  - intros H c I. apply any_char_line. intros ->. exact (H I).
Qed.
Lemma all_p_app p a b : all_p p (a ++ b) <-> all_p p a /\ all_p p b.
Proof.
  unfold all_p. rewrite chars_app. split.
  - intro H. split; intros c I; apply H, in_app_iff; auto.
  - intros [A B] c I. apply in_app_iff in I as [I|I]; auto.
Qed.

(** ** Repetitions *)
(** The longest repetition that lets the rest match. *)
Lemma many_some p s : forall least k r, many p least None s k = Some r ->
  exists a b, s = a ++ b /\ all_p p a /\ (least <= String.length a)%nat /\ k b = Some r /\
    forall a' b', s = a' ++ b' -> all_p p a' -> (String.length a < String.length a')%nat -> k b' = None.
Proof.
  induction s as [|c t IH]; intros least k r H; cbn [many] in H.
  - destruct least; [|discriminate]. exists "", "". split; [reflexivity|]. split; [intros x []|]. split; [cbn; lia|]. split; [exact H|]. intros [|x a'] b' E P L; [cbn in L; lia|discriminate].
  - cbn [negb] in H. rewrite andb_true_r in H.
    assert (STOP : match least with 0%nat => k (String c t) | S _ => None end = Some r ->
      (p c = true -> many p (pred least) None t k = None) ->
      (p c = true -> forall a' b', t = a' ++ b' -> all_p p a' -> (pred least <= String.length a')%nat -> k b' = None) ->
      exists a b, String c t = a ++ b /\ all_p p a /\ (least <= String.length a)%nat /\ k b = Some r /\
      forall a' b', String c t = a' ++ b' -> all_p p a' -> (String.length a < String.length a')%nat -> k b' = None).
    { intros K _ N. destruct least; [|discriminate]. exists "", (String c t). split; [reflexivity|]. split; [intros x []|]. split; [cbn; lia|]. split; [exact K|].
      intros [|x a'] b' E P L; [cbn in L; lia|]. rewrite app_eq in E. injection E as <- E. apply all_p_cons in P. apply (N (proj1 P) a' b' E (proj2 P)). cbn. lia. }
    assert (NONE : forall least, many p least None t k = None -> forall a' b', t = a' ++ b' -> all_p p a' -> (least <= String.length a')%nat -> k b' = None).
    { clear. revert k. induction t as [|c t IH]; intros k least H a' b' E P L.
      - destruct a'; [|discriminate]. cbn in E. subst b'. cbn in H, L. destruct least; [exact H|lia].
      - cbn [many negb] in H. rewrite andb_true_r in H. destruct a' as [|x a'].
        + cbn in E. subst b'. cbn in L. assert (least = 0)%nat by lia. subst. destruct (p c); [|exact H]. destruct (many _ _ _ t k); [discriminate|exact H].
        + rewrite app_eq in E. injection E as <- E. apply all_p_cons in P. destruct P as [PC P]. rewrite PC in H.
          destruct (many p (pred least) (option_map pred None) t k) eqn:M; [discriminate|]. apply (IH k (pred least) M a' b' E P). cbn in L. lia. }
    destruct (p c) eqn:PC.
    + destruct (many p (pred least) (option_map pred None) t k) as [r'|] eqn:M.
      * injection H as ->. destruct (IH _ _ _ M) as (a & b & -> & A & L & K & G). exists (String c a), b. rewrite app_eq. split; [reflexivity|]. split; [apply all_p_cons; auto|]. split; [cbn; lia|]. split; [exact K|].
           intros [|x a'] b' E P LL; [cbn in LL; lia|]. rewrite app_eq in E. injection E as <- E. apply all_p_cons in P. apply (G a' b' E); [tauto|cbn in LL; lia].
      * apply STOP; auto. intros _. exact (NONE _ M).
    + apply STOP; auto; intro; discriminate.
Qed.
Lemma many_none p s : forall least k, many p least None s k = None ->
  forall a b, s = a ++ b -> all_p p a -> (least <= String.length a)%nat -> k b = None.
Proof.
  induction s as [|c t IH]; intros least k H a b E P L.
  - destruct a; [|discriminate]. cbn in E. subst b. cbn in H, L. destruct least; [exact H|lia].
  - cbn [many negb] in H. rewrite andb_true_r in H. destruct a as [|x a].
    + cbn in E. subst b. cbn in L. assert (least = 0)%nat by lia. subst. destruct (p c); [|exact H]. destruct (many _ _ _ t k); [discriminate|exact H].
    + rewrite app_eq in E. injection E as <- E. apply all_p_cons in P. destruct P as [PC P]. rewrite PC in H.
      destruct (many p (pred least) (option_map pred None) t k) eqn:M; [discriminate|]. apply (IH (pred least) k M a b E P). cbn in L. lia.
Qed.
(** If what follows cannot start with a repeated character, there is one way only. *)
Lemma many_yes p a : forall least most b k, (forall c t, p c = true -> k (String c t) = None) -> all_p p a ->
  (forall c t, b = String c t -> p c = false) -> (least <= String.length a <= most)%nat ->
  many p least (Some most) (a ++ b) k = k b.
Proof.
  induction a as [|c a IH]; intros least most b k K P B L.
  - cbn in L. assert (least = 0)%nat by lia. subst. destruct b as [|x b]; [reflexivity|]. cbn [append many]. rewrite (B x b eq_refl). reflexivity.
  - rewrite app_eq. cbn [many]. apply all_p_cons in P. destruct P as [PC P]. cbn [String.length] in L. destruct most as [|most]; [lia|]. rewrite PC. cbn [andb negb option_map pred].
    rewrite IH; auto; [|lia]. destruct (k b) eqn:E; [reflexivity|]. destruct least; [|reflexivity]. apply K, PC.
Qed.
Lemma many_no p s : forall least most k, (forall c t, p c = true -> k (String c t) = None) ->
  (forall a b, s = a ++ b -> all_p p a -> (least <= String.length a <= most)%nat -> k b = None) -> many p least (Some most) s k = None.
Proof.
  induction s as [|c t IH]; intros least most k K N; cbn [many].
  - destruct least; [|reflexivity]. apply (N "" ""); cbn; [reflexivity|intros x []|lia].
  - assert (STOP : match least with 0%nat => k (String c t) | S _ => None end = None).
    { destruct least; [|reflexivity]. apply (N "" (String c t)); cbn; [reflexivity|intros x []|lia]. }
    destruct (p c) eqn:PC; cbn [andb]; [|exact STOP]. destruct most as [|most]; cbn [negb option_map pred]; [exact STOP|].
    rewrite IH; auto. intros a b -> P L. apply (N (String c a) b); [reflexivity|apply all_p_cons; auto|cbn; lia].
Qed.
(** A fixed number of characters. *)
Lemma many_fixed_yes p a : forall b k, all_p p a -> many p (String.length a) (Some (String.length a)) (a ++ b) k = k b.
Proof.
  induction a as [|c a IH]; intros b k P.
  - cbn [append String.length]. destruct b as [|x b]; cbn [many]; [reflexivity|]. cbn [negb]. rewrite andb_false_r. reflexivity.
  - rewrite app_eq. cbn [many String.length]. apply all_p_cons in P. destruct P as [PC P]. rewrite PC. cbn [andb negb option_map pred]. rewrite IH by exact P. destruct (k b); reflexivity.
Qed.
Lemma many_fixed_no p s : forall n k, (forall a b, s = a ++ b -> all_p p a -> String.length a = n -> k b = None) -> many p n (Some n) s k = None.
Proof.
  induction s as [|c t IH]; intros n k N; cbn [many].
  - destruct n; [|reflexivity]. apply (N "" ""); [reflexivity|intros x []|reflexivity].
  - destruct n as [|n].
    + cbn [negb]. rewrite andb_false_r. apply (N "" (String c t)); [reflexivity|intros x []|reflexivity].
    + destruct (p c) eqn:PC; cbn [andb negb option_map pred]; [|reflexivity]. rewrite IH; [reflexivity|]. intros a b -> P L. apply (N (String c a) b); [reflexivity|apply all_p_cons; auto|cbn; lia].
Qed.

Lemma many_fixed_some p s : forall n k r, many p n (Some n) s k = Some r -> exists a b, s = a ++ b /\ all_p p a /\ String.length a = n /\ k b = Some r.
Proof.
  induction s as [|c t IH]; intros n k r H; cbn [many] in H.
  - destruct n; [|discriminate]. exists "", "". repeat split; auto. intros x [].
  - destruct n as [|n].
    + cbn [negb] in H. rewrite andb_false_r in H. exists "", (String c t). repeat split; auto. intros x [].
    + destruct (p c) eqn:PC; cbn [andb negb option_map pred] in H; [|discriminate]. destruct (many p n (Some n) t k) eqn:M; [|discriminate]. injection H as ->.
      destruct (IH _ _ _ M) as (a & b & -> & P & L & K). exists (String c a), b. split; [reflexivity|]. split; [apply all_p_cons; auto|]. split; [cbn; lia|exact K].
Qed.

(** ** The parts of an identifying label *)
Definition put (n v : string) (cs : caps) : caps := (cs ++ (if v =? "" then [] else [(n, v)]))%list.
Definition total (k : string -> caps -> option caps) : Prop := forall t cs, k t cs <> None.
Lemma consumed_one c r : consumed (String c r) r = one c.
Proof. exact (consumed_app (one c) r). Qed.
Lemma match_total k t cs : total k -> match k t cs with Some x => Some x | None => None end = k t cs.
Proof. intros _. destruct (k t cs); reflexivity. Qed.

Lemma section_exists s : exists v r, section_part s v r /\
  forall cs k, total k -> rmatch (ROpt (RCap "section" (RChar upper))) s cs k = k r (put "section" v cs).
Proof.
  destruct s as [|c t].
  - exists "", "". split; [constructor; discriminate|]. intros cs k T. cbn [rmatch]. unfold put. cbn. rewrite app_nil_r. reflexivity.
  - destruct (upper c) eqn:U.
    + exists (one c), t. split; [constructor; apply upper_letter, U|]. intros cs k T. cbn [rmatch]. rewrite U, consumed_one. unfold put. cbn [String.eqb one].
      destruct (k t _) eqn:K; [reflexivity|]. exfalso. exact (T _ _ K).
    + exists "", (String c t). split; [constructor; intros c' r L E; injection E as <- <-; apply upper_letter in L; congruence|].
      intros cs k T. cbn [rmatch]. rewrite U. unfold put. cbn. rewrite app_nil_r. reflexivity.
Qed.
Lemma sub_exists s : exists v r, sub_part s v r /\
  forall cs k, total k -> rmatch (ROpt (RSeq (RChar any_char) (RCap "sub_type" (RChar upper)))) s cs k = k r (put "sub_type" v cs).
Proof.
  assert (NO : (forall a c r, a <> linefeed -> letter c -> s <> String a (String c r)) ->
    (forall cs k, rmatch (RSeq (RChar any_char) (RCap "sub_type" (RChar upper))) s cs k = None) -> exists v r, sub_part s v r /\
    forall cs k, total k -> rmatch (ROpt (RSeq (RChar any_char) (RCap "sub_type" (RChar upper)))) s cs k = k r (put "sub_type" v cs)).
  { intros N M. exists "", s. split; [constructor; exact N|]. intros cs k T. cbn [rmatch]. cbn [rmatch] in M. rewrite M. unfold put. cbn. rewrite app_nil_r. reflexivity. }
  destruct s as [|a s]; [apply NO; [discriminate|reflexivity]|]. destruct (any_char a) eqn:A.
  2:{ apply NO; [|intros; cbn [rmatch]; rewrite A; reflexivity]. intros a' c r L _ E. injection E as <- _. apply any_char_line in L. congruence. }
  destruct s as [|c t]; [apply NO; [discriminate|intros; cbn [rmatch]; rewrite A; reflexivity]|].
  destruct (upper c) eqn:U.
  - exists (one c), t. split; [constructor; [apply any_char_line, A|apply upper_letter, U]|]. intros cs k T. cbn [rmatch]. rewrite A, U, consumed_one. unfold put. cbn [String.eqb one].
    destruct (k t _) eqn:K; [reflexivity|]. exfalso. exact (T _ _ K).
  - apply NO; [|intros; cbn [rmatch]; rewrite A, U; reflexivity]. intros a' c' r _ L E. injection E as <- <- _. apply upper_letter in L. congruence.
Qed.
Definition term_re : re := RSeq (RChar (is_char " ")) (RSeq (RCap "year" (RMany digit 4 (Some 4))) (RSeq (RChar (is_char "-")) (RCap "term" (RChar any_char)))).
Lemma term_yes y t r cs k : year_text y -> t <> linefeed ->
  rmatch term_re (" " ++ y ++ "-" ++ String t r) cs k = k r ((cs ++ [("year", y)]) ++ [("term", one t)])%list.
Proof.
  intros [L D] T. unfold term_re. cbn [rmatch append]. unfold is_char at 1. rewrite Ascii.eqb_refl. rewrite <- L.
  rewrite many_fixed_yes by (apply (all_p_in _ numerals); [apply digit_numeral|exact D]).
  unfold is_char. rewrite Ascii.eqb_refl. apply any_char_line in T. rewrite T.
  change (String "-" (String t r)) with ("-" ++ String t r). rewrite consumed_app, consumed_one. reflexivity.
Qed.
Lemma term_no s cs k : (forall y t r, year_text y -> t <> linefeed -> s <> " " ++ y ++ "-" ++ String t r) -> rmatch term_re s cs k = None.
Proof.
  intro N. unfold term_re. cbn [rmatch]. destruct s as [|c s]; [reflexivity|]. unfold is_char at 1. destruct (Ascii.eqb c " ") eqn:C; [|reflexivity].
  apply Ascii.eqb_eq in C. subst c. apply many_fixed_no. intros a b -> P L. unfold is_char. destruct b as [|x b]; [reflexivity|]. destruct (Ascii.eqb x "-") eqn:X; [|reflexivity]. apply Ascii.eqb_eq in X. subst x.
  destruct b as [|x b]; [reflexivity|]. destruct (any_char x) eqn:A; [|reflexivity]. exfalso. apply (N a x b); [|apply any_char_line, A|reflexivity].
  split; [exact L|]. apply (all_p_in digit numerals); [apply digit_numeral|exact P].
Qed.
Lemma term_cases s : (exists y t r, year_text y /\ t <> linefeed /\ s = " " ++ y ++ "-" ++ String t r) \/
  (forall y t r, year_text y -> t <> linefeed -> s <> " " ++ y ++ "-" ++ String t r).
Proof.
  destruct (rmatch term_re s [] (fun _ cs => Some cs)) as [cs|] eqn:M.
  - left. unfold term_re in M. cbn [rmatch] in M. destruct s as [|c s]; [discriminate|]. unfold is_char at 1 in M. destruct (Ascii.eqb c " ") eqn:C; [|discriminate].
    apply Ascii.eqb_eq in C. subst c.
    assert (X : exists a b, s = a ++ b /\ all_p digit a /\ String.length a = 4 /\ match b with String x (String t r) => is_char "-" x && any_char t | _ => false end = true).
    { apply many_fixed_some in M. destruct M as (a & b & -> & P & L & K). exists a, b. repeat (split; [auto|]). unfold is_char in *. destruct b as [|x b]; [discriminate|].
      destruct (Ascii.eqb x "-"); [|discriminate]. destruct b as [|t b]; [discriminate|]. destruct (any_char t); [reflexivity|discriminate]. }
    destruct X as (a & b & -> & P & L & X). destruct b as [|x [|t r]]; try discriminate. apply andb_true_iff in X. destruct X as [X T]. apply Ascii.eqb_eq in X. subst x.
    exists a, t, r. split; [split; [exact L|apply (all_p_in digit numerals); [apply digit_numeral|exact P]]|]. split; [apply any_char_line, T|reflexivity].
  - right. intros y t r Y T ->. rewrite term_yes in M by assumption. discriminate.
Qed.
Lemma term_exists s : exists y t r, term_part s y t r /\
  forall cs k, total k -> rmatch (ROpt term_re) s cs k = k r (put "term" t (put "year" y cs)).
Proof.
  destruct (term_cases s) as [(y & t & r & Y & T & ->)|N].
  - exists y, (one t), r. split; [constructor; assumption|]. intros cs k TT.
    change (rmatch (ROpt term_re) (" " ++ y ++ "-" ++ String t r) cs k) with (match rmatch term_re (" " ++ y ++ "-" ++ String t r) cs k with Some x => Some x | None => k (" " ++ y ++ "-" ++ String t r) cs end).
    rewrite term_yes by assumption. unfold put. replace (y =? "") with false by (symmetry; apply String.eqb_neq; intros ->; destruct Y; discriminate).
    cbn [String.eqb one]. destruct (k r _) eqn:K; [reflexivity|]. exfalso. exact (TT _ _ K).
  - exists "", "", s. split; [constructor; exact N|]. intros cs k TT.
    change (rmatch (ROpt term_re) s cs k) with (match rmatch term_re s cs k with Some x => Some x | None => k s cs end). rewrite term_no by exact N. unfold put. cbn. rewrite !app_nil_r. reflexivity.
Qed.
Definition inst_re : re := RSeq (RChar (is_char " ")) (RSeq (RChar (is_char "[")) (RSeq (RCap "inst" (RMany any_char 1 None)) (RChar (is_char "]")))).
Lemma inst_unfold s cs k : rmatch inst_re s cs k =
  match s with
  | String a (String b t) => if is_char " " a && is_char "[" b
      then many any_char 1 None t (fun u => match u with String c v => if is_char "]" c then k v (cs ++ [("inst", consumed t u)])%list else None | "" => None end) else None
  | _ => None
  end.
Proof. unfold inst_re. cbn [rmatch]. destruct s as [|a [|b t]]; [reflexivity|destruct (is_char " " a); reflexivity|]. destruct (is_char " " a); cbn [andb]; [|reflexivity]. destruct (is_char "[" b); reflexivity. Qed.
Lemma inst_exists s : exists v r, inst_part s v r /\
  forall cs k, total k -> rmatch (ROpt inst_re) s cs k = k r (put "inst" v cs).
Proof.
  destruct (rmatch inst_re s [] (fun _ cs => Some cs)) as [x|] eqn:M.
  - rewrite inst_unfold in M. destruct s as [|a [|b t]]; try discriminate. destruct (is_char " " a && is_char "[" b) eqn:AB; [|discriminate].
    pose proof AB as AB'. apply andb_true_iff in AB'. destruct AB' as [A B]. apply Ascii.eqb_eq in A, B. subst a b.
    apply many_some in M. destruct M as (i & u & -> & P & L & K & G). destruct u as [|c r]; [discriminate|]. destruct (is_char "]" c) eqn:C; [|discriminate]. apply Ascii.eqb_eq in C. subst c. clear K x.
    assert (G' : forall i' r', i ++ String "]" r = i' ++ String "]" r' -> all_p any_char i' -> ~ (String.length i < String.length i')%nat).
    { intros i' r' E P' LL. specialize (G i' (String "]" r') E P' LL). cbn in G. discriminate. }
    exists i, r. split.
    + apply (ip_yes i r); [intros ->; cbn in L; lia|apply all_p_line, P|]. intros x y -> LX. apply (G' (i ++ "]" ++ x) y).
      * rewrite <- str_assoc, <- str_assoc. reflexivity.
      * apply all_p_app. split; [exact P|]. apply all_p_app. split; [intros z [<-|[]]; reflexivity|apply all_p_line, LX].
      * rewrite !str_len. cbn. lia.
    + intros cs k T. change (rmatch (ROpt inst_re) ?s cs k) with (match rmatch inst_re s cs k with Some x => Some x | None => k s cs end). rewrite inst_unfold, AB.
      destruct (many _ _ _ _ _) as [y|] eqn:M.
      * apply many_some in M. destruct M as (i' & u & E & P' & L' & K & G''). destruct u as [|c r']; [discriminate|]. destruct (is_char "]" c) eqn:C; [|discriminate]. apply Ascii.eqb_eq in C. subst c.
        assert (LE : String.length i = String.length i').
        { destruct (Nat.lt_trichotomy (String.length i) (String.length i')) as [X|[X|X]]; [exfalso; exact (G' i' r' E P' X)|exact X|].
          exfalso. specialize (G'' i (String "]" r) eq_refl P X). cbn in G''. exact (T _ _ G''). }
        destruct (str_split _ _ _ _ LE E) as [<- E2]. injection E2 as <-. rewrite <- K. unfold put. replace (i =? "") with false by (symmetry; apply String.eqb_neq; intros ->; cbn in L; lia). rewrite consumed_app. reflexivity.
      * exfalso. apply (many_none _ _ _ _ M i (String "]" r) eq_refl P) in L. cbn in L. exact (T _ _ L).
  - exists "", s. assert (N : forall i r, i <> "" -> line i -> s <> " [" ++ i ++ "]" ++ r).
    { intros i r I LI ->. rewrite inst_unfold in M. cbn [append] in M. unfold is_char in M at 1 2. rewrite !Ascii.eqb_refl in M. cbn [andb] in M.
      assert (X := many_none _ _ _ _ M i (String "]" r) eq_refl (proj2 (all_p_line i) LI) ltac:(destruct i; [congruence|cbn; lia])). discriminate. }
    split; [constructor; exact N|]. intros cs k T. change (rmatch (ROpt inst_re) s cs k) with (match rmatch inst_re s cs k with Some x => Some x | None => k s cs end).
    assert (R : rmatch inst_re s cs k = None).
    { rewrite inst_unfold. destruct s as [|a [|b t]]; try reflexivity. destruct (is_char " " a && is_char "[" b) eqn:AB; [|reflexivity]. apply andb_true_iff in AB. destruct AB as [A B]. apply Ascii.eqb_eq in A, B. subst a b.
      destruct (many _ _ _ _ _) as [y|] eqn:MM; [|reflexivity]. apply many_some in MM. destruct MM as (i & u & -> & P & L & K & _). destruct u as [|c r]; [discriminate|]. destruct (is_char "]" c) eqn:C; [|discriminate]. apply Ascii.eqb_eq in C. subst c.
      exfalso. apply (N i r); [intros ->; cbn in L; lia|apply all_p_line, P|reflexivity]. }
    rewrite R. unfold put. cbn. rewrite app_nil_r. reflexivity.
Qed.

(** ** Whole labels *)
Lemma opt_total a k : total k -> total (fun t cs => rmatch (ROpt a) t cs k).
Proof. intros T t cs. cbn [rmatch]. destruct (rmatch a t cs k); [discriminate|apply T]. Qed.
Lemma seq_opt a b s cs k : rmatch (RSeq (ROpt a) b) s cs k = rmatch (ROpt a) s cs (fun t cs' => rmatch b t cs' k).
Proof. reflexivity. Qed.
Lemma total_seq a b k : total k -> (forall k, total k -> total (fun t cs => rmatch b t cs k)) -> total (fun t cs => rmatch (RSeq (ROpt a) b) t cs k).
Proof. intros T B t cs. rewrite seq_opt. apply opt_total. apply B, T. Qed.
Definition rest_re : re :=
  RSeq (ROpt (RCap "section" (RChar upper))) (RSeq (ROpt (RSeq (RChar any_char) (RCap "sub_type" (RChar upper)))) (RSeq (ROpt term_re) (ROpt inst_re))).
Definition caps_of (f : fields) : caps :=
  put "inst" (l_inst f) (put "term" (l_term f) (put "year" (l_year f) (put "sub_type" (l_sub f) (put "section" (l_section f) [("subject", l_subject f); ("num", l_num f)])))).
Lemma rest_exists s1 sj nm : exists f s2 s3 s4 r, l_subject f = sj /\ l_num f = nm /\ section_part s1 (l_section f) s2 /\ sub_part s2 (l_sub f) s3 /\
    term_part s3 (l_year f) (l_term f) s4 /\ inst_part s4 (l_inst f) r /\
    rmatch rest_re s1 [("subject", sj); ("num", nm)] (fun _ cs => Some cs) = Some (caps_of f).
Proof.
  destruct (section_exists s1) as (v1 & s2 & P1 & E1). destruct (sub_exists s2) as (v2 & s3 & P2 & E2).
  destruct (term_exists s3) as (y & t & s4 & P3 & E3). destruct (inst_exists s4) as (i & r & P4 & E4).
  exists (mkFields sj nm v1 v2 y t i), s2, s3, s4, r. repeat (split; [auto; fail|]). unfold rest_re.
  assert (T0 : total (fun (_ : string) (cs : caps) => Some cs)) by (intros ? ?; discriminate).
  rewrite seq_opt, E1 by (apply total_seq; [exact T0|]; intros; apply total_seq; [assumption|]; intros; apply opt_total; assumption).
  rewrite seq_opt, E2 by (apply total_seq; [exact T0|]; intros; apply opt_total; assumption).
  rewrite seq_opt, E3 by (apply opt_total; exact T0). rewrite E4 by exact T0. reflexivity.
Qed.
Definition head_re (rest : re) : re :=
  RSeq (RCap "subject" (RMany (fun c => upper c || is_char "/" c) 2 (Some 5))) (RSeq (RChar (is_char " ")) (RSeq (RCap "num" (RMany digit 3 (Some 3))) rest)).
Lemma deptnum_is : deptnum = head_re rest_re.
Proof. reflexivity. Qed.
Lemma many_bounded_some p s : forall least most k r, many p least (Some most) s k = Some r ->
  exists a b, s = a ++ b /\ all_p p a /\ (least <= String.length a <= most)%nat /\ k b = Some r.
Proof.
  induction s as [|c t IH]; intros least most k r H; cbn [many] in H.
  - destruct least; [|discriminate]. exists "", "". split; [reflexivity|]. split; [intros x []|]. split; [cbn; lia|exact H].
  - assert (STOP : match least with 0%nat => k (String c t) | S _ => None end = Some r -> exists a b, String c t = a ++ b /\ all_p p a /\ (least <= String.length a <= most)%nat /\ k b = Some r).
    { intro K. destruct least; [|discriminate]. exists "", (String c t). split; [reflexivity|]. split; [intros x []|]. split; [cbn; lia|exact K]. }
    destruct (p c) eqn:PC; cbn [andb] in H; [|auto]. destruct most as [|most]; cbn [negb option_map pred] in H; [auto|].
    destruct (many p (pred least) (Some most) t k) eqn:M; [|auto]. injection H as ->. destruct (IH _ _ _ _ M) as (a & b & -> & P & L & K).
    exists (String c a), b. split; [reflexivity|]. split; [apply all_p_cons; auto|]. split; [cbn; lia|exact K].
Qed.
Lemma head_some rest s cs : re_match (head_re rest) s = Some cs -> exists sj nm s1, s = sj ++ " " ++ nm ++ s1 /\ (2 <= String.length sj <= 5)%nat /\
  all_in ("/"%char :: capitals) sj /\ String.length nm = 3 /\ all_in numerals nm.
Proof.
  unfold re_match, head_re. cbn [rmatch]. intro H. apply many_bounded_some in H. destruct H as (sj & b & -> & P & L & H). destruct b as [|c b]; [discriminate|].
  destruct (is_char " " c) eqn:C; [|discriminate]. apply Ascii.eqb_eq in C. subst c. apply many_fixed_some in H. destruct H as (nm & s1 & -> & PN & LN & _).
  exists sj, nm, s1. split; [reflexivity|]. split; [exact L|]. split; [apply (all_p_in _ _ _ subject_char), P|]. split; [exact LN|apply (all_p_in _ _ _ digit_numeral), PN].
Qed.
Lemma head_yes rest sj nm s1 : (2 <= String.length sj <= 5)%nat -> all_in ("/"%char :: capitals) sj -> String.length nm = 3 -> all_in numerals nm ->
  re_match (head_re rest) (sj ++ " " ++ nm ++ s1) = rmatch rest s1 [("subject", sj); ("num", nm)] (fun _ cs => Some cs).
Proof.
  intros LS PS LN PN. unfold re_match, head_re. cbn [rmatch].
  assert (SP : (fun c => upper c || is_char "/" c) " "%char = false) by reflexivity.
  rewrite many_yes; [|intros c t PC|apply (all_p_in _ _ _ subject_char), PS|intros c t E|exact LS].
  - change (is_char " " " ") with true. cbv iota. cbn [append]. change (String " " (nm ++ s1)) with (" " ++ nm ++ s1). rewrite consumed_app. rewrite <- LN.
    rewrite many_fixed_yes by (apply (all_p_in _ _ _ digit_numeral), PN). rewrite consumed_app. reflexivity.
  - destruct (is_char " " c) eqn:C; [|reflexivity]. apply Ascii.eqb_eq in C. subst c. cbv beta in SP. rewrite SP in PC. discriminate.
  - cbn [append] in E. injection E as <- _. exact SP.
Qed.
Lemma deptnum_cases s : (exists f r, identifies s f r /\ re_match deptnum s = Some (caps_of f)) \/ ((forall f r, ~ identifies s f r) /\ re_match deptnum s = None).
Proof.
  rewrite deptnum_is. destruct (re_match (head_re rest_re) s) as [cs|] eqn:M.
  - left. destruct (head_some _ _ _ M) as (sj & nm & s1 & -> & LS & PS & LN & PN). rewrite head_yes in M by assumption.
    destruct (rest_exists s1 sj nm) as (f & s2 & s3 & s4 & r & <- & <- & P1 & P2 & P3 & P4 & E). rewrite E in M. exists f, r. split; [|congruence].
    exists s1, s2, s3, s4. repeat (split; [assumption || reflexivity|]). assumption.
  - right. split; [|reflexivity]. intros f r (s1 & s2 & s3 & s4 & -> & LS & PS & LN & PN & _). rewrite head_yes in M by assumption.
    destruct (rest_exists s1 (l_subject f) (l_num f)) as (f' & _ & _ & _ & _ & _ & _ & _ & _ & _ & _ & E). congruence.
Qed.

Lemma section_unique s v r v' r' : section_part s v r -> section_part s v' r' -> v = v' /\ r = r'.
Proof.
  intros A B. destruct A as [c r L|s N]; inversion B as [c' r'' L' E|s' N']; subst; auto.
  - exfalso. exact (N' c r L eq_refl).
  - exfalso. exact (N c' r' L' eq_refl).
Qed.
Lemma sub_unique s v r v' r' : sub_part s v r -> sub_part s v' r' -> v = v' /\ r = r'.
Proof.
  intros A B. destruct A as [a c r X L|s N]; inversion B as [a' c' r'' X' L' E|s' N']; subst; auto.
  - exfalso. exact (N' a c r X L eq_refl).
  - exfalso. exact (N a' c' r' X' L' eq_refl).
Qed.
Lemma term_unique s y t r y' t' r' : term_part s y t r -> term_part s y' t' r' -> y = y' /\ t = t' /\ r = r'.
Proof.
  intros A B. destruct A as [y c r Y T|s N]; inversion B as [y'' c' r'' Y' T' E|s' N']; subst; auto.
  - cbn [append] in E. apply str_split in E; [|destruct Y, Y'; congruence]. destruct E as [-> E]. injection E as -> ->. auto.
  - exfalso. exact (N' y c r Y T eq_refl).
  - exfalso. exact (N y' c' r' Y' T' eq_refl).
Qed.
Lemma closing_unique i r i' r' : line i -> line i' -> unclosed r -> unclosed r' -> i ++ "]" ++ r = i' ++ "]" ++ r' -> i = i' /\ r = r'.
Proof.
  revert i'. induction i as [|c i IH]; intros [|c' i'] L L' U U' E.
  - cbn [append] in E. injection E as ->. auto.
  - exfalso. cbn [append] in E. injection E as <- E. subst r. apply (U i' r' eq_refl). intro I. apply L'. right. exact I.
  - exfalso. cbn [append] in E. injection E as -> E. subst r'. apply (U' i r eq_refl). intro I. apply L. right. exact I.
  - cbn [append] in E. injection E as <- E. destruct (IH i') as [-> ->]; auto; [intro I; apply L; right; exact I|intro I; apply L'; right; exact I].
Qed.
Lemma inst_unique s v r v' r' : inst_part s v r -> inst_part s v' r' -> v = v' /\ r = r'.
Proof.
  intros A B. destruct A as [i r X L U|s N]; inversion B as [i' r'' X' L' U' E|s' N']; subst; auto.
  - apply closing_unique; auto; symmetry; exact E.
  - exfalso. exact (N' i r X L eq_refl).
  - exfalso. exact (N v' r' X' L' eq_refl).
Qed.
Lemma before_char (c : ascii) a : forall b x y, ~ In c (list_ascii_of_string a) -> ~ In c (list_ascii_of_string b) -> a ++ String c x = b ++ String c y -> a = b /\ x = y.
Proof.
  induction a as [|z a IH]; intros [|w b] x y A B E.
  - cbn [append] in E. injection E as ->. auto.
  - exfalso. cbn [append] in E. injection E as -> E. apply B. left. reflexivity.
  - exfalso. cbn [append] in E. injection E as -> E. apply A. left. reflexivity.
  - cbn [append] in E. injection E as -> E. destruct (IH b x y) as [-> ->]; auto; intro I; [apply A|apply B]; right; exact I.
Qed.
Lemma no_space s : all_in ("/"%char :: capitals) s -> ~ In " "%char (list_ascii_of_string s).
Proof. intros A I. apply A in I. apply in_chars in I. vm_compute in I. discriminate. Qed.
Lemma identifies_unique s f r f' r' : identifies s f r -> identifies s f' r' -> f = f' /\ r = r'.
Proof.
  intros (s1 & s2 & s3 & s4 & E & LS & PS & LN & PN & A1 & A2 & A3 & A4) (t1 & t2 & t3 & t4 & E' & LS' & PS' & LN' & PN' & B1 & B2 & B3 & B4).
  rewrite E' in E. clear E' s. cbn [append] in E. apply before_char in E; try (apply no_space; assumption). destruct E as [ES E].
  apply str_split in E; [|congruence]. destruct E as [EN ->]. destruct (section_unique _ _ _ _ _ A1 B1) as [V1 ->]. destruct (sub_unique _ _ _ _ _ A2 B2) as [V2 ->].
  destruct (term_unique _ _ _ _ _ _ _ A3 B3) as (V3 & V4 & ->). destruct (inst_unique _ _ _ _ _ A4 B4) as [V5 ->]. destruct f, f'. cbn in *. subst. auto.
Qed.

(** *** Names *)
Lemma literal_yes w r : forall t cs k, rmatch (literal w r) (w ++ t) cs k = rmatch r t cs k.
Proof. induction w as [|c w IH]; intros; [reflexivity|]. cbn [literal rmatch append]. unfold is_char. rewrite Ascii.eqb_refl. apply IH. Qed.
Lemma literal_some w r : forall s cs k x, rmatch (literal w r) s cs k = Some x -> exists t, s = w ++ t.
Proof.
  induction w as [|c w IH]; intros s cs k x H; [exists s; reflexivity|]. cbn [literal rmatch] in H. destruct s as [|d s]; [discriminate|]. unfold is_char in H. destruct (Ascii.eqb d c) eqn:D; [|discriminate].
  apply Ascii.eqb_eq in D. subst d. destruct (IH _ _ _ _ H) as [t ->]. exists t. reflexivity.
Qed.
Definition name_char (c : ascii) : bool := negb (is_char "(" c) && negb (is_char "[" c).
Definition name_tail (s : string) (k : caps -> option caps) : string -> option caps :=
  fun t => rmatch (RSeq (ROpt inst_re) REnd) t [("name", consumed s t)] (fun _ cs => k cs).
Lemma name_is s : re_match name_regex ("name=" ++ s) = many name_char 0 None s (name_tail s Some).
Proof. unfold re_match, name_regex. rewrite literal_yes. reflexivity. Qed.
Lemma all_clean s : all_p name_char s <-> clean s.
Proof.
  unfold all_p, clean, name_char, is_char. split.
  - intro H. split; intro I; apply H in I; discriminate.
  - intros [A B] c I. destruct (Ascii.eqb c "(") eqn:C1; [apply Ascii.eqb_eq in C1; subst; contradiction|]. destruct (Ascii.eqb c "[") eqn:C2; [apply Ascii.eqb_eq in C2; subst; contradiction|]. reflexivity.
Qed.
Lemma end_some s (cs : caps) x : rmatch REnd s cs (fun _ cs => Some cs) = Some x -> x = cs /\ (s = "" \/ s = one linefeed).
Proof. cbn [rmatch]. destruct s as [|c [|d s]]; intro H; try discriminate; [injection H as <-; auto|]. destruct (Ascii.eqb c newline) eqn:C; [|discriminate]. apply Ascii.eqb_eq in C. subst. injection H as <-. auto. Qed.
Lemma end_yes e (cs : caps) : e = "" \/ e = one linefeed -> rmatch REnd e cs (fun _ cs => Some cs) = Some cs.
Proof. intros [-> | ->]; reflexivity. Qed.
Lemma tail_some s t x : name_tail s Some t = Some x ->
  (t = "" \/ t = one linefeed) /\ x = [("name", consumed s t)] \/
  exists i e, t = " [" ++ i ++ "]" ++ e /\ i <> "" /\ line i /\ (e = "" \/ e = one linefeed) /\ x = [("name", consumed s t); ("inst", i)].
Proof.
  unfold name_tail. rewrite seq_opt. change (rmatch (ROpt inst_re) t ?cs ?k) with (match rmatch inst_re t cs k with Some x => Some x | None => k t cs end).
  destruct (rmatch inst_re t _ _) as [y|] eqn:M; intro H.
  - right. injection H as ->. rewrite inst_unfold in M. destruct t as [|a [|b u]]; try discriminate. destruct (is_char " " a && is_char "[" b) eqn:AB; [|discriminate].
    apply andb_true_iff in AB. destruct AB as [A B]. apply Ascii.eqb_eq in A, B. subst a b. apply many_some in M. destruct M as (i & v & -> & P & L & K & _).
    destruct v as [|c e]; [discriminate|]. destruct (is_char "]" c) eqn:C; [|discriminate]. apply Ascii.eqb_eq in C. subst c. apply end_some in K. destruct K as [-> E].
    exists i, e. split; [reflexivity|]. split; [intros ->; cbn in L; lia|]. split; [apply all_p_line, P|]. split; [exact E|]. rewrite consumed_app. reflexivity.
  - left. apply end_some in H. tauto.
Qed.
Lemma tail_plain s e : e = "" \/ e = one linefeed -> name_tail s Some e <> None.
Proof. intros [-> | ->]; unfold name_tail; rewrite seq_opt; cbn; discriminate. Qed.
Lemma tail_inst s i e : i <> "" -> line i -> e = "" \/ e = one linefeed -> name_tail s Some (" [" ++ i ++ "]" ++ e) <> None.
Proof.
  intros I L E. unfold name_tail. rewrite seq_opt. change (rmatch (ROpt inst_re) ?t ?cs ?k) with (match rmatch inst_re t cs k with Some x => Some x | None => k t cs end).
  destruct (rmatch inst_re _ _ _) as [y|] eqn:M; [discriminate|]. exfalso. rewrite inst_unfold in M. cbn [append] in M. change (is_char " " " " && is_char "[" "[") with true in M. cbv iota in M.
  assert (X := many_none _ _ _ _ M i (String "]" e) eq_refl (proj2 (all_p_line i) L) ltac:(destruct i; [congruence|cbn; lia])). cbv beta iota in X.
  change (is_char "]" "]") with true in X. cbv iota in X. rewrite end_yes in X by exact E. discriminate.
Qed.
Lemma names_inv s n i : names s n i -> clean n /\ i = "" /\ s = "name=" ++ n \/ exists e, clean n /\ i <> "" /\ line i /\ (e = "" \/ e = one linefeed) /\ s = "name=" ++ n ++ " [" ++ i ++ "]" ++ e.
Proof. intro H. destruct H as [n C|n i e C I L E]; [left; auto|right; exists e; auto 6]. Qed.
Lemma names_unique s n i n' i' : names s n i -> names s n' i' -> n = n' /\ i = i'.
Proof.
  assert (CL : forall n m i e, clean n -> n = m ++ " [" ++ i ++ "]" ++ e -> False).
  { intros m0 m j e [_ C] ->. apply C. rewrite chars_app. apply in_app_iff. right. right. left. reflexivity. }
  intros A B. apply names_inv in A, B. destruct A as [(C & -> & EA)|(e & C & I & L & E & EA)], B as [(C' & -> & EQ)|(e' & C' & I' & L' & E' & EQ)]; rewrite EA in EQ; clear EA; symmetry in EQ.
  - apply str_cancel in EQ. auto.
  - exfalso. apply str_cancel in EQ. eapply CL; [exact C|symmetry; exact EQ].
  - exfalso. apply str_cancel in EQ. eapply CL; [exact C'|exact EQ].
  - apply str_cancel in EQ. cbn [append] in EQ.
    assert (X : forall m x, m ++ String " " (String "[" x) = (m ++ " ") ++ String "[" x) by (intros; rewrite <- str_assoc; reflexivity). rewrite !X in EQ.
    assert (Y : forall m, clean m -> ~ In "["%char (list_ascii_of_string (m ++ " "))).
    { intros m [_ N] J. rewrite chars_app in J. apply in_app_iff in J. destruct J as [J|[J|[]]]; [auto|discriminate]. }
    apply before_char in EQ; auto. destruct EQ as [EN EQ].
    assert (n' = n). { assert (LL := f_equal String.length EN). rewrite !str_len in LL. apply str_split in EN; [tauto|cbn in LL; lia]. }
    subst n'. split; [reflexivity|]. assert (NL : forall j, line j -> ~ In linefeed (list_ascii_of_string (j ++ "]"))).
    { intros j J K. rewrite chars_app in K. apply in_app_iff in K. destruct K as [K|[K|[]]]; [auto|discriminate]. }
    assert (XE : forall j x, j ++ String "]" x = (j ++ "]") ++ x) by (intros; rewrite <- str_assoc; reflexivity). rewrite (XE i e), (XE i' e') in EQ.
    assert (EE : e = e').
    { destruct E as [->| ->], E' as [->| ->]; auto; exfalso; rewrite str_nil in EQ.
      - apply (NL i L). rewrite <- EQ, chars_app. apply in_app_iff. right. left. reflexivity.
      - apply (NL i' L'). rewrite EQ, chars_app. apply in_app_iff. right. left. reflexivity. }
    subst e'. assert (LL := f_equal String.length EQ). rewrite !str_len in LL. apply str_split in EQ; [|rewrite !str_len; lia]. destruct EQ as [EQ _].
    apply str_split in EQ; [destruct EQ; auto|cbn in LL; lia].
Qed.
Definition name_caps (n i : string) : caps := put "inst" i [("name", n)].
Lemma name_cases s : (exists n i, names s n i /\ re_match name_regex s = Some (name_caps n i)) \/ ((forall n i, ~ names s n i) /\ re_match name_regex s = None).
Proof.
  destruct (re_match name_regex s) as [cs|] eqn:M.
  - left. unfold re_match, name_regex in M. destruct (literal_some _ _ _ _ _ _ M) as [t ->]. fold name_regex in M.
    change (re_match name_regex ("name=" ++ t) = Some cs) in M. rewrite name_is in M. apply many_some in M. destruct M as (n & u & -> & P & _ & K & G). apply tail_some in K.
    destruct K as [[E ->]|(i & e & -> & I & L & E & ->)].
    + destruct E as [-> | ->].
      * exists n, "". rewrite str_nil. split; [constructor; apply all_clean, P|]. unfold name_caps, put. cbn [String.eqb app]. rewrite <- (str_nil n) at 1. rewrite consumed_app. reflexivity.
      * exfalso. assert (X := G (n ++ one linefeed) "" ltac:(rewrite str_nil; reflexivity)). apply (tail_plain (n ++ one linefeed) "" (or_introl eq_refl)). apply X.
        -- apply all_p_app. split; [exact P|]. intros c [<-|[]]. reflexivity.
        -- rewrite str_len. cbn. lia.
    + exists n, i. split; [apply nm_inst; auto; apply all_clean, P|]. unfold name_caps, put. replace (i =? "") with false by (symmetry; apply String.eqb_neq; exact I). rewrite consumed_app. reflexivity.
  - right. split; [|reflexivity]. intros n i N. destruct N as [n C|n i e C I L E].
    + rewrite name_is in M. apply (tail_plain n "" (or_introl eq_refl)). apply (many_none _ _ _ _ M n ""); [symmetry; apply str_nil|apply all_clean, C|lia].
    + rewrite name_is in M. apply (tail_inst (n ++ " [" ++ i ++ "]" ++ e) i e I L E). apply (many_none _ _ _ _ M n); [reflexivity|apply all_clean, C|lia].
Qed.

(** ** The class *)
Lemma cap_fields f : cap (caps_of f) "subject" = l_subject f /\ cap (caps_of f) "num" = l_num f /\ cap (caps_of f) "section" = l_section f /\ cap (caps_of f) "sub_type" = l_sub f /\
  cap (caps_of f) "year" = l_year f /\ cap (caps_of f) "term" = l_term f /\ cap (caps_of f) "inst" = l_inst f.
Proof. destruct f as [sj nm sc sb y t i]. unfold caps_of, put, cap. cbn [l_subject l_num l_section l_sub l_year l_term l_inst]. destruct sc, sb, y, t, i; repeat split; reflexivity. Qed.
Lemma cap_name n i : cap (name_caps n i) "name" = n /\ cap (name_caps n i) "inst" = i.
Proof. unfold name_caps, put, cap. destruct i; split; reflexivity. Qed.
Lemma digit_val_numeral c : In c numerals -> digit_val c = Some (numeral_value c) /\ Ascii.eqb c "-" = false.
Proof.
  intro I. apply in_chars in I. unfold digit_val, numeral_value. destruct c as [[] [] [] [] [] [] [] []]; vm_compute in I |- *; try discriminate; auto.
Qed.
Lemma digits_number s : forall z, all_in numerals s -> digits_val s z = Some (fold_left (fun z c => 10 * z + numeral_value c)%Z (list_ascii_of_string s) z).
Proof.
  induction s as [|c s IH]; intros z A; [reflexivity|]. cbn [digits_val list_ascii_of_string fold_left]. destruct (digit_val_numeral c) as [-> _]; [apply A; left; reflexivity|].
  apply IH. intros x I. apply A. right. exact I.
Qed.
Lemma int_year y : year_text y -> py_int y = Ok (year_number y).
Proof.
  intros [L A]. destruct y as [|c y]; [discriminate|]. unfold py_int. destruct (digit_val_numeral c) as [_ ->]; [apply A; left; reflexivity|]. rewrite digits_number by exact A. reflexivity.
Qed.
Lemma year_cases s f r : identifies s f r -> l_year f = "" /\ l_term f = "" \/ year_text (l_year f) /\ exists t, l_term f = one t /\ t <> linefeed.
Proof. intros (s1 & s2 & s3 & s4 & _ & _ & _ & _ & _ & _ & _ & T & _). inversion T; subst; eauto. Qed.
Lemma sub_lookup s : match sub_type_lookup s with Some t => sub_letter s t | None => forall t, ~ sub_letter s t end.
Proof.
  unfold sub_type_lookup. destruct (s =? "E") eqn:E1; [apply String.eqb_eq in E1; subst; constructor|]. destruct (s =? "L") eqn:E2; [apply String.eqb_eq in E2; subst; constructor|].
  destruct (s =? "F") eqn:E3; [apply String.eqb_eq in E3; subst; constructor|]. destruct (s =? "D") eqn:E4; [apply String.eqb_eq in E4; subst; constructor|].
  intros t H. inversion H; subst; discriminate.
Qed.
Lemma sub_letter_fun s t u : sub_letter s t -> sub_letter s u -> t = u.
Proof. intros A B. destruct A; inversion B; reflexivity. Qed.
Lemma sub_ok s c : match sub_type_lookup s with Some st => sub_type_eqb (c_sub_type c) st | None => true end = true <-> forall t, sub_letter s t -> c_sub_type c = t.
Proof.
  pose proof (sub_lookup s) as X. destruct (sub_type_lookup s) as [t|].
  - unfold sub_type_eqb. destruct (sub_type_eq_dec (c_sub_type c) t) as [E|E]; split; intro H; try discriminate; auto.
    intros u U. rewrite E. exact (sub_letter_fun _ _ _ X U).
  - split; [intros _ t T; destruct (X t T)|reflexivity].
Qed.
Lemma filter_fits s f r c : identifies s f r -> exists b, course_filter (label_filter (caps_of f) (year_given (l_year f))) c = Ok b /\ (b = true <-> fits f c).
Proof.
  intro ID. pose proof (year_cases _ _ _ ID) as YC. destruct (cap_fields f) as (C1 & C2 & C3 & C4 & C5 & C6 & C7).
  assert (SJ : l_subject f =? "" = false). { destruct ID as (? & ? & ? & ? & _ & L & _). apply String.eqb_neq. intros E. rewrite E in L. cbn in L. lia. }
  unfold course_filter, label_filter, course_part. cbn [f_institution f_ap f_course f_crsid f_section f_year f_term f_sub_type f_attribute f_name f_in_progress].
  rewrite C1, C2, C3, C4, C6, C7, SJ. cbn [given_differs].
  set (B5 := match sub_type_lookup (l_sub f) with Some st => sub_type_eqb (c_sub_type c) st | None => true end). pose proof (sub_ok (l_sub f) c) as S5. fold B5 in S5.
  assert (S2 : exists b, match if_given (l_section f), c_section c with Some s, Some s' => negb (s' =? s) | Some _, None => true | None, _ => false end = negb b /\
    (b = true <-> (l_section f <> "" -> c_section c = Some (l_section f)))).
  { unfold if_given. destruct (l_section f =? "") eqn:E.
    - apply String.eqb_eq in E. exists true. split; [reflexivity|]. split; [congruence|reflexivity].
    - apply String.eqb_neq in E. destruct (c_section c) as [s'|].
      + exists (s' =? l_section f). split; [reflexivity|]. rewrite String.eqb_eq. split; [congruence|intro H; specialize (H E); congruence].
      + exists false. split; [reflexivity|]. split; [discriminate|intro H; specialize (H E); discriminate]. }
  destruct S2 as (b2 & -> & S2).
  assert (S4 : exists b, match year_given (l_year f) with None => Ok true | Some y => match if_given (l_term f) with None => Err AssertErr | Some t => Ok ((c_year c =? y)%Z && (c_term c =? t)) end end = Ok b /\
    (b = true <-> (l_year f <> "" -> c_year c = year_number (l_year f) /\ c_term c = l_term f))).
  { unfold year_given, if_given. destruct YC as [[-> ->]|[[Y _] (t & -> & _)]].
    - exists true. split; [reflexivity|]. split; [congruence|reflexivity].
    - assert (E : l_year f =? "" = false) by (apply String.eqb_neq; intros E; rewrite E in Y; discriminate). rewrite E. apply String.eqb_neq in E. cbn [String.eqb one].
      eexists. split; [reflexivity|]. rewrite andb_true_iff, Z.eqb_eq, String.eqb_eq. tauto. }
  destruct S4 as (b4 & -> & S4). cbn [bind].
  assert (S1 : negb (c_identity c =? l_subject f ++ " " ++ l_num f) = false <-> c_identity c = l_subject f ++ " " ++ l_num f) by (rewrite negb_false_iff; apply String.eqb_eq).
  assert (S6 : (if l_inst f =? "" then c_stolaf c = true else c_institution c = l_inst f) <-> is_none_o (if_given (l_inst f)) && negb (c_stolaf c) = false /\ given_differs (if_given (l_inst f)) (c_institution c) = false).
  { unfold if_given. destruct (l_inst f =? "") eqn:E; cbn.
    - rewrite negb_false_iff. tauto.
    - rewrite negb_false_iff, String.eqb_eq. split; [auto|intros [_ H]; auto]. }
  assert (FF : fits f c <-> fits f c) by tauto. unfold fits in FF at 2. rewrite S6, <- S1, <- S2, <- S4, <- S5 in FF.
  rewrite andb_true_r. cbn [is_none_o].
  assert (NO : ~ fits f c -> exists b, Ok false = Ok b /\ (b = true <-> fits f c)) by (intro N; exists false; split; [reflexivity|split; [discriminate|contradiction]]).
  destruct (is_none_o (if_given (l_inst f)) && negb (c_stolaf c)); [apply NO; intro H; apply FF in H; destruct H as (_ & _ & _ & _ & X & _); discriminate|].
  destruct (negb (c_identity c =? l_subject f ++ " " ++ l_num f)); [apply NO; intro H; apply FF in H; destruct H as (X & _); discriminate|].
  destruct b2; [|apply NO; intro H; apply FF in H; destruct H as (_ & X & _); discriminate]. cbn [negb].
  destruct b4; [|apply NO; intro H; apply FF in H; destruct H as (_ & _ & _ & X & _); discriminate]. cbn [negb bind].
  destruct B5; [|apply NO; intro H; apply FF in H; destruct H as (_ & _ & X & _); discriminate]. cbn [negb].
  destruct (given_differs (if_given (l_inst f)) (c_institution c)); [apply NO; intro H; apply FF in H; destruct H as (_ & _ & _ & _ & _ & X); discriminate|].
  exists true. split; [reflexivity|]. tauto.
Qed.
Lemma first_res_of (f : course -> res bool) (P : course -> Prop) l : (forall c, exists b, f c = Ok b /\ (b = true <-> P c)) -> exists o, first_res f l = Ok o /\ first_of P l o.
Proof.
  intro H. induction l as [|c l IH]; [exists None; split; [reflexivity|intros x []]|]. cbn [first_res]. destruct (H c) as (b & -> & B). cbn [bind]. destruct b.
  - exists (Some c). split; [reflexivity|]. exists [], l. split; [reflexivity|]. split; [apply B; reflexivity|intros x []].
  - destruct IH as (o & E & F). assert (N : ~ P c) by (intro X; apply B in X; discriminate). exists o. split; [exact E|]. destruct o as [d|]; cbn [first_of] in *.
    + destruct F as (a & r & -> & D & A). exists (c :: a), r. split; [reflexivity|]. split; [exact D|]. intros x [<-|I]; auto.
    + intros x [<-|I]; auto.
Qed.
Lemma find_of (f : course -> bool) (P : course -> Prop) l : (forall c, f c = true <-> P c) -> first_of P l (find f l).
Proof.
  intro H. induction l as [|c l IH]; [intros x []|]. cbn [find]. destruct (f c) eqn:F.
  - exists [], l. split; [reflexivity|]. split; [apply H, F|intros x []].
  - assert (N : ~ P c) by (intro X; apply H in X; congruence). destruct (find f l) as [d|]; cbn [first_of] in *.
    + destruct IH as (a & r & -> & D & A). exists (c :: a), r. split; [reflexivity|]. split; [exact D|]. intros x [<-|I]; auto.
    + intros x [<-|I]; auto.
Qed.
Lemma first_unique P l o o' : first_of P l o -> first_of P l o' -> o = o'.
Proof.
  revert o o'. induction l as [|c l IH]; intros o o' A B.
  - destruct o as [c|]; [destruct A as ([|] & ? & E & _); discriminate|]. destruct o' as [c|]; [destruct B as ([|] & ? & E & _); discriminate|reflexivity].
  - assert (S : forall o, first_of P (c :: l) o -> (P c /\ o = Some c) \/ (~ P c /\ first_of P l o)).
    { clear. intros [d|] H; cbn [first_of] in *.
      - destruct H as ([|x a] & b & E & D & N); injection E as -> ->; [left; auto|]. right. split; [apply N; left; reflexivity|]. exists a, b. split; [reflexivity|]. split; [exact D|]. intros y I. apply N. right. exact I.
      - right. split; [apply H; left; reflexivity|]. intros x I. apply H. right. exact I. }
    destruct (S o A) as [[X ->]|[X A']], (S o' B) as [[Y ->]|[Y B']]; auto; contradiction.
Qed.
Lemma label_ok s transcript : exists o, parse_label s transcript = Ok o /\ label_means transcript s o.
Proof.
  unfold parse_label. destruct (deptnum_cases s) as [(f & r & ID & ->)|[N ->]].
  - destruct (first_res_of _ (fits f) transcript (fun c => filter_fits s f r c ID)) as (o & E & F).
    eexists. split; [|apply (lm_id transcript s f r o ID F)]. unfold identified_course. destruct (cap_fields f) as (C1 & C2 & C3 & C4 & C5 & C6 & C7).
    assert (Y : (if cap (caps_of f) "year" =? "" then Ok None else let! z := py_int (cap (caps_of f) "year") in Ok (Some z)) = Ok (year_given (l_year f))).
    { rewrite C5. unfold year_given. destruct (l_year f =? "") eqn:EY; [reflexivity|]. destruct (year_cases _ _ _ ID) as [[X _]|[X _]]; [rewrite X in EY; discriminate|]. rewrite int_year by exact X. reflexivity. }
    rewrite Y. cbn [bind]. rewrite E. cbn [bind]. rewrite C1, C2, C3, C4, C6, C7. destruct o; reflexivity.
  - destruct (name_cases s) as [(n & i & NM & ->)|[NN ->]]; [|exists None; split; [reflexivity|apply lm_none; assumption]].
    eexists. split; [reflexivity|]. unfold named_course. destruct (cap_name n i) as [-> ->].
    assert (F := find_of (fun c => ((n =? "") || (c_name c =? n)) && ((i =? "") || (c_institution c =? i))) (carries n i) transcript).
    match type of F with ?A -> _ => assert (HA : A) end.
    { intro c. rewrite andb_true_iff, !orb_true_iff, !String.eqb_eq. unfold carries. destruct (String.string_dec n "") as [->|N1], (String.string_dec i "") as [->|N2]; tauto. }
    specialize (F HA). destruct (find _ transcript) as [c|] eqn:FD; exact (lm_name transcript s n i _ N NM F).
Qed.
Lemma label_means_fun transcript s o o' : label_means transcript s o -> label_means transcript s o' -> o = o'.
Proof.
  intros A B. destruct A as [s f l x ID F|s n i x N NM F|s N NN]; inversion B as [s' f' l' x' ID' F'|s' n' i' x' N' NM' F'|s' N' NN']; subst; try reflexivity;
    try (exfalso; eapply N'; eassumption); try (exfalso; eapply N; eassumption); try (exfalso; eapply NN'; eassumption); try (exfalso; eapply NN; eassumption).
  - destruct (identifies_unique _ _ _ _ _ ID ID') as [<- _]. rewrite (first_unique _ _ _ _ F F'). reflexivity.
  - destruct (names_unique _ _ _ _ _ NM NM') as [<- <-]. rewrite (first_unique _ _ _ _ F F'). reflexivity.
Qed.
