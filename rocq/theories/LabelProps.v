From Coq Require Import List Bool Arith ZArith String Ascii Lia Permutation Sorting.Sorted.
From Verif Require Import Transcript Prelude Paths Claims ListFacts Course Context CourseRule Loader Label LabelSpec LabelProofs.
From Verif Require Import StrFacts TranscriptProofs TranscriptProps ClaimsProofs AreaLoadProofs.
Import CourseRule Loader Label LabelSpec LabelProofs.
Import ListNotations.
Local Open Scope string_scope.

(** ** C112: labels are read exactly *)
Theorem labels_are_read_exactly : forall transcript s o, parse_label s transcript = Ok o <-> label_means transcript s o.
Proof.
  intros transcript s o. destruct (label_ok s transcript) as (o' & E & M). split.
  - intro H. rewrite E in H. injection H as <-. exact M.
  - intro H. rewrite (label_means_fun _ _ _ _ H M). exact E.
Qed.
Theorem reading_a_label_never_fails : forall transcript s, exists o, parse_label s transcript = Ok o.
Proof. intros transcript s. destruct (label_ok s transcript) as (o & E & _). eauto. Qed.
(** A label has one reading. *)
Theorem labels_have_one_reading : forall s f r f' r', identifies s f r -> identifies s f' r' -> f = f' /\ r = r'.
Proof. exact identifies_unique. Qed.

(** A label written out of its parts is read as those parts, and nothing is left over. *)
Lemma digit_not_letter c : In c numerals -> ~ letter c.
Proof. unfold letter. rewrite !in_chars. destruct c as [[] [] [] [] [] [] [] []]; vm_compute; congruence. Qed.
Theorem written_labels_are_read_back : forall f, well_formed f -> identifies (written f) f "".
Proof.
  intros [sj nm sc sb y t i] (LS & PS & LN & PN & SC & SB & YT & LI). unfold written, identifies. cbn [l_subject l_num l_section l_sub l_year l_term l_inst] in *.
  set (s4 := if i =? "" then "" else " [" ++ i ++ "]"). set (s3 := (if y =? "" then "" else " " ++ y ++ "-" ++ t) ++ s4). set (s2 := (if sb =? "" then "" else "." ++ sb) ++ s3).
  exists (sc ++ s2), s2, s3, s4. split; [reflexivity|]. split; [exact LS|]. split; [exact PS|]. split; [exact LN|]. split; [exact PN|].
  assert (N4 : forall c r, s4 = String c r -> c = " "%char /\ exists r', r = String "[" r').
  { intros c r. unfold s4. destruct (i =? ""); [discriminate|]. cbn [append]. intro E. injection E as <- <-. eauto. }
  assert (N3 : forall c r, s3 = String c r -> c = " "%char /\ exists d r', r = String d r' /\ ~ letter d).
  { intros c r. unfold s3. destruct (y =? "") eqn:Y.
    - cbn [append]. intro E. destruct (N4 _ _ E) as [-> (r' & ->)]. split; [reflexivity|]. exists "["%char, r'. split; [reflexivity|]. unfold letter. rewrite in_chars. vm_compute. discriminate.
    - cbn [append]. intro E. injection E as <- <-. split; [reflexivity|]. destruct YT as [[-> _]|[[L A] _]]; [discriminate|]. destruct y as [|d y]; [discriminate|]. exists d. eexists. split; [cbn [append]; reflexivity|].
      apply digit_not_letter, A. left. reflexivity. }
  assert (SPL : forall c, In c [" "%char; "."%char] -> ~ letter c).
  { intros c [<-|[<-|[]]]; unfold letter; rewrite in_chars; vm_compute; discriminate. }
  split; [|split; [|split]].
  - destruct SC as [->|(c & -> & L)]; [|apply sp_yes, L]. apply sp_no. intros c r L E. cbn [append] in E. unfold s2 in E. destruct (sb =? ""); cbn [append] in E.
    + destruct (N3 _ _ E) as [-> _]. apply (SPL " "%char); [left; reflexivity|exact L].
    + injection E as <- _. apply (SPL "."%char); [right; left; reflexivity|exact L].
  - unfold s2. destruct SB as [->|(c & -> & L)].
    + cbn [String.eqb append]. apply bp_no. intros a c r _ L E. destruct (N3 _ _ E) as [_ (d & r' & E2 & D)]. injection E2 as <- <-. exact (D L).
    + cbn [String.eqb one append]. apply bp_yes; [discriminate|exact L].
  - unfold s3. destruct YT as [[-> ->]|[Y (c & -> & C)]].
    + cbn [String.eqb append]. apply tp_no. intros y' c r [LY AY] _ E. unfold s4 in E. destruct (i =? ""); [discriminate|]. cbn [append] in E. injection E as E. destruct y' as [|d y']; [discriminate|].
      cbn [append] in E. injection E as <- _. assert (X := AY "["%char (or_introl eq_refl)). apply in_chars in X. vm_compute in X. discriminate.
    + replace (y =? "") with false by (symmetry; apply String.eqb_neq; intros ->; destruct Y; discriminate). rewrite <- !str_assoc. apply tp_yes; assumption.
  - unfold s4. destruct (i =? "") eqn:I.
    + apply String.eqb_eq in I. subst i. apply ip_no. intros i r _ _ E. discriminate.
    + rewrite <- (str_nil (" [" ++ i ++ "]")), <- !str_assoc. apply ip_yes; [apply String.eqb_neq, I|exact LI|]. intros a b E. destruct a; discriminate.
Qed.
Example written_example : well_formed (mkFields "CSCI" "121" "A" "L" "2019" "3" "CARL") /\ written (mkFields "CSCI" "121" "A" "L" "2019" "3" "CARL") = "CSCI 121A.L 2019-3 [CARL]".
Proof.
  split; [|reflexivity]. unfold well_formed. cbn [l_subject l_num l_section l_sub l_year l_term l_inst].
  assert (X : forall l s, forallb (fun c => existsb (Ascii.eqb c) l) (list_ascii_of_string s) = true -> all_in l s) by (intros l s H c I; rewrite forallb_forall in H; apply in_chars, H, I).
  split; [cbn; lia|]. split; [apply X; reflexivity|]. split; [reflexivity|]. split; [apply X; reflexivity|].
  split; [right; exists "A"%char; split; [reflexivity|apply in_chars; reflexivity]|]. split; [right; exists "L"%char; split; [reflexivity|apply in_chars; reflexivity]|].
  split; [right; split; [split; [reflexivity|apply X; reflexivity]|exists "3"%char; split; [reflexivity|discriminate]]|].
  intros [H|[H|[H|[H|[]]]]]; discriminate.
Qed.

(** Not every label says what is in it: a word after the number is taken for the letter of a kind of class, and the rest is ignored. *)
Definition whole (label : string) : Prop := forall f left_over, identifies label f left_over -> left_over = "" /\ label = written f.
Theorem labels_are_wholly_read_refuted :
  ~ (forall label, whole label) /\
  parse_label "CSCI 121 Lab" [] = Ok (Some (mkTemplate "CSCI" "121" "" "L" None "" "" "" "")) /\
  parse_label "CSCI 121A (spring)" [] = Ok (Some (mkTemplate "CSCI" "121" "A" "" None "" "" "" "")) /\
  parse_label "name=Calculus (AP)" [] = Ok None.
Proof.
  split; [|repeat split; vm_compute; reflexivity]. intro W.
  assert (X : forall l s, forallb (fun c => existsb (Ascii.eqb c) l) (list_ascii_of_string s) = true -> all_in l s) by (intros l s H c I; rewrite forallb_forall in H; apply in_chars, H, I).
  destruct (W "CSCI 121 Lab" (mkFields "CSCI" "121" "" "L" "" "" "") "ab") as [E _]; [|discriminate].
  exists " Lab", " Lab", "ab", "ab". cbn [l_subject l_num l_section l_sub l_year l_term l_inst].
  split; [reflexivity|]. split; [cbn; lia|]. split; [apply X; reflexivity|]. split; [reflexivity|]. split; [apply X; reflexivity|].
  split; [apply sp_no; intros c r L E; injection E as <- _; apply in_chars in L; vm_compute in L; discriminate|].
  split; [apply (bp_yes " " "L" "ab"); [discriminate|apply in_chars; reflexivity]|]. split; [apply tp_no; discriminate|apply ip_no; discriminate].
Qed.

(** ** C113: the class a label means *)
(** a class of the student's transcript *)
Definition of_a_row (c : course) : Prop :=
  exists now os df r c0, Transcript.load_course now os df r = Ok c0 /\ (c = c0 \/ c = unique_clbid c0).
Lemma rows_are_of_rows now os df inc rows : forall seen c, In c (g_items (load_rows now os df inc seen rows)) -> of_a_row c.
Proof.
  induction rows as [|r rows IH]; intros seen c; cbn [load_rows]; [intros []|]. destruct (Transcript.load_course now os df r) as [c0|] eqn:L; [|intros []].
  destruct (smem (c_clbid c0) seen).
  - destruct (c_clbid c0 =? c_clbid (unique_clbid c0)); [intros []|]. destruct (smem (c_clbid (unique_clbid c0)) seen); [intros []|].
    destruct (yielded inc (unique_clbid c0)); [|apply IH]. cbn. intros [<-|I]; [|eapply IH; exact I]. exists now, os, df, r, c0. auto.
  - destruct (yielded inc c0); [|apply IH]. cbn. intros [<-|I]; [|eapply IH; exact I]. exists now, os, df, r, c0. auto.
Qed.
Lemma student_rows now os df inc rows cs c : student_courses now os df inc rows = Ok cs -> In c cs -> of_a_row c.
Proof.
  unfold student_courses, load_transcript. destruct (g_exn _); [discriminate|]. intros E I. injection E as <-. apply in_isort in I. exact (rows_are_of_rows _ _ _ _ _ _ _ I).
Qed.
Fixpoint ends_with (c : ascii) (s : string) : Prop := match s with "" => False | String d "" => c = d | String _ t => ends_with c t end.
Lemma ends_app c a b : b <> "" -> ends_with c (a ++ b) <-> ends_with c b.
Proof.
  intro N. induction a as [|x a IH]; [reflexivity|]. rewrite app_eq. cbn [ends_with]. rewrite <- IH. destruct (a ++ b) eqn:E; [|reflexivity].
  destruct a; [|discriminate]. cbn in E. contradiction.
Qed.
Lemma row_suffix c : of_a_row c -> exists a, c_identity c = a ++ suffix (c_sub_type c).
Proof.
  intros (now & os & df & r & c0 & L & E). apply load_course_inv in L.
  destruct L as (cr & g & pts & op & sub & ty & tc & _ & _ & _ & _ & _ & _ & _ & _ & _ & _ & _ & _ & ES & _ & _ & _ & _ & EI & _).
  exists (c_subject c0 ++ " " ++ r_number r). rewrite <- !str_assoc. destruct E as [-> | ->]; [|unfold unique_clbid; cbn [set_clbid c_identity c_sub_type]]; rewrite EI, ES; reflexivity.
Qed.
(** letters of kinds of classes whose identity carries a suffix *)
Definition suffixed (s : string) : Prop := s = "L" \/ s = "F" \/ s = "D".
Lemma suffixed_ends s c : suffixed s -> of_a_row c -> (forall t, sub_letter s t -> c_sub_type c = t) -> ends_with "L" (c_identity c) \/ ends_with "F" (c_identity c) \/ ends_with "D" (c_identity c).
Proof.
  intros S R T. destruct (row_suffix c R) as [a ->]. destruct S as [-> | [-> | ->]].
  - left. rewrite (T _ sl_l). apply ends_app; [discriminate|]. reflexivity.
  - right. left. rewrite (T _ sl_f). apply ends_app; [discriminate|]. reflexivity.
  - right. right. rewrite (T _ sl_d). apply ends_app; [discriminate|]. reflexivity.
Qed.
Lemma numeral_end s c : String.length s = 3 -> all_in numerals s -> ends_with c s -> In c numerals.
Proof. intros L A. destruct s as [|x [|y [|z [|]]]]; try discriminate. cbn. intros ->. apply A. right. right. left. reflexivity. Qed.
(** A label for a lab, a foreign-language component or a discussion fits none of the student's classes. *)
Theorem lab_labels_fit_no_class : forall s f r c, identifies s f r -> suffixed (l_sub f) -> of_a_row c -> ~ fits f c.
Proof.
  intros s f r c (s1 & s2 & s3 & s4 & _ & _ & _ & LN & PN & _) S R (FI & _ & FS & _).
  assert (X : forall d, ends_with d (c_identity c) -> In d numerals).
  { intros d E. rewrite FI in E. apply ends_app in E; [|discriminate]. cbn [append] in E. change (String " " (l_num f)) with (" " ++ l_num f) in E. apply ends_app in E; [|intro Z; rewrite Z in LN; discriminate].
    exact (numeral_end _ _ LN PN E). }
  destruct (suffixed_ends _ _ S R FS) as [E|[E|E]]; apply X, in_chars in E; vm_compute in E; discriminate.
Qed.
(** So such a label never refers to a class. *)
Theorem lab_labels_refer_to_no_class : forall now os df inc rows cs s f r,
  student_courses now os df inc rows = Ok cs -> identifies s f r -> suffixed (l_sub f) ->
  parse_label s cs = Ok (Some (mkTemplate (l_subject f) (l_num f) (l_section f) (l_sub f) (year_given (l_year f)) (l_term f) (l_inst f) "" "")).
Proof.
  intros now os df inc rows cs s f r SC ID S. apply labels_are_read_exactly. apply (lm_id cs s f r None ID). intros c I. exact (lab_labels_fit_no_class s f r c ID S (student_rows _ _ _ _ _ _ _ SC I)).
Qed.
(** Neither does the course rule made of it, nor any rule that gives a course without suffix and such a letter. *)
Theorem lab_rules_find_no_class : forall cx r id,
  (forall c, In c (cx_transcript cx) -> of_a_row c) -> given (r_clbid r) = false ->
  r_course r = Some id -> r_sub_type r = Some "L" \/ r_sub_type r = Some "F" \/ r_sub_type r = Some "D" ->
  (forall d, ends_with d id -> In d numerals) ->
  g_items (find_courses cx r) = [].
Proof.
  intros cx r id R K C S N. unfold find_courses. rewrite K. induction (cx_transcript cx) as [|c l IH]; [reflexivity|]. cbn [gfilter].
  assert (F : course_filter (rule_filter r) c = Ok false \/ exists e, course_filter (rule_filter r) c = Err e).
  { destruct (course_filter (rule_filter r) c) as [b|e] eqn:E; [|eauto]. left. destruct b; [|reflexivity]. exfalso.
    unfold course_filter in E. destruct (_ && _); [discriminate|]. destruct (given_differs _ _); [discriminate|]. destruct (course_part (rule_filter r) c) as [ok|] eqn:P; [|discriminate]. cbn [bind] in E. destruct ok; [|discriminate]. clear E.
    unfold course_part, rule_filter in P. cbn [f_course f_section f_year f_term f_sub_type] in P. rewrite C in P. destruct (c_identity c =? id) eqn:EI; cbn [negb] in P; [|discriminate]. apply String.eqb_eq in EI.
    destruct (match r_section r with Some _ => _ | None => _ end); [discriminate|]. destruct (match r_year r with Some _ => _ | None => _ end) as [yo|]; [|discriminate]. cbn [bind] in P. destruct yo; [|discriminate]. cbn [negb] in P.
    assert (ST : exists s, r_sub_type r = Some s /\ suffixed s) by (unfold suffixed; destruct S as [S|[S|S]]; eauto 6). destruct ST as (s & ES & SU). rewrite ES in P. cbn [or_empty] in P. injection P as P. pose proof (proj1 (sub_ok s c) P) as P2.
    destruct (suffixed_ends _ _ SU (R c (or_introl eq_refl)) P2) as [E|[E|E]]; rewrite EI in E; apply N, in_chars in E; vm_compute in E; discriminate. }
  destruct F as [-> | [e ->]]; [|reflexivity]. apply IH. intros d I. apply R. right. exact I.
Qed.
(** The student takes the lab; its label does not find it, and neither does the rule made of the label. *)
Theorem lab_labels_find_their_class_refuted :
  let lab := row_example "7" "B+" "grade" "a" in
  match student_courses None [] [] false [lab] with
  | Ok cs =>
    map (fun c => (c_subject c, c_number c, c_sub_type c, c_clbid c, c_stolaf c)) cs = [("CSCI", "121", StLab, "7", true)] /\
    parse_label "CSCI 121.L" cs = Ok (Some (mkTemplate "CSCI" "121" "" "L" None "" "" "" "")) /\
    parse_label "CSCI 121" cs = Ok (Some (mkTemplate "CSCI" "121" "" "" None "" "" "" ""))
  | Err _ => False
  end.
Proof. vm_compute. auto. Qed.
Example label_example :
  let row := mkRow [] "8" "SE" "1.00" "c1" true false false false true [] "A" "grade" "4.0" "STOLAF" 100 "Intro" "121" None "B" "" "CSCI" "?" "1" "" 2018 in
  match student_courses None [] [] false [row] with
  | Ok cs => parse_label "CSCI 121B 2018-1" cs = Ok (Some (mkTemplate "CSCI" "121" "B" "" (Some 2018%Z) "1" "" "" "8")) /\
             parse_label "CSCI 121A" cs = Ok (Some (mkTemplate "CSCI" "121" "A" "" None "" "" "" "")) /\
             parse_label "name=Intro [STOLAF]" cs = Ok (Some (mkTemplate "CSCI" "121" "" "" None "" "STOLAF" "Intro" "8")) /\
             parse_label "Computing" cs = Ok None
  | Err _ => False
  end.
Proof. vm_compute. auto. Qed.

(** ** C114: the templates of a student *)
Definition skey_cmp (a b : skey) : comparison :=
  match a, b with SK s, SK t => String.compare s t | YK x, YK y => year_cmp x y | SK _, YK _ => Lt | YK _, SK _ => Gt end.
Fixpoint fields_cmp (a b : list skey) : comparison :=
  match a, b with
  | [], [] => Eq | [], _ => Lt | _, [] => Gt
  | x :: l, y :: m => then_cmp (skey_cmp x y) (fields_cmp l m)
  end.
Lemma skey_cmp_eq a b : skey_cmp a b = Eq <-> a = b.
Proof.
  destruct a as [s|[x|]], b as [t|[y|]]; cbn; try (split; congruence); [rewrite str_compare_eq|rewrite Z.compare_eq_iff]; split; congruence.
Qed.
Lemma skey_cmp_opp a b : skey_cmp b a = CompOpp (skey_cmp a b).
Proof. destruct a as [s|[x|]], b as [t|[y|]]; cbn; auto; [apply String.compare_antisym|apply Z.compare_antisym]. Qed.
Lemma skey_cmp_trans a b c : skey_cmp a b = Lt -> skey_cmp b c = Lt -> skey_cmp a c = Lt.
Proof. destruct a as [s|[x|]], b as [t|[y|]], c as [v|[z|]]; cbn; auto; try discriminate; [apply str_lt_trans|rewrite !Z.compare_lt_iff; lia]. Qed.
Lemma fields_cmp_eq a : forall b, fields_cmp a b = Eq <-> a = b.
Proof.
  induction a as [|x a IH]; intros [|y b]; cbn; try (split; congruence). unfold then_cmp. destruct (skey_cmp x y) eqn:K.
  - apply skey_cmp_eq in K. subst. rewrite IH. split; congruence.
  - split; [discriminate|]. intros [= -> ->]. rewrite (proj2 (skey_cmp_eq y y) eq_refl) in K. discriminate.
  - split; [discriminate|]. intros [= -> ->]. rewrite (proj2 (skey_cmp_eq y y) eq_refl) in K. discriminate.
Qed.
Lemma fields_cmp_opp a : forall b, fields_cmp b a = CompOpp (fields_cmp a b).
Proof. induction a as [|x a IH]; intros [|y b]; cbn; auto. rewrite (skey_cmp_opp x y). unfold then_cmp. destruct (skey_cmp x y); cbn; auto. Qed.
Lemma fields_cmp_trans a : forall b c, fields_cmp a b = Lt -> fields_cmp b c = Lt -> fields_cmp a c = Lt.
Proof.
  induction a as [|x a IH]; intros [|y b] [|z c]; cbn; auto; try discriminate. unfold then_cmp.
  destruct (skey_cmp x y) eqn:K1; try discriminate; destruct (skey_cmp y z) eqn:K2; try discriminate; intros H1 H2.
  - apply skey_cmp_eq in K1, K2. subst. rewrite (proj2 (skey_cmp_eq z z) eq_refl). eauto.
  - apply skey_cmp_eq in K1. subst. rewrite K2. reflexivity.
  - apply skey_cmp_eq in K2. subst. rewrite K1. reflexivity.
  - rewrite (skey_cmp_trans _ _ _ K1 K2). reflexivity.
Qed.
Lemma keyed_is a b : keyed_cmp a b = fields_cmp (sort_fields a) (sort_fields b).
Proof.
  unfold keyed_cmp, template_cmp, sort_fields. cbn [fields_cmp skey_cmp]. assert (E : forall c, then_cmp c Eq = c) by (intros []; reflexivity). rewrite E. reflexivity.
Qed.
Lemma sort_fields_inj a b : sort_fields a = sort_fields b -> a = b.
Proof. destruct a as [k []], b as [k' []]. unfold sort_fields. cbn. intros [=]. subst. reflexivity. Qed.
Lemma keyed_eqb_iff a b : keyed_eqb a b = true <-> a = b.
Proof.
  unfold keyed_eqb. rewrite keyed_is. destruct (fields_cmp (sort_fields a) (sort_fields b)) eqn:E; split; try discriminate; intro H; auto.
  - apply fields_cmp_eq in E. apply sort_fields_inj, E.
  - subst. rewrite (proj2 (fields_cmp_eq _ _) eq_refl) in E. discriminate.
  - subst. rewrite (proj2 (fields_cmp_eq _ _) eq_refl) in E. discriminate.
Qed.
Lemma keyed_total a b : keyed_leb a b = true \/ keyed_leb b a = true.
Proof. unfold keyed_leb. rewrite !keyed_is, (fields_cmp_opp (sort_fields a)). destruct (fields_cmp (sort_fields a) (sort_fields b)); cbn; auto. Qed.
Lemma keyed_trans a b c : keyed_leb a b = true -> keyed_leb b c = true -> keyed_leb a c = true.
Proof.
  unfold keyed_leb. rewrite !keyed_is. intros H1 H2. destruct (fields_cmp (sort_fields a) (sort_fields b)) eqn:E1; try discriminate; destruct (fields_cmp (sort_fields b) (sort_fields c)) eqn:E2; try discriminate.
  - apply fields_cmp_eq in E1, E2. rewrite E1, E2. rewrite (proj2 (fields_cmp_eq _ _) eq_refl). reflexivity.
  - apply fields_cmp_eq in E1. rewrite E1, E2. reflexivity.
  - apply fields_cmp_eq in E2. rewrite <- E2, E1. reflexivity.
  - rewrite (fields_cmp_trans _ _ _ E1 E2). reflexivity.
Qed.
Lemma fields_lt_iff a b : fields_lt (sort_fields a) (sort_fields b) <-> keyed_cmp a b = Lt.
Proof.
  rewrite keyed_is. unfold sort_fields.
  assert (G : forall l m, List.length l = List.length m -> (forall i x y, nth_error l i = Some x -> nth_error m i = Some y -> skey_lt x y <-> skey_cmp x y = Lt) -> fields_lt l m <-> fields_cmp l m = Lt).
  { clear. induction l as [|x l IH]; intros [|y m] L T; cbn in *; try discriminate; [split; [intro H; inversion H|discriminate]|].
    assert (IH' : fields_lt l m <-> fields_cmp l m = Lt) by (apply IH; [lia|intros i u v A B; apply (T (S i) u v A B)]). assert (K0 := T 0%nat x y eq_refl eq_refl).
    unfold then_cmp. split.
    - intro H. inversion H as [? ? ? ? K|? ? ? H']; subst; [apply K0 in K; rewrite K; reflexivity|]. rewrite (proj2 (skey_cmp_eq y y) eq_refl). apply IH'. exact H'.
    - intro H. destruct (skey_cmp x y) eqn:K; try discriminate; [|apply fl_here, K0; reflexivity]. apply skey_cmp_eq in K. subst. apply fl_there, IH', H. }
  apply G; [reflexivity|]. intros i x y A B.
  assert (YC : forall u v, before_year u v <-> year_cmp u v = Lt).
  { intros [u|] [v|]; cbn; split; intro H; try discriminate; try (inversion H; fail).
    - inversion H; subst. apply Z.compare_lt_iff. assumption.
    - constructor. apply Z.compare_lt_iff, H.
    - reflexivity.
    - constructor. }
  do 10 (destruct i as [|i]; [cbn in A, B; injection A as <-; injection B as <-; cbn [skey_lt skey_cmp]; try apply YC; reflexivity|]). destruct i; discriminate.
Qed.
Lemma ascending_unique l : forall m, ascending l -> ascending m -> (forall x, In x l <-> In x m) -> l = m.
Proof.
  assert (IR : forall x, ~ fields_lt (sort_fields x) (sort_fields x)).
  { intros x H. apply fields_lt_iff in H. rewrite keyed_is, (proj2 (fields_cmp_eq _ _) eq_refl) in H. discriminate. }
  assert (AS : forall x y, fields_lt (sort_fields x) (sort_fields y) -> fields_lt (sort_fields y) (sort_fields x) -> False).
  { intros x y H K. apply fields_lt_iff in H, K. rewrite keyed_is in H, K. rewrite (fields_cmp_opp (sort_fields x)), H in K. discriminate. }
  induction l as [|x l IH]; intros [|y m] S1 S2 E; auto.
  - destruct (proj2 (E y) (or_introl eq_refl)).
  - destruct (proj1 (E x) (or_introl eq_refl)).
  - apply StronglySorted_inv in S1, S2. destruct S1 as [S1 F1], S2 as [S2 F2]. rewrite Forall_forall in F1, F2.
    assert (x = y).
    { destruct (proj1 (E x) (or_introl eq_refl)) as [->|I]; [reflexivity|]. destruct (proj2 (E y) (or_introl eq_refl)) as [->|J]; [reflexivity|]. exfalso. exact (AS _ _ (F1 _ J) (F2 _ I)). }
    subst y. f_equal. apply IH; auto. intro z. split; intro I.
    + destruct (proj1 (E z) (or_intror I)) as [<-|J]; [destruct (IR _ (F1 _ I))|exact J].
    + destruct (proj2 (E z) (or_intror I)) as [<-|J]; [destruct (IR _ (F2 _ I))|exact J].
Qed.
(** The templates are what the labels mean, once each, in order. *)
Theorem templates_are_what_the_labels_mean : forall tord data transcript,
  (forall l, Permutation (tord l) l) ->
  exists l, templates_of tord data transcript = Ok l /\ ascending l /\ forall kt, In kt l <-> meant data transcript kt.
Proof.
  intros tord data transcript PT. unfold templates_of.
  set (f := fun kl : string * string => let! o := parse_label (snd kl) transcript in Ok (match o with Some t => [(fst kl, t)] | None => [] end)).
  set (pairs := flat_map (fun kv : string * list string => map (fun label => (fst kv, label)) (snd kv)) data).
  assert (M : exists ls, mapr f pairs = Ok ls /\ forall kt, In kt (List.concat ls) <-> exists label, In (fst kt, label) pairs /\ label_means transcript label (Some (snd kt))).
  { induction pairs as [|[k s] ps (ls & E & H)]; [exists []; split; [reflexivity|]; intro kt; cbn; split; [intros []|intros (? & [] & _)]|].
    cbn [mapr]. unfold f at 1. cbn [fst snd]. destruct (label_ok s transcript) as (o & EO & MO). rewrite EO. cbn [bind]. rewrite E. cbn [bind].
    eexists. split; [reflexivity|]. intro kt. cbn [List.concat]. rewrite in_app_iff, H. split.
    - intros [I|(label & I & L)]; [|exists label; split; [right; exact I|exact L]]. destruct o as [t|]; [|destruct I]. destruct I as [<-|[]]. exists s. split; [left; reflexivity|exact MO].
    - intros (label & [I|I] & L); [|right; eauto]. left. destruct kt as [k' t']. cbn [fst snd] in *. injection I as <- <-. rewrite (label_means_fun _ _ _ _ MO L). left. reflexivity. }
  destruct M as (ls & -> & H). cbn [bind]. eexists. split; [reflexivity|].
  assert (IN : forall kt, In kt (isort keyed_leb (tord (dedup keyed_eqb (List.concat ls)))) <-> In kt (List.concat ls)).
  { intro kt. rewrite in_isort. rewrite <- (in_dedup keyed_eqb keyed_eqb_iff kt (List.concat ls)). split; apply Permutation_in; [apply PT|symmetry; apply PT]. }
  split.
  - assert (S := isort_sorted keyed_leb keyed_total keyed_trans (tord (dedup keyed_eqb (List.concat ls)))).
    assert (N : NoDup (isort keyed_leb (tord (dedup keyed_eqb (List.concat ls))))).
    { apply isort_NoDup. eapply Permutation_NoDup; [symmetry; apply PT|]. apply dedup_NoDup, keyed_eqb_iff. }
    revert S N. generalize (isort keyed_leb (tord (dedup keyed_eqb (List.concat ls)))). clear. intros l S. induction S as [|x l S IH F]; intro N; [constructor|]. inversion N; subst. constructor; [apply IH; assumption|].
    rewrite Forall_forall in *. intros y I. apply fields_lt_iff. specialize (F y I). unfold lebP, keyed_leb in F. destruct (keyed_cmp x y) eqn:E; [|reflexivity|discriminate].
    exfalso. assert (x = y) by (apply keyed_eqb_iff; unfold keyed_eqb; rewrite E; reflexivity). subst. contradiction.
  - intro kt. rewrite IN, H. unfold meant, pairs. split.
    + intros (label & I & L). apply in_flat_map in I. destruct I as ([k labels] & I & J). apply in_map_iff in J. destruct J as (lb & E & J). cbn [fst snd] in *. injection E as -> ->. eauto.
    + intros (labels & label & I & J & L). exists label. split; [|exact L]. apply in_flat_map. exists (fst kt, labels). split; [exact I|]. apply in_map_iff. eauto.
Qed.
(** Only what is said matters: not the order of the labels or of the set, nor repetitions. *)
Theorem templates_do_not_depend_on_order : forall tord tord' data data' transcript,
  (forall l, Permutation (tord l) l) -> (forall l, Permutation (tord' l) l) ->
  (forall k s, (exists labels, In (k, labels) data /\ In s labels) <-> (exists labels, In (k, labels) data' /\ In s labels)) ->
  templates_of tord data transcript = templates_of tord' data' transcript.
Proof.
  intros tord tord' data data' transcript P P' E. destruct (templates_are_what_the_labels_mean tord data transcript P) as (l & -> & S & H). destruct (templates_are_what_the_labels_mean tord' data' transcript P') as (l' & -> & S' & H').
  f_equal. apply ascending_unique; auto. intro kt. rewrite H, H'. unfold meant. split; intros (labels & s & I & J & L).
  - destruct (proj1 (E (fst kt) s)) as (labels' & I' & J'); eauto 6.
  - destruct (proj2 (E (fst kt) s)) as (labels' & I' & J'); eauto 6.
Qed.
(** Each key has its templates, in order. *)
Lemma of_key_fun k l ts ts' : of_key k l ts -> of_key k l ts' -> ts = ts'.
Proof. intro A. revert ts'. induction A as [|t l ts A IH|k' t l ts N A IH]; intros ts' B; inversion B; subst; auto; try contradiction. f_equal. apply IH. assumption. Qed.
Lemma of_key_app k l ts m us : of_key k l ts -> of_key k m us -> of_key k (l ++ m) (ts ++ us).
Proof. intros A B. induction A; cbn; [exact B|constructor; assumption|constructor; assumption]. Qed.
Lemma of_key_ex k l : exists ts, of_key k l ts.
Proof. induction l as [|[k' t] l (ts & H)]; [exists []; constructor|]. destruct (String.string_dec k' k) as [->|N]; [exists (t :: ts)|exists ts]; constructor; assumption. Qed.
Theorem templates_are_grouped_by_key : forall l k,
  NoDup (map fst (templates_as_dict l)) /\
  of_key k l (match dget (templates_as_dict l) k with Some ts => ts | None => [] end) /\
  (In k (map fst (templates_as_dict l)) <-> In k (map fst l)).
Proof.
  intro l. induction l as [|[k0 t] l IH] using rev_ind; intro k; [repeat split; try constructor; intros []|]. unfold templates_as_dict in *. rewrite fold_left_app. cbn [fold_left fst snd].
  set (d := fold_left _ l []) in *. destruct (IH k) as (ND & OK & KS). split; [|split].
  - rewrite dset_keys. destruct (dget d k0) eqn:G; [exact ND|]. apply dget_None_notin in G. eapply Permutation_NoDup; [apply Permutation_cons_append|]. constructor; assumption.
  - destruct (String.string_dec k0 k) as [->|N].
    + rewrite dget_dset_same. apply of_key_app; [exact OK|repeat constructor].
    + rewrite dget_dset_other by exact N. rewrite <- (app_nil_r (match dget d k with Some ts => ts | None => [] end)). apply of_key_app; [exact OK|repeat constructor; exact N].
  - rewrite dset_keys, map_app, in_app_iff. cbn [map fst]. destruct (dget d k0) eqn:G.
    + rewrite KS. split; [auto|]. intros [I|[<-|[]]]; [exact I|]. apply (IH k0). apply dget_Some_in in G. apply (in_map fst) in G. exact G.
    + rewrite in_app_iff, KS. reflexivity.
Qed.
Example templates_example :
  let data := [("two", ["CSCI 251"; "CSCI 121 2019-1"; "Computing"; "CSCI 251 extra"]); ("one", ["CSCI 121"; "name=Calculus"])] in
  match templates_of (@rev _) data [] with
  | Ok l => map (fun kt => (fst kt, tp_subject (snd kt), tp_num (snd kt), tp_name (snd kt))) l =
              [("one", "", "", "Calculus"); ("one", "CSCI", "121", ""); ("two", "CSCI", "121", ""); ("two", "CSCI", "251", "")] /\
            map (fun p => (fst p, map tp_num (snd p))) (templates_as_dict l) = [("one", [""; "121"]); ("two", ["121"; "251"])]
  | Err _ => False
  end.
Proof. vm_compute. auto. Qed.
