(** Property theorems about stored transcripts (C145, C146). *)
From Coq Require Import List Bool Arith ZArith QArith String Ascii Lia.
From Verif Require Import Prelude Dec Course Op Exceptions Context Paths StrFacts Predicate LabelSpec StudentProofs AreaLoadProofs LimitLoadSpec LimitLoadProofs Transcript Json Stored.
Import ListNotations.
Local Open Scope string_scope.

(** ** Decimal numbers are read back *)
(** at most six digits behind the point, and no trailing zeros left out before it *)
Definition plainly_written (d : dec) : Prop := (-6 <= dexp d <= 0)%Z.
Lemma digits_reads s : forall z v, digits_val s z = Some v -> all_in numerals s /\ v = reads z s.
Proof.
  induction s as [|c s IH]; intros z v H; cbn [digits_val] in H.
  - injection H as <-. split; [intros ? []|reflexivity].
  - destruct (digit_val c) as [d|] eqn:D; [|discriminate]. rewrite <- digit_of_val in D. apply IH in H as (A & ->). split.
    + apply all_in_cons. split; [apply digit_numeral; eauto|exact A].
    + unfold reads. cbn [list_ascii_of_string fold_left]. rewrite (digit_value _ _ D). try (f_equal; lia); reflexivity.
Qed.
Lemma zeros_reads n s : reads 0 (zeros n ++ s) = reads 0 s.
Proof. induction n as [|n IH]; [reflexivity|]. cbn [zeros append]. unfold reads in *. cbn [list_ascii_of_string fold_left]. exact IH. Qed.
Lemma zeros_in n : all_in numerals (zeros n).
Proof. induction n as [|n IH]; [intros ? []|]. cbn [zeros]. apply all_in_cons. split; [left; reflexivity|exact IH]. Qed.
Lemma zeros_len n : String.length (zeros n) = n.
Proof. induction n; cbn; congruence. Qed.
Lemma len_app a b : String.length (a ++ b) = (String.length a + String.length b)%nat.
Proof. induction a; cbn; congruence. Qed.
Lemma substring_split n : forall s, (n <= String.length s)%nat -> s = substring 0 n s ++ substring n (String.length s) s /\ String.length (substring 0 n s) = n.
Proof.
  assert (A : forall s m, (String.length s <= m)%nat -> substring 0 m s = s).
  { induction s as [|c s IH]; intros [|m] L; cbn in *; try reflexivity; try lia. rewrite IH by lia. reflexivity. }
  assert (B : forall s n m, (String.length s <= n + m)%nat -> (n <= String.length s)%nat -> s = substring 0 n s ++ substring n m s /\ String.length (substring 0 n s) = n).
  { induction s as [|c s IH]; intros [|n'] m L M; cbn [String.length] in *; try lia.
    - cbn [substring append]. destruct m; split; reflexivity.
    - rewrite (A (String c s) m) by (cbn; lia). cbn. split; reflexivity.
    - cbn [substring append String.length]. destruct (IH n' m) as (E & F); [lia|lia|]. rewrite <- E, F. split; reflexivity. }
  intros s L. apply B; lia.
Qed.
Theorem decimals_are_read_back : forall d, plainly_written d -> dec_of_str (str_of_dec d) = Ok d.
Proof.
  intros (m, e) (L & U). cbn [dexp] in *. apply decimals_are_read_exactly. unfold str_of_dec. cbn [dcoef dexp].
  set (ds := str_of_Z (Z.abs m)). destruct (str_of_Z_digits (Z.abs m) (Z.abs_nonneg m)) as (V & N). fold ds in V, N. apply digits_reads in V as (A & V).
  assert (P : (1 <= String.length ds)%nat) by (destruct ds; [congruence|cbn; lia]).
  assert (S : signed (m <? 0)%Z (Z.abs m) = m) by (unfold signed; destruct (Z.ltb_spec m 0); lia).
  set (len := Z.of_nat (String.length ds)). assert (PL : (1 <= len)%Z) by lia.
  replace ((e <=? 0)%Z && (-6 <? e + len)%Z) with true by (symmetry; apply andb_true_iff; split; [apply Z.leb_le|apply Z.ltb_lt]; lia).
  rewrite Z.eqb_refl. change (if (m <? 0)%Z then "-" else "") with (sign_text (m <? 0)%Z).
  assert (NIL : forall s, s ++ "" = s) by (induction s as [|c s IH]; [reflexivity|cbn; rewrite IH; reflexivity]). rewrite !NIL.
  destruct (Z.leb_spec (e + len) 0) as [Z0|Z0].
  - assert (R : reads 0 ("0" ++ zeros (Z.to_nat (- (e + len))) ++ ds) = Z.abs m).
    { change (reads 0 (zeros 1 ++ zeros (Z.to_nat (- (e + len))) ++ ds) = Z.abs m). rewrite !zeros_reads. symmetry. exact V. }
    replace (mkDec m e) with (mkDec (signed (m <? 0)%Z (year_number ("0" ++ zeros (Z.to_nat (- (e + len))) ++ ds))) (- Z.of_nat (String.length (zeros (Z.to_nat (- (e + len))) ++ ds)))).
    + apply dt_point; [|apply all_in_cons; split; [left; reflexivity|intros ? []]|]; [destruct (zeros _); [exact N|discriminate]|]. apply all_in_app. split; [apply zeros_in|exact A].
    + f_equal; [change (signed (m <? 0)%Z (reads 0 ("0" ++ zeros (Z.to_nat (- (e + len))) ++ ds)) = m); rewrite R; exact S|]. rewrite len_app, zeros_len, Nat2Z.inj_add, Z2Nat.id by lia. fold len. lia.
  - destruct (Z.leb_spec len (e + len)) as [Z1|Z1].
    + assert (e = 0)%Z by lia. subst e. replace (0 + len - len)%Z with 0%Z by lia. cbn [Z.to_nat zeros]. rewrite !NIL.
      replace (mkDec m 0) with (mkDec (signed (m <? 0)%Z (year_number ds)) 0); [apply dt_whole; assumption|]. f_equal. change (signed (m <? 0)%Z (reads 0 ds) = m). rewrite <- V. exact S.
    + destruct (substring_split (Z.to_nat (e + len)) ds) as (E & F); [lia|]. set (a := substring 0 (Z.to_nat (e + len)) ds) in *. set (b := substring (Z.to_nat (e + len)) (String.length ds) ds) in *.
      assert (LB : Z.of_nat (String.length b) = (- e)%Z) by (assert (X := f_equal String.length E); rewrite len_app, F in X; lia).
      rewrite E in A. apply all_in_app in A as (A1 & A2).
      replace (mkDec m e) with (mkDec (signed (m <? 0)%Z (year_number (a ++ b))) (- Z.of_nat (String.length b))).
      * apply dt_point; try assumption. intro X. rewrite X in LB. cbn in LB. lia.
      * rewrite LB. f_equal; [|lia]. change (signed (m <? 0)%Z (reads 0 (a ++ b)) = m). rewrite <- E, <- V. exact S.
Qed.
Print Assumptions decimals_are_read_back.
Example decimals_example : map (fun d => dec_of_str (str_of_dec d)) [mkDec 100 (-2); mkDec (-5) (-3); mkDec 0 0; mkDec 12345 (-2)] = [Ok (mkDec 100 (-2)); Ok (mkDec (-5) (-3)); Ok (mkDec 0 0); Ok (mkDec 12345 (-2))].
Proof. vm_compute. reflexivity. Qed.

(** ** C145 *)
(** a course as it comes from the student's data *)
Definition loaded (c : course) : Prop :=
  exists now os defaults r c0 k, Transcript.load_course now os defaults r = Ok c0 /\ c = set_clbid c0 k.
(** what is forgotten: the meeting, the hidden grade, and whether it is in progress now or later *)
Definition forgetful (c : course) : course :=
  {| c_clbid := c_clbid c; c_attributes := c_attributes c; c_credits := c_credits c; c_crsid := c_crsid c;
     c_course_type := c_course_type c; c_gereqs := c_gereqs c; c_gpa_points := c_gpa_points c;
     c_grade_code := c_grade_code c; c_grade_option := c_grade_option c; c_grade_points := c_grade_points c;
     c_institution := c_institution c; c_in_gpa := c_in_gpa c; c_in_progress := c_in_progress c;
     c_ip_this_term := false; c_ip_in_future := false; c_incomplete := c_incomplete c;
     c_repeat := c_repeat c; c_stolaf := c_stolaf c; c_lab := c_lab c; c_covid := c_covid c;
     c_level := c_level c; c_name := c_name c; c_number := c_number c; c_schedid := None;
     c_section := c_section c; c_sub_type := c_sub_type c; c_subject := c_subject c; c_su_grade := None;
     c_term := c_term c; c_transcript_code := c_transcript_code c; c_year := c_year c; c_yearterm := c_yearterm c;
     c_identity := c_identity c; c_chbi := c_chbi c |}.
(** C145. A stored course is read back as it was, except for those four. *)
Theorem stored_course_is_read_back :
  forall c, loaded c -> plainly_written (c_credits c) -> plainly_written (c_grade_points c) ->
  Transcript.load_course None [] [] (stored_row c) = Ok (forgetful c).
Proof.
  intros c (now & os & defaults & r & c0 & k & H & ->) PC PG. unfold Transcript.load_course in H.
  apply bind_iff in H as (credits & CR & H). apply bind_iff in H as (grade & GR & H). apply bind_iff in H as (points & PO & H). apply bind_iff in H as (opt & OP & H).
  apply bind_iff in H as (sub & SU & H). apply bind_iff in H as (ty & TY & H). apply bind_iff in H as (tc & TC & H). apply bind_iff in H as (su & SG & H).
  cbv zeta in H.
  match type of H with (let '(_, _) := ?p in _) = _ => destruct p as (this, future) end. injection H as <-.
  cbn [c_credits c_grade_points set_clbid] in PC, PG.
  unfold Transcript.load_course, stored_row, row_credits, forgetful, set_clbid.
  cbn [r_attributes r_clbid r_course_type r_credits r_crsid r_gpa r_incomplete r_in_progress r_repeat r_stolaf r_gereqs r_grade_code r_grade_option r_grade_points r_institution r_level r_name r_number r_schedid r_section r_sub_type r_subject r_su_grade r_term r_transcript_code r_year
       c_clbid c_attributes c_credits c_crsid c_course_type c_gereqs c_gpa_points c_grade_code c_grade_option c_grade_points c_institution c_in_gpa c_in_progress c_ip_this_term c_ip_in_future c_incomplete c_repeat c_stolaf c_lab c_covid c_level c_name c_number c_schedid c_section c_sub_type c_subject c_su_grade c_term c_transcript_code c_year c_yearterm c_identity c_chbi
       credit_override subject_override truthy sget find].
  rewrite (decimals_are_read_back _ PC), (decimals_are_read_back _ PG). cbn [bind].
  assert (G : grade_of_value (grade_value grade) = Ok grade) by (destruct grade; reflexivity). rewrite G. cbn [bind].
  assert (O1 : option_of_value (option_value opt) = Ok opt) by (destruct opt; reflexivity). rewrite O1. cbn [bind].
  assert (S1 : sub_type_of_value (sub_type_value sub) = Ok sub) by (destruct sub; reflexivity). rewrite S1. cbn [bind].
  assert (T1 : course_type_of_value (course_type_value ty) = Ok ty) by (destruct ty; reflexivity). rewrite T1. cbn [bind].
  assert (C1 : transcript_code_of_value (transcript_code_value tc) = Ok tc) by (destruct tc; reflexivity). rewrite C1. cbn [bind].
  change ("?" =? "?") with true. cbv beta iota zeta. cbn [bind].
  f_equal. f_equal. destruct (r_section r); reflexivity.
Qed.
Print Assumptions stored_course_is_read_back.

(** A whole transcript is read back in order. *)
Theorem stored_transcript_is_read_back :
  forall cs, (forall c, In c cs -> loaded c /\ plainly_written (c_credits c) /\ plainly_written (c_grade_points c)) ->
  read_back cs = Ok (map forgetful cs).
Proof.
  intros cs H. unfold read_back. induction cs as [|c cs IH]; [reflexivity|]. cbn [mapr map]. destruct (H c (or_introl eq_refl)) as (L & C & G).
  rewrite (stored_course_is_read_back c L C G). cbn [bind]. rewrite IH by (intros x X; apply H; right; exact X). reflexivity.
Qed.
Print Assumptions stored_transcript_is_read_back.
(** a row with a hidden grade, taken in the term of the exception *)
Definition hidden_row : row :=
  {| r_attributes := ["mathematics"]; r_clbid := "100"; r_course_type := "SE"; r_credits := "1.00"; r_crsid := "7"; r_gpa := false; r_incomplete := false;
     r_in_progress := false; r_repeat := false; r_stolaf := true; r_gereqs := []; r_grade_code := "S"; r_grade_option := "s/u"; r_grade_points := "0.00";
     r_institution := "STOLAF"; r_level := 100; r_name := "Calculus"; r_number := "120"; r_schedid := Some "5"; r_section := "A"; r_sub_type := ""; r_subject := "MATH";
     r_su_grade := "C"; r_term := "3"; r_transcript_code := ""; r_year := 2019 |}.
Definition going_row : row :=
  {| r_attributes := []; r_clbid := "101"; r_course_type := "SE"; r_credits := "0.25"; r_crsid := "8"; r_gpa := true; r_incomplete := false;
     r_in_progress := true; r_repeat := false; r_stolaf := true; r_gereqs := []; r_grade_code := "IP"; r_grade_option := "grade"; r_grade_points := "0.00";
     r_institution := "STOLAF"; r_level := 200; r_name := "Algebra"; r_number := "220"; r_schedid := None; r_section := ""; r_sub_type := "lab"; r_subject := "MATH";
     r_su_grade := "?"; r_term := "1"; r_transcript_code := ""; r_year := 2020 |}.
Lemma loaded_row now os defaults r c : Transcript.load_course now os defaults r = Ok c -> loaded c.
Proof. intro H. exists now, os, defaults, r, c, (c_clbid c). split; [exact H|]. destruct c; reflexivity. Qed.
Example stored_transcript_example :
  exists a b, Transcript.load_course (Some "20201") [] [] hidden_row = Ok a /\ Transcript.load_course (Some "20201") [] [] going_row = Ok b /\
  (forall c, In c [a; b] -> loaded c /\ plainly_written (c_credits c) /\ plainly_written (c_grade_points c)) /\ c_ip_this_term b = true.
Proof.
  destruct (Transcript.load_course (Some "20201") [] [] hidden_row) as [a|] eqn:A; [|vm_compute in A; discriminate].
  destruct (Transcript.load_course (Some "20201") [] [] going_row) as [b|] eqn:B; [|vm_compute in B; discriminate].
  exists a, b. split; [reflexivity|]. split; [reflexivity|]. split.
  - intros c [<-|[<-|[]]]; (split; [eapply loaded_row; eassumption|]).
    + vm_compute in A. injection A as <-. split; (split; cbn; lia).
    + vm_compute in B. injection B as <-. split; (split; cbn; lia).
  - vm_compute in B. injection B as <-. reflexivity.
Qed.
(** A stored course is read back as it was. Refuted. *)
Definition stored_courses_are_kept : Prop :=
  forall now r c, Transcript.load_course now [] [] r = Ok c -> Transcript.load_course None [] [] (stored_row c) = Ok c.
Theorem stored_courses_are_kept_refuted : ~ stored_courses_are_kept.
Proof.
  intro H. destruct (Transcript.load_course None [] [] hidden_row) as [c|] eqn:E; [|vm_compute in E; discriminate]. specialize (H None hidden_row c E).
  vm_compute in E. injection E as <-. vm_compute in H. discriminate.
Qed.

(** ** C146 *)
(** C146. A course that was read back is judged as before by every clause, unless it is one about the
    grade and the course has a hidden one. *)
Theorem clauses_judge_stored_courses_alike :
  forall c l, l_key l <> "grade" \/ c_covid c = false \/ c_grade_code c <> G_S \/ c_su_grade c = None ->
  course_apply (forgetful c) l = course_apply c l.
Proof.
  intros c l H. unfold course_apply. destruct (l_key l =? "grade") eqn:E; [|reflexivity].
  apply String.eqb_eq in E. rewrite E. change (apply_grade (forgetful c) l = apply_grade c l). unfold apply_grade. cbn [forgetful c_covid c_grade_code c_su_grade].
  destruct H as [H|[->|[H|H]]]; [contradiction|reflexivity| |].
  - destruct (c_covid c); [|reflexivity]. destruct (c_grade_code c); try reflexivity. contradiction.
  - rewrite H. reflexivity.
Qed.
Print Assumptions clauses_judge_stored_courses_alike.
Definition grade_clause : leaf := mkLeaf "grade" OGte (VS (SGrade GC)) None.
(** Every clause judges a stored course as before. Refuted by a grade of at least C. *)
Definition clauses_judge_all_stored_courses_alike : Prop :=
  forall now r c c' l, Transcript.load_course now [] [] r = Ok c -> Transcript.load_course None [] [] (stored_row c) = Ok c' ->
  course_apply c' l = course_apply c l.
Theorem clauses_judge_all_stored_courses_alike_refuted : ~ clauses_judge_all_stored_courses_alike.
Proof.
  intro H. destruct (Transcript.load_course None [] [] hidden_row) as [c|] eqn:E; [|vm_compute in E; discriminate].
  destruct (Transcript.load_course None [] [] (stored_row c)) as [c'|] eqn:E'; [|vm_compute in E; injection E as <-; vm_compute in E'; discriminate].
  specialize (H None hidden_row c c' grade_clause E E'). vm_compute in E. injection E as <-. vm_compute in E'. injection E' as <-. vm_compute in H. discriminate.
Qed.
