(** Property theorems about the GPA and the loaded transcript (C23, C24, C25, C65, C66). *)
From Coq Require Import List ZArith QArith Bool String Lia Lqa Permutation Sorted.
From Verif Require Import Prelude Dec Course Op Exceptions Context Predicate ListFacts StrFacts LimitProofs Transcript TranscriptSpec TranscriptProofs.
Import ListNotations.
Local Open Scope string_scope.
Local Open Scope list_scope.

(** ** C23 *)
(** The average is points over credits of the in-GPA courses, cut to two decimals; 0.00
    without credits. *)
Theorem gpa_is_cut_quotient :
  forall cs, let counted := filter c_in_gpa cs in
  (credits_of counted == 0 -> grade_point_average cs = mkDec 0 (-2))%Q /\
  (~ (credits_of counted == 0)%Q ->
     cut_to_hundredths (points_of counted / credits_of counted) (grade_point_average cs)).
Proof.
  intros cs counted. unfold grade_point_average, gpa_items. fold counted.
  change (Qsum (map (fun c => dval (c_gpa_points c)) counted)) with (points_of counted).
  change (Qsum (map (fun c => dval (c_credits c)) counted)) with (credits_of counted). split; intro H.
  - apply Qeqb_iff in H. rewrite H. reflexivity.
  - destruct (Qeqb (credits_of counted) 0) eqn:E; [apply Qeqb_iff in E; contradiction|].
    eapply cut_ext; [apply Qred_correct|apply trunc2_cut].
Qed.
Print Assumptions gpa_is_cut_quotient.

(** The order of the courses does not matter, nor do courses outside the GPA. *)
Theorem gpa_depends_on_counted_courses_only :
  forall a b, Permutation (filter c_in_gpa a) (filter c_in_gpa b) -> grade_point_average a = grade_point_average b.
Proof.
  intros a b P. unfold grade_point_average, gpa_items.
  assert (G := Qsum_perm _ _ (Permutation_map (fun c => dval (c_gpa_points c)) P)).
  assert (C := Qsum_perm _ _ (Permutation_map (fun c => dval (c_credits c)) P)).
  assert (E : Qeqb (Qsum (map (fun c => dval (c_credits c)) (filter c_in_gpa a))) 0 = Qeqb (Qsum (map (fun c => dval (c_credits c)) (filter c_in_gpa b))) 0).
  { apply eq_true_iff_eq. rewrite !Qeqb_iff, C. reflexivity. }
  cbv zeta. rewrite E. match goal with |- (if ?x then _ else _) = _ => destruct x end; [reflexivity|]. do 2 f_equal. apply Qred_complete. rewrite G, C. reflexivity.
Qed.
Print Assumptions gpa_depends_on_counted_courses_only.

Lemma sum_bounds cs : (forall c, In c cs -> 0 <= dval (c_gpa_points c) /\ dval (c_gpa_points c) <= 4 * dval (c_credits c))%Q ->
  (0 <= points_of cs /\ points_of cs <= 4 * credits_of cs)%Q.
Proof.
  unfold points_of, credits_of. induction cs as [|c cs IH]; intro H; [simpl; lra|]. simpl.
  destruct (H c (or_introl eq_refl)). destruct IH as [A B]; [intros; apply H; simpl; auto|]. simpl in *. lra.
Qed.

Theorem gpa_between_0_and_4 :
  forall cs, (forall c, In c cs -> c_in_gpa c = true -> 0 <= dval (c_gpa_points c) /\ dval (c_gpa_points c) <= 4 * dval (c_credits c))%Q ->
  (0 <= dval (grade_point_average cs) /\ dval (grade_point_average cs) <= 4)%Q.
Proof.
  intros cs H. destruct (gpa_is_cut_quotient cs) as [Z N].
  assert (B := sum_bounds (filter c_in_gpa cs)).
  destruct B as [P C]; [intros c Hc; apply filter_In in Hc; apply H; tauto|].
  destruct (Qeq_dec (credits_of (filter c_in_gpa cs)) 0) as [E|NE].
  - rewrite (Z E). split; unfold Qle; simpl; lia.
  - destruct (N NE) as (z & -> & A & _).
    assert (PC : (0 < credits_of (filter c_in_gpa cs))%Q) by lra.
    assert (Q0 : (0 <= points_of (filter c_in_gpa cs) / credits_of (filter c_in_gpa cs))%Q) by (apply Qle_shift_div_l; lra).
    assert (Q4 : (points_of (filter c_in_gpa cs) / credits_of (filter c_in_gpa cs) <= 4)%Q) by (apply Qle_shift_div_r; lra).
    destruct (A Q0) as (Z0 & L & _).
    change (dval (mkDec z (-2))) with (z # 100)%Q. split; [unfold Qle; simpl; lia|lra].
Qed.
Print Assumptions gpa_between_0_and_4.

(** A loaded course with points per credit between 0 and 4 meets the hypothesis. *)
Theorem loaded_course_points :
  forall now os df r c, load_course now os df r = Ok c ->
  cut_to_hundredths (dval (c_grade_points c) * dval (c_credits c)) (c_gpa_points c) /\
  ((0 <= dval (c_grade_points c) -> dval (c_grade_points c) <= 4 -> 0 <= dval (c_credits c) ->
    0 <= dval (c_gpa_points c) /\ dval (c_gpa_points c) <= 4 * dval (c_credits c))%Q).
Proof.
  intros now os df r c L. destruct (load_course_inv _ _ _ _ _ L) as (cr & g & pts & op & sub & ty & tc & H).
  decompose [and] H. assert (K : cut_to_hundredths (dval (c_grade_points c) * dval (c_credits c)) (c_gpa_points c)).
  { replace (c_gpa_points c) with (hundredths (trunc2 (dval pts * dval cr))) by congruence.
    replace (c_grade_points c) with pts by congruence. replace (c_credits c) with cr by congruence. apply trunc2_cut. }
  split; [exact K|]. intros P0 P4 C0. destruct K as (z & E & A & _).
  assert (Q0 : (0 <= dval (c_grade_points c) * dval (c_credits c))%Q) by (apply Qmult_le_0_compat; assumption).
  destruct (A Q0) as (Z0 & L1 & _). rewrite E. change (dval (mkDec z (-2))) with (z # 100)%Q.
  assert ((dval (c_grade_points c) * dval (c_credits c) <= 4 * dval (c_credits c))%Q) by (apply Qmult_le_compat_r; assumption).
  split; [unfold Qle; simpl; lia|lra].
Qed.
Print Assumptions loaded_course_points.

(** ** C24 *)
Section C24.
  Variables (now : option string) (os : list exc) (df : list (string * string)).
  Notation loads := (fun r c => load_course now os df r = Ok c).

  (** Loading the transcript without and with failed courses: *)
  Theorem loaded_transcript_is_clean :
    forall rows t, student_courses now os df false rows = Ok t ->
    exists l l' tf, Forall2 loads rows l /\ numbered [] l l' /\ NoDup (map c_clbid l') /\
      student_courses now os df true rows = Ok tf /\
      NoDup (map c_clbid t) /\ StronglySorted sorted_before t /\
      (forall c, In c t <-> In c l' /\ ~ dropped c /\ c_grade_code c <> GF) /\
      NoDup (map c_clbid tf) /\ StronglySorted sorted_before tf /\
      (forall c, In c tf <-> In c l' /\ ~ dropped c).
  Proof.
    intros rows t H. unfold student_courses in H. destruct (g_exn (load_transcript now os df false rows)) eqn:X; [discriminate|].
    injection H as <-. destruct (load_rows_ok now os df false rows [] X) as (l & l' & F & N & E).
    unfold load_transcript in *. rewrite E.
    destruct (numbered_fresh _ _ _ N) as [ND _].
    assert (S : forall inc, NoDup (map c_clbid (isort course_leb (filter (yielded inc) l')))).
    { intro inc. apply (Permutation_NoDup (l := map c_clbid (filter (yielded inc) l'))).
      - apply Permutation_map. symmetry. apply isort_perm.
      - clear -ND. induction l' as [|c l' IH]; simpl in *; [constructor|]. inversion ND; subst.
        destruct (yielded inc c); [|auto]. simpl. constructor; [|auto]. rewrite in_map_iff. intros (x & Ex & Hx).
        apply filter_In in Hx. apply H1. rewrite <- Ex. apply in_map. tauto. }
    exists l, l', (isort course_leb (filter (yielded true) l')). split; [exact F|]. split; [exact N|]. split; [exact ND|].
    split; [unfold student_courses, load_transcript; rewrite (load_rows_complete now os df true rows [] l l' F N); reflexivity|].
    split; [apply S|]. split; [apply isort_before|]. split.
    { intro c. rewrite in_isort, filter_In, yielded_iff. intuition congruence. }
    split; [apply S|]. split; [apply isort_before|]. intro c. rewrite in_isort, filter_In, yielded_iff. intuition congruence.
  Qed.

  (** it succeeds whenever every row loads and the ids can be made distinct; in particular
      when the class ids of the rows are distinct, and then no id is changed. *)
  Theorem transcript_loads :
    forall inc rows l l', Forall2 loads rows l -> numbered [] l l' -> exists t, student_courses now os df inc rows = Ok t.
  Proof.
    intros inc rows l l' F N. unfold student_courses, load_transcript. rewrite (load_rows_complete now os df inc rows [] l l' F N). cbn [g_exn gret]. eexists. reflexivity.
  Qed.
  Theorem distinct_rows_keep_their_ids :
    forall inc rows l, Forall2 loads rows l -> NoDup (map r_clbid rows) ->
    exists t, student_courses now os df inc rows = Ok t /\
      forall c, In c t <-> In c l /\ ~ dropped c /\ (c_grade_code c = GF -> inc = true).
  Proof.
    intros inc rows l F ND.
    assert (E : map c_clbid l = map r_clbid rows).
    { clear ND. induction F as [|r c rows l L F IH]; [reflexivity|]. simpl. f_equal; [|exact IH].
      destruct (load_course_inv _ _ _ _ _ L) as (cr & g & pts & op & sub & ty & tc & H). decompose [and] H. assumption. }
    assert (N : numbered [] l l) by (apply distinct_numbered; [rewrite E; exact ND|intros c _ []]).
    exists (isort course_leb (filter (yielded inc) l)). split.
    - unfold student_courses, load_transcript. rewrite (load_rows_complete now os df inc rows [] l l F N). reflexivity.
    - intro c. rewrite in_isort, filter_In, yielded_iff. tauto.
  Qed.
End C24.
Print Assumptions loaded_transcript_is_clean.
Print Assumptions transcript_loads.
Print Assumptions distinct_rows_keep_their_ids.

Definition row_example (clbid grade option schedid : string) : row :=
  mkRow ["x"] clbid "SE" "1.00" "1" true false false false true [] grade option "3.30" "STOLAF" 100 "Intro" "121"
    (Some schedid) "A" "lab" "CSCI" "?" "1" "" 2019.

Example transcript_example :
  let rows := [row_example "7" "B+" "grade" "a"; row_example "7" "A" "grade" "b"; row_example "3" "F" "grade" "c";
               row_example "2" "W" "grade" "d"; row_example "1" "S" "s/u" "e"; row_example "0" "A" "audit" "e"] in
  match student_courses (Some "20193") [mkExc [] (ACredits "7" (mkDec 5 (-1)))] [] false rows,
        student_courses (Some "20193") [mkExc [] (ACredits "7" (mkDec 5 (-1)))] [] true rows with
  | Ok t, Ok t' => map c_clbid t = ["1"; "7"; "7:b"] /\ map c_clbid t' = ["1"; "3"; "7"; "7:b"] /\
                   map c_gpa_points t = [mkDec 330 (-2); mkDec 165 (-2); mkDec 165 (-2)] /\
                   grade_point_average t = mkDec 330 (-2)
  | _, _ => False
  end.
Proof. vm_compute. auto. Qed.

(** ** C25 *)
Theorem credits_come_from_the_last_override :
  forall now os df r c, NoDup (map fst df) -> load_course now os df r = Ok c ->
  (forall d, last_credit_override os (r_clbid r) d -> c_credits c = d) /\
  (no_credit_override os (r_clbid r) ->
     (forall t, In (("name=" ++ r_name r)%string, t) df -> dec_of_str t = Ok (c_credits c)) /\
     (~ In ("name=" ++ r_name r)%string (map fst df) -> dec_of_str (r_credits r) = Ok (c_credits c))).
Proof.
  intros now os df r c ND L. destruct (load_course_inv _ _ _ _ _ L) as (cr & g & pts & op & sub & ty & tc & R & H).
  decompose [and] H. replace (c_credits c) with cr by congruence. unfold row_credits in R. split.
  - intros d D. rewrite (last_credit_unique _ _ _ D) in R. congruence.
  - intro N. rewrite (no_credit_none _ _ N) in R. split.
    + intros t I. apply (sget_in df _ t ND) in I. rewrite I in R. exact R.
    + intro NI. destruct (sget df ("name=" ++ r_name r)) as [t|] eqn:S; [|exact R].
      apply (sget_in df _ t ND) in S. exfalso. apply NI. apply (in_map fst _ _ S).
Qed.
Print Assumptions credits_come_from_the_last_override.

Theorem subject_comes_from_the_last_override :
  forall now os df r c, load_course now os df r = Ok c ->
  (forall s, last_subject_override os (r_clbid r) s -> c_subject c = s) /\
  (no_subject_override os (r_clbid r) -> c_subject c = r_subject r) /\
  c_identity c = (c_subject c ++ " " ++ r_number r ++
    match c_sub_type c with StLab => ".L" | StFlac => ".F" | StDiscussion => ".D" | _ => "" end)%string.
Proof.
  intros now os df r c L. destruct (load_course_inv _ _ _ _ _ L) as (cr & g & pts & op & sub & ty & tc & R & H).
  decompose [and] H. split; [|split].
  - intros s S. rewrite (last_subject_unique _ _ _ S) in *. assumption.
  - intro N. rewrite (no_subject_none _ _ N) in *. assumption.
  - match goal with E : c_sub_type c = sub |- _ => rewrite E end. assumption.
Qed.
Print Assumptions subject_comes_from_the_last_override.

(** overrides of other classes change nothing *)
Theorem overrides_affect_only_their_course :
  forall now a o b df r, ~ about (r_clbid r) o ->
  load_course now (a ++ o :: b) df r = load_course now (a ++ b) df r.
Proof.
  intros now a o b df r N.
  assert (C : credit_override (a ++ o :: b) (r_clbid r) = credit_override (a ++ b) (r_clbid r)).
  { induction a as [|x a IH]; cbn [credit_override app]; [|rewrite IH; reflexivity].
    destruct (credit_override b (r_clbid r)); [reflexivity|].
    destruct (ex_act o) as [| | | |k d|] eqn:E; try reflexivity. destruct (k =? r_clbid r) eqn:K; [|reflexivity].
    apply String.eqb_eq in K. subst k. exfalso. apply N. left. eauto. }
  assert (S : subject_override (a ++ o :: b) (r_clbid r) = subject_override (a ++ b) (r_clbid r)).
  { clear C. induction a as [|x a IH]; cbn [subject_override app]; [|rewrite IH; reflexivity].
    destruct (subject_override b (r_clbid r)); [reflexivity|].
    destruct (ex_act o) as [| | | | |k d] eqn:E; try reflexivity. destruct (k =? r_clbid r) eqn:K; [|reflexivity].
    apply String.eqb_eq in K. subst k. exfalso. apply N. right. eauto. }
  unfold load_course, row_credits. rewrite C, S. reflexivity.
Qed.
Print Assumptions overrides_affect_only_their_course.

Example override_example :
  let r := row_example "7" "B+" "grade" "a" in
  let os := [mkExc [] (ACredits "7" (mkDec 5 (-1))); mkExc [] (ASubject "7" "MATH"); mkExc [] (ACredits "7" (mkDec 25 (-2)));
             mkExc [] (ACredits "8" (mkDec 9 0))] in
  let df := [("name=Intro", "0.75")] in
  last_credit_override os (r_clbid r) (mkDec 25 (-2)) /\ last_subject_override os (r_clbid r) "MATH" /\
  no_credit_override [] "7" /\ In (("name=" ++ r_name r)%string, "0.75") df /\
  match load_course None os df r, load_course None [] df r with
  | Ok c, Ok c' => c_identity c = "MATH 121.L" /\ c_credits c' = mkDec 75 (-2)
  | _, _ => False
  end.
Proof.
  cbv zeta. split; [|split; [|split; [|split; [|vm_compute; auto]]]].
  - exists [mkExc [] (ACredits "7" (mkDec 5 (-1))); mkExc [] (ASubject "7" "MATH")], (mkExc [] (ACredits "7" (mkDec 25 (-2)))), [mkExc [] (ACredits "8" (mkDec 9 0))].
    split; [reflexivity|]. split; [reflexivity|]. intros o' d' [<-|[]]. discriminate.
  - exists [mkExc [] (ACredits "7" (mkDec 5 (-1)))], (mkExc [] (ASubject "7" "MATH")), [mkExc [] (ACredits "7" (mkDec 25 (-2))); mkExc [] (ACredits "8" (mkDec 9 0))].
    split; [reflexivity|]. split; [reflexivity|]. intros o' d' [<-|[<-|[]]]; discriminate.
  - intros o d [].
  - simpl. auto.
Qed.

(** ** C65 *)
(** Courses in progress are this term's or a future term's, never both; finished courses and
    loads without a current term are neither. *)
Theorem in_progress_terms :
  forall now os df r c, load_course now os df r = Ok c ->
  let started := c_grade_code c = G_IP \/ c_grade_code c = G_I in
  (forall cur, now = Some cur -> cur <> "" -> started ->
     (c_ip_this_term c = true <-> String.compare (c_yearterm c) cur <> Gt) /\
     (c_ip_in_future c = true <-> String.compare (c_yearterm c) cur = Gt)) /\
  (~ started \/ now = None \/ now = Some "" -> c_ip_this_term c = false /\ c_ip_in_future c = false) /\
  (c_covid c = true <-> c_yearterm c = "20193").
Proof.
  intros now os df r c L started. destruct (load_course_inv _ _ _ _ _ L) as (cr & g & pts & op & sub & ty & tc & H).
  decompose [and] H. clear H.
  assert (YT : c_yearterm c = yearterm_of (r_year r) (r_term r)) by assumption.
  assert (G : c_grade_code c = g) by assumption.
  assert (CV : c_covid c = (yearterm_of (r_year r) (r_term r) =? "20193")) by assumption.
  match goal with E : (c_ip_this_term c, c_ip_in_future c) = _ |- _ => revert E end. rewrite <- YT in *. subst g. intro E.
  assert (IP : ip_grade (c_grade_code c) = true <-> started).
  { unfold started. destruct (c_grade_code c); simpl; split; intro X; try discriminate; auto; destruct X; discriminate. }
  split; [|split].
  - intros cur -> NE ST. apply IP in ST. rewrite ST in E.
    assert (T : truthy (Some cur) = Some cur) by (destruct cur; [congruence|reflexivity]). rewrite T in E.
    unfold str_leb in E. destruct (String.compare (c_yearterm c) cur); injection E as -> ->; split; split; congruence.
  - intros [NS|[->| ->]]; [|injection E as -> ->; auto..].
    destruct (ip_grade (c_grade_code c)) eqn:X; [exfalso; apply NS; apply IP; reflexivity|].
    destruct (truthy now); injection E as -> ->; auto.
  - rewrite CV. apply String.eqb_eq.
Qed.
Print Assumptions in_progress_terms.

Example in_progress_example :
  match load_course (Some "20191") [] [] (row_example "7" "IP" "grade" "a"), load_course (Some "20183") [] [] (row_example "7" "IP" "grade" "a") with
  | Ok c, Ok d => c_ip_this_term c = true /\ c_ip_in_future c = false /\ c_ip_this_term d = false /\ c_ip_in_future d = true
  | _, _ => False
  end.
Proof. vm_compute. auto. Qed.

(** ** C66 *)
(** Areas dropped in a what-if are invisible, except the audited one; the others stay in order. *)
Theorem dropped_areas_are_invisible :
  forall code l a, In a (student_areas code l) <-> In a l /\ (a_status a = AsWhatIfDrop -> a_code a = code).
Proof.
  intros code l a. unfold student_areas. rewrite filter_In, orb_true_iff, negb_true_iff, String.eqb_eq.
  destruct (a_status a); intuition congruence.
Qed.
Print Assumptions dropped_areas_are_invisible.

Example dropped_example :
  let a := mkArea "130" AsWhatIfDrop AkMajor "" "" None None (Some 3%Z) in
  let b := mkArea "140" AsDeclared AkMajor "" "" None None None in
  student_areas "140" [a; b] = [b] /\ student_areas "130" [a; b] = [a; b] /\ terms_since_declaring "130" [a; b] = 3%Z.
Proof. vm_compute. auto. Qed.
