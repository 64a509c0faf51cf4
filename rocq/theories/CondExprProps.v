(** Property theorems about condition expressions (C62). *)
From Coq Require Import List ZArith Bool String.
From Verif Require Import Prelude Dec Status Course Exceptions Context CondExpr CondExprSpec CondExprProofs.
Import ListNotations.
Local Open Scope string_scope.
Local Open Scope list_scope.

(** C62. Loading a well-formed condition gives the truth value of the formula, and
    evaluating the loaded condition in any context changes nothing. *)
Theorem condition_is_boolean_formula :
  forall cx x, NoDup (map fst (cx_exc cx)) -> static_ok x ->
  exists e b, load_expr cx x = Ok e /\ e_result e = Some b /\ (b = true <-> true_of cx x) /\
              forall cx', evaluate cx' e = Ok e.
Proof.
  intros cx x N S. destruct (load_expr_spec cx x N S) as (e & b & L & R & B). exists e, b.
  repeat (split; [assumption|]). intro cx'. eapply evaluate_fixed; eauto.
Qed.
Print Assumptions condition_is_boolean_formula.

(** Evaluating an expression that has no result yet is the same as loading it. *)
Theorem evaluation_agrees_with_loading :
  forall cx x, static_ok x -> evaluate cx (unevaluated x) = load_expr cx x.
Proof. exact evaluate_unevaluated. Qed.
Print Assumptions evaluation_agrees_with_loading.

(** Dynamic conditions: evaluation against the selected courses gives the truth value of
    the formula; evaluating again against the same courses changes nothing. *)
Theorem dynamic_condition_is_boolean_formula :
  forall data x, dyn_ok x ->
  exists d e b, load_dyn x = Ok d /\ eval_dyn data d = Ok e /\ d_result e = Some b /\
    (b = true <-> dyn_true data x) /\ eval_dyn data e = Ok e.
Proof. exact dyn_spec. Qed.
Print Assumptions dynamic_condition_is_boolean_formula.

(** A dynamic compound keeps its first answer even for other courses, while a single
    dynamic function is evaluated anew. *)
Theorem dynamic_compound_keeps_first_answer :
  exists d1 d2 e data1 data2 c,
    load_dyn (XAnd [XDyn FQueryHasCourseWithAttribute "x"]) = Ok d1 /\
    eval_dyn data1 d1 = Ok e /\ d_result e = Some false /\
    eval_dyn data2 e = Ok e /\
    load_dyn (XDyn FQueryHasCourseWithAttribute "x") = Ok d2 /\
    (exists e2 e3, eval_dyn data1 d2 = Ok e2 /\ eval_dyn data2 e2 = Ok e3 /\ d_result e3 = Some true) /\
    data2 = [c].
Proof.
  set (c := let m := mk_simple "1" "A" "1" in
    {| c_clbid := "1"; c_attributes := ["x"]; c_credits := c_credits m; c_crsid := ""; c_course_type := CtSemester;
       c_gereqs := []; c_gpa_points := c_gpa_points m; c_grade_code := GB; c_grade_option := GoGrade;
       c_grade_points := c_grade_points m; c_institution := ""; c_in_gpa := true; c_in_progress := false;
       c_ip_this_term := false; c_ip_in_future := false; c_incomplete := false; c_repeat := false; c_stolaf := true;
       c_lab := false; c_covid := false; c_level := 100; c_name := ""; c_number := ""; c_schedid := None;
       c_section := None; c_sub_type := StNormal; c_subject := "A"; c_su_grade := None; c_term := "1";
       c_transcript_code := TcEmpty; c_year := 2000; c_yearterm := ""; c_identity := ""; c_chbi := None |}).
  exists (DAnd [DFun FQueryHasCourseWithAttribute "x" None] None), (DFun FQueryHasCourseWithAttribute "x" None).
  exists (DAnd [DFun FQueryHasCourseWithAttribute "x" (Some false)] (Some false)), [], [c], c.
  repeat split; try reflexivity.
  exists (DFun FQueryHasCourseWithAttribute "x" (Some false)), (DFun FQueryHasCourseWithAttribute "x" (Some true)).
  repeat split; reflexivity.
Qed.
Print Assumptions dynamic_compound_keeps_first_answer.

Example condition_example :
  let cx := with_transcript empty_ctx [mk_simple "1" "CSCI" "121"] [] [] [] in
  let x := XAnd [XFun FHasCompletedCourse "CSCI 121"; XNot (XOr [XFun FHasDeclaredAreaCode "130"; XFun FPassedProficiencyExam "Guitar"])] in
  NoDup (map fst (cx_exc cx)) /\ static_ok x /\
  match load_expr cx x with Ok e => e_result e = Some true | Err _ => False end /\
  dyn_ok (XOr [XDyn FQueryHasSingleCourseWithAttribute "x"]).
Proof.
  split; [constructor|]. split; [simpl; repeat split; try discriminate; intros _; unfold known_exam; simpl; tauto|].
  split; [reflexivity|simpl; auto].
Qed.
