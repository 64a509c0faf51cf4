(** dp/conditional_expression.py *)
From Coq Require Import List ZArith Bool String.
From Verif Require Import Prelude Course Exceptions Op Context.
Import ListNotations.

(** dp/conditional_expression.py:61-68 PredicateExpressionFunction *)
Inductive pfun := FHasIpCourse | FHasCompletedCourse | FHasCourse | FPassedProficiencyExam
  | FHasDeclaredAreaCode | FStudentHasCourseWithAttribute | FHasOverrideException.
(** dp/conditional_expression.py:72-74 DynamicPredicateExpressionFunction *)
Inductive dfun := FQueryHasCourseWithAttribute | FQueryHasSingleCourseWithAttribute.

(** The specification data of an expression: [XOther] is a dictionary that is none of the
    known forms. *)
Inductive xdata :=
| XAnd (l : list xdata) | XOr (l : list xdata) | XNot (x : xdata)
| XFun (f : pfun) (arg : string) | XDyn (f : dfun) (arg : string) | XOther.

(** dp/conditional_expression.py:78-214: the loaded expressions, with their result *)
Inductive pexpr :=
| EAnd (l : list pexpr) (r : option bool)
| EOr (l : list pexpr) (r : option bool)
| ENot (e : pexpr) (r : option bool)
| EFun (f : pfun) (arg : string) (r : option bool).

Definition e_result (e : pexpr) : option bool :=
  match e with EAnd _ r | EOr _ r | ENot _ r | EFun _ _ r => r end.
(** truth value of an Optional[bool] *)
Definition truthy (o : option bool) : bool := match o with Some b => b | None => false end.

(** dp/conditional_expression.py:327-353 evaluate_predicate_function *)
Definition eval_pfun (cx : ctx) (f : pfun) (arg : string) : res bool :=
  match f with
  | FHasDeclaredAreaCode => Ok (has_declared_area_code cx arg)
  | FHasCourse => has_course cx arg
  | FHasIpCourse => has_ip_course cx arg
  | FHasCompletedCourse => has_completed_course cx arg
  | FStudentHasCourseWithAttribute => any_res (course_filter (by_attribute arg)) (cx_transcript cx)
  | FPassedProficiencyExam => passed_exam (cx_prof cx) arg
  | FHasOverrideException => Ok (has_waive_for_expression (cx_exc cx) arg)
  end.

(** dp/conditional_expression.py:377-404 load_predicate_expression with the load methods *)
Fixpoint load_expr (cx : ctx) (x : xdata) : res pexpr :=
  match x with
  | XAnd l => let! es := mapr (load_expr cx) l in
              Ok (EAnd es (Some (forallb (fun e => truthy (e_result e)) es)))
  | XOr l => let! es := mapr (load_expr cx) l in
             Ok (EOr es (Some (existsb (fun e => truthy (e_result e)) es)))
  | XNot x => let! e := load_expr cx x in Ok (ENot e (Some (negb (truthy (e_result e)))))
  | XFun f a => let! r := eval_pfun cx f a in Ok (EFun f a (Some r))
  | XDyn _ _ | XOther => Err TypeErr
  end.

(** the evaluate methods (lines 101-105, 132-136, 162-166, 212-216) *)
Fixpoint evaluate (cx : ctx) (e : pexpr) : res pexpr :=
  match e with
  | EAnd l (Some r) => Ok e
  | EAnd l None => let! es := mapr (evaluate cx) l in
                   Ok (EAnd es (Some (forallb (fun e => truthy (e_result e)) es)))
  | EOr l (Some r) => Ok e
  | EOr l None => let! es := mapr (evaluate cx) l in
                  Ok (EOr es (Some (existsb (fun e => truthy (e_result e)) es)))
  | ENot x (Some r) => Ok e
  | ENot x None => let! e := evaluate cx x in Ok (ENot e (Some (negb (truthy (e_result e)))))
  | EFun f a (Some r) => Ok e
  | EFun f a None => let! r := eval_pfun cx f a in Ok (EFun f a (Some r))
  end.

(** dp/conditional_expression.py:220-324: dynamic expressions *)
Inductive dexpr :=
| DAnd (l : list dexpr) (r : option bool)
| DOr (l : list dexpr) (r : option bool)
| DFun (f : dfun) (arg : string) (r : option bool).
Definition d_result (e : dexpr) : option bool :=
  match e with DAnd _ r | DOr _ r | DFun _ _ r => r end.

(** dp/conditional_expression.py:407-431 load_dynamic_predicate_expression *)
Fixpoint load_dyn (x : xdata) : res dexpr :=
  match x with
  | XAnd l => let! es := mapr load_dyn l in Ok (DAnd es None)
  | XOr l => let! es := mapr load_dyn l in Ok (DOr es None)
  | XDyn f a => Ok (DFun f a None)
  | XNot _ | XFun _ _ | XOther => Err TypeErr
  end.

(** dp/conditional_expression.py:356-370 evaluate_dynamic_predicate_function *)
Definition eval_dfun (f : dfun) (arg : string) (data : list course) : res bool :=
  match f with
  | FQueryHasCourseWithAttribute => any_res (course_filter (by_attribute arg)) data
  | FQueryHasSingleCourseWithAttribute =>
    let! l := filter_res (course_filter (by_attribute arg)) data in
    Ok (Nat.eqb (List.length l) 1)
  end.

(** the evaluate_against_data methods (lines 260-262, 289-293, 320-324) *)
Fixpoint eval_dyn (data : list course) (e : dexpr) : res dexpr :=
  match e with
  | DAnd l (Some r) => Ok e
  | DAnd l None => let! es := mapr (eval_dyn data) l in
                   Ok (DAnd es (Some (forallb (fun e => truthy (d_result e)) es)))
  | DOr l (Some r) => Ok e
  | DOr l None => let! es := mapr (eval_dyn data) l in
                  Ok (DOr es (Some (existsb (fun e => truthy (d_result e)) es)))
  | DFun f a _ => let! r := eval_dfun f a data in Ok (DFun f a (Some r))
  end.
