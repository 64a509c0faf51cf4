(** Condition expressions as boolean formulas over facts about the student. *)
From Coq Require Import List ZArith Bool String.
From Verif Require Import Prelude Status Course Exceptions Context CondExpr.
Import ListNotations.
Local Open Scope string_scope.
Local Open Scope list_scope.

(** a St. Olaf course [c] of the list has property [P] *)
Definition some_course (l : list course) (P : course -> Prop) : Prop :=
  exists c, In c l /\ c_stolaf c = true /\ P c.

Inductive exam_passed : proficiencies -> string -> Prop :=
| ep_k1 p : pf_k1 p = PrExam -> exam_passed p "Keyboard Level I"
| ep_k2 p : pf_k2 p = PrExam -> exam_passed p "Keyboard Level II"
| ep_k3 p : pf_k3 p = PrExam -> exam_passed p "Keyboard Level III"
| ep_k4 p : pf_k4 p = PrExam -> exam_passed p "Keyboard Level IV"
| ep_g p : pf_guitar p = PrExam -> exam_passed p "Guitar".

(** the first override recorded for the expression key says "done" *)
Definition overridden (d : exc_dict) (key : string) : Prop :=
  exists es pre e post, In ([key], es) d /\ es = pre ++ e :: post /\
    Forall (fun x => forall s, ex_act x <> AOverride s) pre /\ ex_act e = AOverride Done.

(** what each function says about the student *)
Definition fact (cx : ctx) (f : pfun) (arg : string) : Prop :=
  match f with
  | FHasCourse => some_course (cx_transcript cx) (fun c => c_identity c = arg)
  | FHasIpCourse => some_course (cx_transcript cx) (fun c => c_identity c = arg /\ c_in_progress c = true)
  | FHasCompletedCourse => some_course (cx_transcript cx) (fun c => c_identity c = arg /\ c_in_progress c = false)
  | FStudentHasCourseWithAttribute => some_course (cx_transcript cx) (fun c => In arg (c_attributes c))
  | FHasDeclaredAreaCode => exists a, In a (cx_areas cx) /\ a_code a = arg
  | FPassedProficiencyExam => exam_passed (cx_prof cx) arg
  | FHasOverrideException => overridden (cx_exc cx) arg
  end.

(** the boolean reading of an expression *)
Fixpoint true_of (cx : ctx) (x : xdata) : Prop :=
  match x with
  | XAnd l => fold_right (fun y P => true_of cx y /\ P) True l
  | XOr l => fold_right (fun y P => true_of cx y \/ P) False l
  | XNot y => ~ true_of cx y
  | XFun f a => fact cx f a
  | XDyn _ _ | XOther => False
  end.

Definition known_exam (s : string) : Prop :=
  In s ["Keyboard Level I"; "Keyboard Level II"; "Keyboard Level III"; "Keyboard Level IV"; "Guitar"].

(** a well-formed static expression: known forms and known exam names only *)
Fixpoint static_ok (x : xdata) : Prop :=
  match x with
  | XAnd l | XOr l => fold_right (fun y P => static_ok y /\ P) True l
  | XNot y => static_ok y
  | XFun f a => f = FPassedProficiencyExam -> known_exam a
  | XDyn _ _ | XOther => False
  end.

(** dynamic expressions *)
Definition dfact (data : list course) (f : dfun) (arg : string) : Prop :=
  match f with
  | FQueryHasCourseWithAttribute => some_course data (fun c => In arg (c_attributes c))
  | FQueryHasSingleCourseWithAttribute =>
    exists pre c post, data = pre ++ c :: post /\ c_stolaf c = true /\ In arg (c_attributes c) /\
      forall c', In c' (pre ++ post) -> c_stolaf c' = true -> ~ In arg (c_attributes c')
  end.
Fixpoint dyn_true (data : list course) (x : xdata) : Prop :=
  match x with
  | XAnd l => fold_right (fun y P => dyn_true data y /\ P) True l
  | XOr l => fold_right (fun y P => dyn_true data y \/ P) False l
  | XDyn f a => dfact data f a
  | _ => False
  end.
Fixpoint dyn_ok (x : xdata) : Prop :=
  match x with
  | XAnd l | XOr l => fold_right (fun y P => dyn_ok y /\ P) True l
  | XDyn f a => True
  | _ => False
  end.

(** an expression as it is before any evaluation *)
Fixpoint unevaluated (x : xdata) : pexpr :=
  match x with
  | XAnd l => EAnd (map unevaluated l) None
  | XOr l => EOr (map unevaluated l) None
  | XNot y => ENot (unevaluated y) None
  | XFun f a => EFun f a None
  | XDyn _ a => EFun FHasCourse a None
  | XOther => EAnd [] None
  end.
