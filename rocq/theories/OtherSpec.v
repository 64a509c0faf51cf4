(** Students with the same classes, who differ in their areas, performances, recitals or
    proficiencies. *)
From Coq Require Import List ZArith Bool String.
From Verif Require Import Transcript Prelude Course Claims Exceptions Op Context CondExpr Predicate Limit Assertion Query CourseRule Tree Driver Area Loader LimitLoad AreaLoad.
From Verif Require Import TreeSpec TreeSolSpec AreaLoadSpec IdleLoadSpec.
Import ListNotations.
Local Open Scope string_scope.
Local Open Scope list_scope.

Definition same_classes (st st' : student) : Prop := t_courses st' = t_courses st /\ t_failed st' = t_failed st.
(** what a rule looks at besides the classes is the same for both *)
Definition looks_alike (st st' : student) (n : node) : Prop :=
  match n with
  | NQuery _ q =>
    match q_source q with
    | QAreas => t_areas st' = t_areas st
    | QPerformances => t_perf st' = t_perf st
    | QRecitals => t_slips st' = t_slips st
    | QCourses | QClaimed => True
    end
  | NProf _ _ _ => t_prof st' = t_prof st
  | _ => True
  end.
Definition all_look_alike (st st' : student) (n : node) : Prop := forall y, part_of n y -> looks_alike st st' y.
(** what an area looks at *)
Definition area_looks_alike (u : study) (st st' : student) : Prop :=
  all_look_alike st st' (u_result u) /\ forall n, In n (u_common u) -> all_look_alike st st' n.

(** The questions of a specification about areas and examinations have the same answers, *)
Definition declares (st : student) (code : string) : Prop := exists p, In p (t_areas st) /\ a_code p = code.
Record answers_alike (s : aspec) (st st' : student) : Prop := {
  al_declared : forall a, area_asks s FHasDeclaredAreaCode a -> (declares st a <-> declares st' a);
  al_examined : (exists a, area_asks s FPassedProficiencyExam a) -> t_prof st' = t_prof st }.
(** the same of its emphases are declared, and what the common rules of majors look at, the
    department, and the second of the two majors in art, is the same. *)
Definition standing_alike (code : string) (st st' : student) : Prop :=
  dept_of (t_areas st') code = dept_of (t_areas st) code /\
  (code = "140" -> (declares st "135" <-> declares st' "135")) /\ (code = "135" -> (declares st "140" <-> declares st' "140")).
Record declared_alike (s : aspec) (st st' : student) : Prop := {
  dl_emphases : forall e, In e (ar_emphases s) -> (declared st e <-> declared st' e);
  dl_area : standing_alike (or_default (ar_code s) "<null>") st st';
  dl_codes : forall e, In e (ar_emphases s) -> standing_alike (or_default (em_code e) "<null>") st st' }.
