(** Classes that no part of an area can use, said apart from the search and the audit. *)
From Coq Require Import List ZArith Bool String.
From Verif Require Import Transcript Prelude Course Claims Exceptions Context Predicate Limit Assertion Query CourseRule Tree Driver Area.
From Verif Require Import TreeSpec TreeSolSpec.
Import ListNotations.
Local Open Scope list_scope.

(** the list without a class *)
Definition drop (x : course) (l : list course) : list course := filter (fun c => negb (course_eqb c x)) l.
(** the student who has not taken it *)
Definition without_class (x : course) (st : student) : student :=
  mkStudent (drop x (t_courses st)) (drop x (t_failed st)) (t_areas st) (t_perf st) (t_slips st) (t_prof st).
(** a rule for a course names another class, or another course *)
Definition rule_ignores (x : course) (r : crule) : Prop :=
  (given (r_clbid r) = true -> or_empty (r_clbid r) <> c_clbid x) /\
  (given (r_clbid r) = false -> course_filter (rule_filter r) x = Ok false).
(** a query does not look at the claims of the others, and its clause does not hold of the class *)
Definition query_ignores (x : course) (q : query) : Prop :=
  q_source q <> QClaimed /\
  (q_source q = QCourses -> instr (c_clbid x) (q_excluded q) = true \/ exists w, q_where q = Some w /\ apply_pred (ICourse x) w = Ok false).
Definition ignores (x : course) (n : node) : Prop :=
  match n with
  | NCourse _ r => rule_ignores x r
  | NProf _ _ (Some (_, r)) => rule_ignores x r
  | NQuery _ q => query_ignores x q
  | _ => True
  end.
Definition all_ignore (x : course) (n : node) : Prop := forall y, part_of n y -> ignores x y.
(** no exception inserts or blocks it *)
Definition not_excepted (x : course) (es : list exc) : Prop :=
  forall e k f, In e es -> ex_act e = AInsert k f \/ ex_act e = ABlock k -> k <> c_clbid x.
(** nothing in the area can use the class: not the rule, not the limits, and not the third of the
    common rules of a major, which counts the credits outside of the department *)
Definition idle (u : study) (x : course) : Prop :=
  all_ignore x (u_result u) /\ (forall l, In l (u_limit u) -> lm_match l x = Ok false) /\
  (u_kind u = "major"%string -> forall n, nth_error (u_common u) 2 = Some n -> all_ignore x n).
