(** Which leaves of an area may use a class that is used elsewhere. *)
From Coq Require Import List ZArith Bool String.
From Verif Require Import Prelude Course Claims Exceptions Context Limit Query CourseRule Tree Solve Area.
From Verif Require Import LimitSpec LimitProps TreeSpec TreeSolSpec TreeAuditSpec SolveSpec.
Import ListNotations.
Local Open Scope list_scope.

(** the class [k] is forced in at [p] by an exception of [l] *)
Definition forced_at (l : list exc) (p : path) (k : string) : Prop :=
  exists x, In x l /\ ex_path x = p /\ ex_act x = AInsert k true.
Definition course_leaf (n : node) (r : crule) : Prop :=
  (exists k, part_of n (NCourse k r)) \/ (exists k i k', part_of n (NProf k i (Some (k', r)))).
(** the rule at [p], or an exception there, lets the class be used again *)
Definition shareable (l : list exc) (n : node) (p : path) (k : string) : Prop :=
  forced_at l p k \/
  (exists r, course_leaf n r /\ r_path r = p /\ r_allow r = true) \/
  (exists kd q, part_of n (NQuery kd q) /\ q_path q = p /\
     (q_allow q = true \/ q_attempt q = false \/ q_source q = QClaimed \/ In k (q_forced q))).
(** a rule as written: "from_claimed" entails sharing, and limits can be applied *)
Definition as_written (n : node) : Prop :=
  (forall r, course_leaf n r -> r_from_claimed r = true -> r_allow r = true) /\
  (forall k q, part_of n (NQuery k q) -> coherent (q_limit q)).
(** no class is both forced in at one place and inserted without force at another *)
Definition one_way (l : list exc) : Prop :=
  forall x y k, In x l -> In y l -> ex_act x = AInsert k true -> ex_act y = AInsert k false -> False.
(** all courses a student has, failed ones included *)
Definition of_student (st : student) (c : course) : Prop := In c (t_courses st) \/ In c (t_failed st).
(** the rules that are solved at the top: the rule itself, or the branch of a conditional that
    is in force *)
Inductive heads : node -> node -> Prop :=
| hd_self n : heads n n
| hd_branch k i t f x y : TreeSpec.in_force i t f x -> heads x y -> heads (NCond k i t f) y.
(** the children at the top have different paths, and no two have the declaration
    "disjoint: true" *)
Definition tidy_top (n : node) : Prop :=
  forall k i items, heads n (NCount k i items) ->
    siblings items /\ (0 <= n_count i)%Z /\
    forall c d, In c items -> In d items -> c <> d -> ~ (declares true c /\ declares true d).
(** the claims made for the requirements of the area itself: those of a major come before the
    common block *)
Definition own_claims (v : area_result) : list claim :=
  match v_result v with
  | NCount k i items => if (u_kind (v_area v) =? "major")%string then flat_map claims_of (removelast items) else claims_of (v_result v)
  | n => claims_of n
  end.
