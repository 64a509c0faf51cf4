(** Which rules have potential, which items they match, which courses they reserve. *)
From Coq Require Import List ZArith QArith Bool String.
From Verif Require Import Prelude Dec Status Course Claims Exceptions Op Context CondExpr Paths Predicate Limit Apply Assertion Query CourseRule Tree.
From Verif Require Import ListFacts AssertionSpec QuerySpec CourseRuleSpec TreeSpec TreeSolSpec.
Import ListNotations.
Local Open Scope string_scope.
Local Open Scope list_scope.

(** an exception is recorded at the path or beneath it *)
Definition exception_under (l : list exc) (p : path) : Prop := exists x tl, In x l /\ ex_path x = p ++ tl.

(** what a query reads *)
Definition readable (cx : ctx) (q : query) (x : item) : Prop :=
  match q_source q with
  | QCourses => exists c, x = ICourse c /\ In c (query_courses cx q) /\ ~ In (c_clbid c) (q_excluded q)
  | QClaimed => False
  | QAreas => exists a, x = IArea a /\ In a (cx_areas cx)
  | QPerformances => exists a, x = IPerf a /\ In a (cx_perf cx)
  | QRecitals => exists a, x = ISlip a /\ In a (cx_att cx)
  end.
Definition upper_bound (a : assertion) : Prop := as_op a = OLt \/ as_op a = OLte.
Definition no_minimum (a : assertion) : Prop := as_op a = OGte /\ (dval (as_expected a) == 0)%Q.
(** a query has potential if an exception may help, an assertion can be met by nothing, the
    data is not known yet, or there is an item *)
Definition promising_query (cx : ctx) (l : list exc) (q : query) : Prop :=
  exception_under l (q_path q) \/
  (exists a, asserted q a /\ (upper_bound a \/ no_minimum a)) \/
  q_source q = QClaimed \/
  exists x, readable cx q x /\ passes_where (q_where q) x.
Definition promising_course (cx : ctx) (l : list exc) (r : crule) : Prop :=
  r_auto_waived r = true \/ exception_under l (r_path r) \/ exists c, finds cx r c.
Inductive promising (cx : ctx) (l : list exc) : node -> Prop :=
| pr_course k r : promising_course cx l r -> promising cx l (NCourse k r)
| pr_query k q : promising_query cx l q -> promising cx l (NQuery k q)
| pr_count_exc k i items : exception_under l (n_path i) -> promising cx l (NCount k i items)
| pr_count k i items x : In x items -> promising cx l x -> promising cx l (NCount k i items)
| pr_req_exc k i o : exception_under l (e_path i) -> promising cx l (NReq k i o)
| pr_req k i x : e_audited i = false -> promising cx l x -> promising cx l (NReq k i (Some x))
| pr_cond k i t f x : in_force i t f x -> promising cx l x -> promising cx l (NCond k i t f)
| pr_prof k i c : promising cx l (NProf k i c).

(** ** matches *)
Definition course_match (cx : ctx) (l : list exc) (r : crule) (c : course) : Prop :=
  (exists x k f, In x l /\ ex_path x = r_path r /\ ex_act x = AInsert k f /\ ~ In k (r_excluded r) /\ find_by_clbid cx k = Some c) \/
  (r_from_claimed r = false /\ finds cx r c /\ ~ In (c_clbid c) (r_excluded r)).
Definition query_match (cx : ctx) (l : list exc) (q : query) (x : item) : Prop :=
  (readable cx q x /\ passes_where (q_where q) x) \/
  ((q_source q = QCourses \/ q_source q = QClaimed) /\
   exists e k f c, In e l /\ ex_path e = q_path q /\ ex_act e = AInsert k f /\ ~ In k (q_excluded q) /\ x = ICourse c /\
     (if f then forced_by_clbid cx k = Ok c else find_by_clbid cx k = Some c)).
Inductive matching (cx : ctx) (l : list exc) : node -> item -> Prop :=
| ma_course k r c : course_match cx l r c -> matching cx l (NCourse k r) (ICourse c)
| ma_query k q x : query_match cx l q x -> matching cx l (NQuery k q) x
| ma_count k i items y x : In y items -> matching cx l y x -> matching cx l (NCount k i items) x
| ma_req k i y x : matching cx l y x -> matching cx l (NReq k i (Some y)) x
| ma_cond k i t f y x : in_force i t f y -> matching cx l y x -> matching cx l (NCond k i t f) x
| ma_prof k i k' r c : course_match cx l r c -> matching cx l (NProf k i (Some (k', r))) (ICourse c).

(** ** required courses: those without which the tree cannot be done, as far as "all of" goes *)
Inductive requires (cx : ctx) : node -> course -> Prop :=
| rq_course k r c : c_required cx r = Ok [c] -> requires cx (NCourse k r) c
| rq_count k i items x c : n_count i = Z.of_nat (List.length items) -> In x items -> requires cx x c -> requires cx (NCount k i items) c
| rq_req k i x c : requires cx x c -> requires cx (NReq k i (Some x)) c
| rq_cond k i t f x c : in_force i t f x -> requires cx x c -> requires cx (NCond k i t f) c
| rq_prof k i k' r c : c_required cx r = Ok [c] -> requires cx (NProf k i (Some (k', r))) c.

(** the course rules of a tree, those beneath proficiencies included *)
Definition course_in (n : node) (r : crule) : Prop :=
  (exists k, part_of n (NCourse k r)) \/ (exists k i k', part_of n (NProf k i (Some (k', r)))).
Definition years_have_terms (n : node) : Prop := forall r, course_in n r -> year_has_term r.
