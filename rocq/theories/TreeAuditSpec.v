(** What auditing a solution tree asks of the claim table, and what comes out. *)
From Coq Require Import List ZArith QArith Bool String Permutation.
From Verif Require Import Prelude Dec Status Course Claims Exceptions Op Context CondExpr Paths Predicate Limit Apply Assertion Query CourseRule Tree.
From Verif Require Import ListFacts ClaimsSpec AssertionSpec QuerySpec CourseRuleSpec TreeSpec TreeSolSpec.
Import ListNotations.
Local Open Scope list_scope.

(** a course of the transcript, or one that an exception may bring in *)
Definition known (cx : ctx) (c : course) : Prop :=
  exists k, find_by_clbid cx k = Some c \/ forced_by_clbid cx k = Ok c.

(** the attempt of a course solution; a from_claimed one may ask for nothing *)
Inductive course_asks (r : crule) : list attempt -> Prop :=
| ca_waived : r_overridden r = true -> course_asks r []
| ca_none : r_matched r = None -> course_asks r []
| ca_unclaimed : r_from_claimed r = true -> course_asks r []
| ca_ask c : r_overridden r = false -> r_matched r = Some c -> course_asks r [mkAttempt c (r_path r) (r_forced r || r_allow r)].
Definition shared_at (p : path) (c : course) : attempt := mkAttempt c p true.
(** the attempts of a query solution; the claims of a recording query are never exclusive *)
Inductive query_asks (cx : ctx) (q : query) : list attempt -> Prop :=
| qa_waived : q_overridden q = true -> query_asks cx q []
| qa_claims cs : q_overridden q = false -> q_source q = QCourses -> q_attempt q = true -> q_output q = map ICourse cs ->
    query_asks cx q (map (fun c => mkAttempt c (q_path q) (q_allow q || instr (c_clbid c) (q_forced q))) cs)
| qa_records cs : q_overridden q = false -> q_source q = QCourses -> q_attempt q = false -> q_record q = true -> q_output q = map ICourse cs ->
    query_asks cx q (map (shared_at (q_path q)) cs)
| qa_claimed cs : q_overridden q = false -> q_source q = QClaimed -> q_record q = true -> (forall c, In c cs -> known cx c) ->
    query_asks cx q (map (shared_at (q_path q)) cs)
| qa_nothing : q_overridden q = false -> (q_source q = QCourses -> q_attempt q = false /\ q_record q = false) ->
    (q_source q = QClaimed -> q_record q = false) -> query_asks cx q [].

(** the attempts of a solution tree, from left to right: only solved parts ask *)
Inductive asks (cx : ctx) : node -> list attempt -> Prop :=
| ask_course k r h : course_asks r h -> asks cx (NCourse k r) h
| ask_query k q h : query_asks cx q h -> asks cx (NQuery k q) h
| ask_count_waived k i items : n_overridden i = true -> asks cx (NCount k i items) []
| ask_count k i items hs : n_overridden i = false ->
    Forall2 (fun x h => (kind_of x = KSol /\ asks cx x h) \/ (kind_of x <> KSol /\ h = [])) items hs ->
    asks cx (NCount k i items) (List.concat hs)
| ask_req_waived k i o : e_overridden i = true -> asks cx (NReq k i o) []
| ask_req_none k i : asks cx (NReq k i None) []
| ask_req_rule k i x : kind_of x = KRule -> asks cx (NReq k i (Some x)) []
| ask_req k i x h : e_overridden i = false -> kind_of x = KSol -> asks cx x h -> asks cx (NReq k i (Some x)) h
| ask_cond k i t f x h : in_force i t f x -> kind_of x = KSol -> asks cx x h -> asks cx (NCond k i t f) h
| ask_cond_rule k i t f : (forall x, in_force i t f x -> kind_of x <> KSol) -> asks cx (NCond k i t f) []
| ask_prof k i r h : f_overridden i = false -> course_asks r h -> asks cx (NProf k i (Some (KSol, r))) h
| ask_prof_none k i c : f_overridden i = true \/ (forall r, c <> Some (KSol, r)) -> asks cx (NProf k i c) [].

(** nothing in the tree has been audited yet *)
Definition unaudited (n : node) : Prop :=
  forall x, part_of n x -> kind_of x <> KRes /\ forall k i r, x <> NProf k i (Some (KRes, r)).
(** no requirement in it is left to the department *)
Definition none_by_department (n : node) : Prop :=
  forall k i o, part_of n (NReq k i o) -> e_audited i = false.
Definition succeeded (cl : claim) : bool := negb (cl_failed cl).

(** the leaf at [p] may share the course [c] with others *)
Definition may_share (n : node) (c : course) (p : path) : Prop :=
  (exists r, ((exists k, part_of n (NCourse k r)) \/ (exists k i k', part_of n (NProf k i (Some (k', r))))) /\
     r_path r = p /\ (r_forced r = true \/ r_allow r = true)) \/
  (exists k q, part_of n (NQuery k q) /\ q_path q = p /\
     (q_allow q = true \/ In (c_clbid c) (q_forced q) \/ q_attempt q = false \/ q_source q = QClaimed)).
(** a leaf of the tree offers the course *)
Definition may_use (n : node) (c : course) : Prop :=
  (exists r, ((exists k, part_of n (NCourse k r)) \/ (exists k i k', part_of n (NProf k i (Some (k', r))))) /\ r_matched r = Some c) \/
  (exists k q, part_of n (NQuery k q) /\ In (ICourse c) (q_output q)).
Definition paths_ok (n : node) : Prop :=
  (forall x, part_of n x -> path_ok (path_of x)) /\ (forall k i k' r, part_of n (NProf k i (Some (k', r))) -> path_ok (r_path r)).

(** ** the result *)
(** the distinct courses successfully claimed in a result, in some order *)
Definition matched_courses (n : node) (cs : list course) : Prop :=
  NoDup cs /\ forall c, In c cs <-> exists cl, claimed_in false n cl /\ cl_failed cl = false /\ cl_course cl = c.
Section Audited.
  Context (cx : ctx).
  (** what auditing keeps, and what it works out, apart from the claims of the leaves *)
  Inductive audited : node -> node -> Prop :=
  | au_course k r r' : r_path r' = r_path r -> r_overridden r' = r_overridden r -> r_inserted r' = r_inserted r -> r_optional r' = r_optional r ->
      audited (NCourse k r) (NCourse KRes r')
  | au_query k q q' : q_path q' = q_path q -> q_overridden q' = q_overridden q -> q_output q' = q_output q ->
      audited (NQuery k q) (NQuery KRes q')
  | au_count_waived k i items : n_overridden i = true -> audited (NCount k i items) (NCount KRes i items)
  | au_count k i items results css clauses : n_overridden i = false ->
      Forall2 (fun x y => (kind_of x = KSol /\ audited x y) \/ (kind_of x <> KSol /\ y = x)) items results ->
      Forall2 matched_courses results css ->
      Forall2 (fun a a' => audit_any cx (map ICourse (List.concat css)) a = Ok a') (n_audits i) clauses ->
      audited (NCount k i items) (NCount KRes (mkCount (n_path i) false (n_count i) (n_at_most i) clauses) results)
  | au_req_as_is k i o : e_overridden i = true \/ (forall x, o = Some x -> kind_of x = KRule) ->
      audited (NReq k i o) (NReq KRes i o)
  | au_req k i x y : e_overridden i = false -> kind_of x = KSol -> audited x y -> audited (NReq k i (Some x)) (NReq KRes i (Some y))
  | au_true k i t f y : e_result (d_cond i) = Some true -> kind_of t = KSol -> audited t y -> audited (NCond k i t f) (NCond KRes i y f)
  | au_false k i t x y : e_result (d_cond i) = Some false -> kind_of x = KSol -> audited x y -> audited (NCond k i t (Some x)) (NCond KRes i t (Some y))
  | au_cond_as_is k i t f : (forall x, in_force i t f x -> kind_of x <> KSol) -> audited (NCond k i t f) (NCond KRes i t f)
  | au_prof_waived k i c : f_overridden i = true ->
      audited (NProf k i c) (NProf KRes (mkProfInfo (f_path i) true (f_proficiency i) Waived) c)
  | au_prof k i r r' s : f_overridden i = false -> proficiency_status (cx_prof cx) (f_proficiency i) false = Ok s ->
      r_path r' = r_path r -> r_overridden r' = r_overridden r -> r_inserted r' = r_inserted r -> r_optional r' = r_optional r ->
      audited (NProf k i (Some (KSol, r))) (NProf KRes (mkProfInfo (f_path i) false (f_proficiency i) s) (Some (KRes, r')))
  | au_prof_none k i c s : f_overridden i = false -> proficiency_status (cx_prof cx) (f_proficiency i) false = Ok s ->
      (forall r, c <> Some (KSol, r)) ->
      audited (NProf k i c) (NProf KRes (mkProfInfo (f_path i) false (f_proficiency i) s) c).
End Audited.
