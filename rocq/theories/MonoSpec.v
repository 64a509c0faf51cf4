(** Trees of course rules, and transcripts with more on them. *)
From Coq Require Import List ZArith QArith Bool String.
From Verif Require Import Prelude Dec Status Course Claims Exceptions Op Context CondExpr Paths Predicate Limit Apply Assertion Query CourseRule Tree.
From Verif Require Import ListFacts LimitSpec LimitApartProps QuerySpec CourseRuleSpec TreeSpec TreeSolSpec TreeAskSpec.
Import ListNotations.
Local Open Scope list_scope.

(** Quantities that do not get smaller with more classes *)
Definition rising (k : akey) : Prop := In k [KCourses; KDistinctCourses; KSubjects; KTerms; KYears; KSumCredits].
(** "at least so many": of classes, courses, subjects, terms or years, of classes of a kind
    perhaps, or so many credits *)
Definition at_least (a : assertion) : Prop :=
  as_type a = DtCourse /\ as_op a = OGte /\ as_at_most a = false /\ as_overridden a = false /\ rising (as_key a) /\
  (as_key a = KSumCredits -> as_where a = None /\ (0 < dval (as_expected a))%Q) /\
  (as_key a <> KSumCredits -> exists e, (1 <= e)%Z /\ (dval (as_expected a) == inject_Z e)%Q).
(** the clause can be asked of any class *)
Definition answerable (w : option pred) : Prop := forall p, w = Some p -> forall c, exists b, apply_pred (ICourse c) p = Ok b.
(** no exception is aimed at this path *)
Definition untouched (l : list exc) (p : path) : Prop := forall x, In x l -> ex_path x <> p.
(** limits that can be asked of any class, none of them below zero *)
Definition sound_limits (ls : list limit) : Prop :=
  coherent ls /\ forall m, In m ls -> (0 <= dval (lm_at_most m))%Q /\ answerable (Some (lm_where m)).
(** A query over the transcript, with such limits or without, all of whose assertions are of that kind *)
Definition simple_query (l : list exc) (q : query) : Prop :=
  q_source q = QCourses /\ q_overridden q = false /\ sound_limits (q_limit q) /\ q_forced q = [] /\ untouched l (q_path q) /\
  answerable (q_where q) /\
  q_asserts q <> [] /\
  (forall x, In x (q_asserts q) -> exists a, x = APlain a /\ at_least a /\ answerable (as_where a) /\ untouched l (as_path a)).

(** A tree of courses, simple queries, counts, requirements and conditionals as it is loaded: no
    proficiencies, no clauses at counts, nothing left to the department, and nothing that
    counts before it is solved. *)
Definition plain_part (l : list exc) (x : node) : Prop :=
  match x with
  | NCourse _ r => r_optional r = false /\ r_inserted r = false
  | NQuery _ q => simple_query l q
  | NCount _ i _ => n_audits i = [] /\ (1 <= n_count i)%Z
  | NReq _ i o => e_audited i = false /\ o <> None
  | NCond _ i t f => exists y, in_force i t f y
  | NProf _ _ _ => False
  end.
Definition of_courses (l : list exc) (n : node) : Prop := forall x, part_of n x -> plain_part l x /\ status_of x = Empty.

(** [cx'] is the same for a student who has taken more: whatever class was there still is, and
    class ids mean the same *)
Definition more (cx cx' : ctx) : Prop :=
  (forall c, In c (cx_transcript cx) -> In c (cx_transcript cx')) /\
  (forall k c, find_by_clbid cx k = Some c -> find_by_clbid cx' k = Some c) /\
  (forall k c, forced_by_clbid cx k = Ok c -> forced_by_clbid cx' k = Ok c).
(** No class that a query of the tree may read takes credits away *)
Definition no_debts (cx : ctx) (n : node) : Prop :=
  forall k q c, part_of n (NQuery k q) -> In c (query_courses cx q) -> (0 <= dval (c_credits c))%Q.
(** no class under a credit limit is under another limit, and ids tell the classes apart *)
Definition clear_limits (ls : list limit) (cs : list course) : Prop :=
  limits_apart [] ls cs /\ forall c d, In c cs -> In d cs -> c_clbid c = c_clbid d -> c = d.
(** The queries of a tree read the transcript in its order: the classes that were there are in
    the same order as before. If a query has limits, there is nothing new to read or the limits
    are apart. *)
Definition in_order (cx cx' : ctx) (n : node) : Prop :=
  forall k q, part_of n (NQuery k q) -> subseq (query_courses cx q) (query_courses cx' q) /\
    (q_limit q = [] \/ query_courses cx' q = query_courses cx q \/ clear_limits (q_limit q) (query_courses cx' q)).
