(** What a query with one "at least" asks for, said of the transcript. *)
From Coq Require Import List ZArith QArith Bool String.
From Verif Require Import Prelude Dec Status Course Claims Exceptions Op Context CondExpr Paths Predicate Limit Apply Assertion Query CourseRule Tree.
From Verif Require Import ListFacts TranscriptSpec AssertionSpec QuerySpec.
Import ListNotations.
Local Open Scope list_scope.

(** classes of the transcript, in its order, that the query and its assertion accept, finished
    unless classes in progress are as good; if the query claims its classes and may not share
    them, no two rows of the same class *)
Definition available (cx : ctx) (q : query) (a : assertion) (items : list course) : Prop :=
  subseq items (query_courses cx q) /\
  (forall c, In c items -> ~ In (c_clbid c) (q_excluded q) /\ passes_where (q_where q) (ICourse c) /\ passes_where (as_where a) (ICourse c) /\
    (as_ip_pass a = false -> c_in_progress c = false)) /\
  (q_attempt q = true -> q_allow q = false -> NoDup (map c_clbid items)).
(** they are as many as are asked for: no two the same class, of the same course, in the same
    subject (CH/BI counting as either CHEM or BIO), in the same term, in the same year; or their
    credits come to the sum *)
Definition reaches (a : assertion) (items : list course) : Prop :=
  let many := (dval (as_expected a) <= inject_Z (Z.of_nat (List.length items)))%Q in
  match as_key a with
  | KCourses => NoDup items /\ many
  | KDistinctCourses => NoDup (map c_crsid items) /\ many
  | KSubjects => (exists ss, Forall2 discipline items ss /\ NoDup ss) /\ many
  | KTerms => NoDup (map c_yearterm items) /\ many
  | KYears => NoDup (map c_year items) /\ many
  | KSumCredits => (dval (as_expected a) <= credits_of items)%Q
  | _ => False
  end.
