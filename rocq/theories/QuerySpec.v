(** What queries offer, independently of the loops that compute it. *)
From Coq Require Import List ZArith QArith Bool String.
From Verif Require Import Prelude Dec Status Course Claims Exceptions Op Context Predicate Limit Apply Assertion Query.
From Verif Require Import ListFacts TranscriptSpec AssertionSpec.
Import ListNotations.
Local Open Scope string_scope.
Local Open Scope list_scope.
Local Open Scope Q_scope.

(** the courses a course query reads *)
Definition query_courses (cx : ctx) (q : query) : list course :=
  if q_failed_too q then cx_failed cx else cx_transcript cx.

(** [c] is inserted into the query by an exception of [l] at its path *)
Definition inserted_into (cx : ctx) (l : list exc) (q : query) (c : course) : Prop :=
  exists x k forced, In x l /\ ex_path x = q_path q /\ ex_act x = AInsert k forced /\ ~ In k (q_excluded q) /\
    (find_by_clbid cx k = Some c \/ (forced = true /\ forced_by_clbid cx k = Ok c)).
(** the class ids of all insertions, and of the forced ones *)
Definition inserted_id (l : list exc) (q : query) (k : string) : Prop :=
  exists x forced, In x l /\ ex_path x = q_path q /\ ex_act x = AInsert k forced /\ ~ In k (q_excluded q).
Definition forced_id (l : list exc) (q : query) (k : string) : Prop :=
  exists x, In x l /\ ex_path x = q_path q /\ ex_act x = AInsert k true /\ ~ In k (q_excluded q).

(** the candidates: eligible courses and inserted ones *)
Definition eligible (cx : ctx) (q : query) (c : course) : Prop :=
  In c (query_courses cx q) /\ ~ In (c_clbid c) (q_excluded q) /\ passes_where (q_where q) (ICourse c).
Definition candidate (cx : ctx) (l : list exc) (q : query) (c : course) : Prop :=
  eligible cx q c \/ inserted_into cx l q c.

(** an assertion of the query, at top level or in a branch of a conditional one *)
Definition asserted (q : query) (a : assertion) : Prop :=
  exists x, In x (q_asserts q) /\
    match x with
    | APlain b => b = a
    | AIf _ _ t e => t = a \/ e = Some a
    | AWhen _ _ t => t = a
    end.
Definition counts (a : assertion) : Prop := as_key a = KCourses \/ as_key a = KTerms.
Definition sums (a : assertion) : Prop := as_key a = KSumCredits.
(** the assertions of the query in order, conditional ones being replaced by their branches *)
Definition listed_assertions (q : query) : list assertion :=
  flat_map (fun x => match x with
    | APlain b => [b]
    | AIf _ _ t (Some e) => [t; e]
    | AIf _ _ t None => [t]
    | AWhen _ _ t => [t]
    end) (q_asserts q).
(** [a] is the first of the assertions of that kind with the largest threshold: it decides
    which selections are tried *)
Definition deciding (kind : assertion -> Prop) (q : query) (a : assertion) : Prop :=
  kind a /\ exists pre post, listed_assertions q = pre ++ a :: post /\
  (forall b, In b pre -> kind b -> dval (as_expected b) < dval (as_expected a)) /\
  (forall b, In b post -> kind b -> dval (as_expected b) <= dval (as_expected a)).
Definition none_of (kind : assertion -> Prop) (q : query) : Prop := forall a, asserted q a -> ~ kind a.

(** the sizes tried for a counting assertion with threshold [e] over [n] candidates *)
Definition size_tried (a : assertion) (e n k : Z) : Prop :=
  match as_op a with
  | OLt | OLte => (0 <= k)%Z /\ size_meets (as_op a) k e
  | ONeq => (0 <= k)%Z /\ size_meets ONeq k e
  | OEq => k = Z.min n e
  | OGt => ((n < e)%Z /\ k = n) \/ ((0 <= k)%Z /\ size_meets OGt k e)
  | OGte => (as_at_most a = true /\ k = Z.min n e) \/
            (as_at_most a = false /\ (((n < e)%Z /\ k = n) \/ ((0 <= k)%Z /\ size_meets OGte k e)))
  | OIn | ONin => False
  end.
(** the selections tried over the courses [v] *)
Definition tried (q : query) (v combo : list course) : Prop :=
  (exists a e, deciding counts q a /\ dval (as_expected a) == inject_Z e /\ subseq combo v /\
     size_tried a e (Z.of_nat (List.length v)) (Z.of_nat (List.length combo))) \/
  (none_of counts q /\ exists a, deciding sums q a /\
     ((credits_of v < dval (as_expected a) /\ combo = v) \/
      (dval (as_expected a) <= credits_of v /\ subseq combo v /\ combo <> [] /\ dval (as_expected a) <= credits_of combo))) \/
  (none_of counts q /\ none_of sums q /\ subseq combo v /\ combo <> []).

(** [out] is the selection [combo] completed with the courses of [v] whose class id is
    inserted and not yet selected *)
Definition completed (l : list exc) (q : query) (v combo out : list course) : Prop :=
  exists f, (forall c, In c v -> (f c = true <-> inserted_id l q (c_clbid c) /\ ~ In (c_clbid c) (map c_clbid combo))) /\
    out = combo ++ filter f v.
(** the solution [s] of [q] offers [out]; nothing else of the query changes *)
Definition offers (l : list exc) (q : query) (s : query) (out : list course) : Prop :=
  q_output s = map ICourse out /\
  q_path s = q_path q /\ q_overridden s = q_overridden q /\ q_source s = q_source q /\ q_asserts s = q_asserts q /\
  q_where s = q_where q /\ q_limit s = q_limit q /\
  q_allow s = q_allow q /\ q_attempt s = q_attempt q /\ q_record s = q_record q /\ q_failed_too s = q_failed_too q /\
  q_excluded s = q_excluded q /\ q_claims s = [] /\ q_failures s = [] /\
  (forall k, In k (q_inserted s) <-> In k (q_inserted q) \/ inserted_id l q k) /\
  (forall k, In k (q_forced s) <-> In k (q_forced q) \/ forced_id l q k).

(** ** Statuses *)
Definition complete (s : status) : Prop := s = Done \/ s = Waived.
Definition passing (s : status) : Prop := complete s \/ s = PendingCurrent \/ s = PendingRegistered.
Definition started (s : status) : Prop := passing s \/ s = NeedsMoreItems.
(** the status of a conjunction of statuses *)
Definition conjunction (ss : list status) (s : status) : Prop :=
  match s with
  | FailedInvariant => In FailedInvariant ss
  | Waived => forall x, In x ss -> x = Waived
  | Done => (forall x, In x ss -> complete x) /\ In Done ss
  | PendingCurrent => (forall x, In x ss -> complete x \/ x = PendingCurrent) /\ In PendingCurrent ss
  | PendingRegistered => (forall x, In x ss -> passing x) /\ In PendingRegistered ss
  | NeedsMoreItems =>
      ~ In FailedInvariant ss /\
      ((forall x, In x ss -> started x) /\ In NeedsMoreItems ss \/
       In Empty ss /\ exists x, In x ss /\ started x)
  | Empty => ~ In FailedInvariant ss /\ (exists x, In x ss /\ ~ started x) /\
             ~ (In Empty ss /\ exists x, In x ss /\ started x)
  | PendingApproval => False
  end.
(** how a source is named, and what its items are *)
Definition source_name (s : qsource) : string :=
  match s with
  | QCourses => "courses" | QClaimed => "claimed" | QAreas => "areas"
  | QPerformances => "music performances" | QRecitals => "music recitals"
  end%string.
Definition items_of (s : qsource) : data_type :=
  match s with QAreas => DtArea | QRecitals => DtRecital | QPerformances => DtPerformance | QCourses => DtCourse | QClaimed => DtCourse end.
