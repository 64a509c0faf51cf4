(** Ways to meet a requirement, read off the rules and the transcript: what is chosen at each
    count, which class is used at each course rule, which classes at each query. *)
From Coq Require Import List ZArith QArith Bool String.
From Verif Require Import Prelude Dec Status Course Claims Exceptions Op Context CondExpr Paths Predicate Limit Apply Assertion Query CourseRule Tree.
From Verif Require Import ListFacts LimitSpec AssertionSpec PathsSpec EnumSpec QuerySpec CourseRuleSpec TreeSpec TreeSolSpec TreeAskSpec TreeAuditSpec SolveSpec.
Import ListNotations.
Local Open Scope list_scope.

(** what a rule takes away from the other rules: nothing if it may share *)
Definition uses_up (shared : bool) (k : string) : list string := if shared then [] else [k].
(** the class a course solution takes *)
Definition takes (s : crule) : list string :=
  if r_overridden s then [] else
  match r_matched s with Some c => uses_up (r_forced s || r_allow s) (c_clbid c) | None => [] end.
(** a rule that is left alone does not spoil the count it belongs to *)
Definition settled (s : status) : Prop := s <> FailedInvariant /\ (passing s -> complete s).

Section Plan.
  (** the iteration order of sets of courses, see Limit *)
  Variable ord : list course -> list course.
  Variables (cx : ctx) (l : list exc).

  (** the assertions of the query are complete for exactly these items *)
  Definition all_complete (q : query) (items : list item) : Prop :=
    exists asserts, mapr (audit_any cx items) (q_asserts q) = Ok asserts /\ forall a, In a asserts -> complete (any_status a).
  (** a selection of classes that the query may try *)
  Definition may_select (q : query) (out : list course) : Prop :=
    (forall a, deciding counts q a -> numeric (as_op a) /\ exists e, (0 <= e)%Z /\ (dval (as_expected a) == inject_Z e)%Q) /\
    exists cs ins forced v combo,
      q_filtered cx q = Ok (map ICourse cs, ins, forced) /\
      In v (g_items (limited_transcripts ord (q_limit q) forced cs)) /\ tried q v combo /\ completed l q v combo out.

  (** [meets n ks]: the rule [n] can be met with finished classes, those of the list [ks]
      being used up *)
  Inductive meets : node -> list string -> Prop :=
  | me_course k r c : r_auto_waived r = false -> ~ waived_at l (r_path r) ->
      finds cx r c -> acceptable r c -> c_in_progress c = false ->
      meets (NCourse k r) (uses_up (r_allow r) (c_clbid c))
  | me_inserted k r c forced : r_auto_waived r = false -> ~ waived_at l (r_path r) ->
      insertion cx l r c forced -> meets (NCourse k r) (uses_up (forced || r_allow r) (c_clbid c))
  | me_course_waived k r : r_auto_waived r = true \/ waived_at l (r_path r) -> meets (NCourse k r) []
  | me_query k q out : q_source q = QCourses -> q_overridden q = false -> q_attempt q = true ->
      may_select q out -> out <> [] -> all_complete q (map ICourse out) ->
      meets (NQuery k q) (if q_allow q then [] else map c_clbid out)
  | me_query_free k q cs ins forced v : q_source q = QCourses -> q_overridden q = false -> q_attempt q = false ->
      q_filtered cx q = Ok (map ICourse cs, ins, forced) -> In v (g_items (limited_transcripts ord (q_limit q) forced cs)) ->
      v <> [] -> all_complete q (map ICourse v) -> meets (NQuery k q) []
  | me_query_other k q data : q_source q <> QCourses -> q_source q <> QClaimed -> q_overridden q = false ->
      q_filtered cx q = Ok (data, [], []) -> all_complete q data -> meets (NQuery k q) []
  | me_count_waived k i items : waived_at l (n_path i) -> meets (NCount k i items) []
  | me_count k i items (chosen : node -> bool) (a : node -> list string) n m :
      ~ waived_at l (n_path i) -> n_audits i = [] ->
      (forall c, In c items -> chosen c = true -> promising cx l c) ->
      (forall c, In c items -> chosen c = true -> meets c (a c)) ->
      (forall c, In c items -> chosen c = false -> settled (status_of c)) ->
      tally (promising cx l) items n -> fits (n_count i) (n_at_most i) n (List.length (filter chosen items)) ->
      tally (fun c => chosen c = true \/ complete (status_of c)) items m -> (n_count i <= Z.of_nat m)%Z -> (1 <= m)%nat ->
      meets (NCount k i items) (flat_map a (filter chosen items))
  | me_req_waived k i o : waived_at l (e_path i) -> meets (NReq k i o) []
  | me_req k i x ks : ~ waived_at l (e_path i) -> e_audited i = false -> meets x ks -> meets (NReq k i (Some x)) ks
  | me_cond k i t f x ks : in_force i t f x -> meets x ks -> meets (NCond k i t f) ks
  | me_prof_waived k i c : waived_at l (f_path i) -> meets (NProf k i c) []
  | me_prof k i : ~ waived_at l (f_path i) -> proficiency_status (cx_prof cx) (f_proficiency i) false = Ok Done ->
      meets (NProf k i None) []
  | me_prof_course k i k' r x rest s : ~ waived_at l (f_path i) ->
      proficiency_status (cx_prof cx) (f_proficiency i) false = Ok s -> g_items (c_solutions cx r) = x :: rest ->
      (s = Done \/ r_overridden x = true \/ exists c, r_matched x = Some c /\ (c_in_progress c = false \/ r_inserted x = true)) ->
      meets (NProf k i (Some (k', r))) (takes x).
End Plan.

(** rules as the loader makes them *)
Definition orderly (n : node) : Prop :=
  years_have_terms n /\ rule_tree n /\
  (forall k i items, part_of n (NCount k i items) -> siblings items).
(** none of the classes has been claimed *)
Definition unclaimed (t : claims) (ks : list string) : Prop := forall k, In k ks -> dget t k = None.

(** rules at the top that are declared disjoint are so *)
Definition honest (cx : ctx) (items : list node) : Prop :=
  forall c d, usable cx items c -> usable cx items d -> c <> d -> always_disjoint c = true -> always_disjoint d = true -> ~ shares cx c d.
(** no two classes among the matches have the same id *)
Definition one_class_per_id (cx : ctx) (items : list node) : Prop :=
  forall c d cs ds x y, In c items -> In d items -> matches_of cx c = Ok cs -> matches_of cx d = Ok ds ->
  In (ICourse x) cs -> In (ICourse y) ds -> c_clbid x = c_clbid y -> x = y.
(** rules as the loader makes them, with insertions of classes on the transcript only *)
Definition fair (cx : ctx) (l : list exc) (items : list node) : Prop :=
  (forall c, In c items -> unaudited c /\ plain_rule cx l c) /\ honest cx items /\ one_class_per_id cx items.
(** every one of the items is asked for, and all can be met at once, no class being used up twice *)
Definition all_met (ord : list course -> list course) (cx : ctx) (l : list exc) (i : count_info) (items : list node) : Prop :=
  ~ waived_at l (n_path i) /\ n_audits i = [] /\ n_count i = Z.of_nat (List.length items) /\ items <> [] /\
  exists a : node -> list string,
    (forall c, In c items -> promising cx l c /\ listable ord cx l c /\ meets ord cx l c (a c)) /\ NoDup (flat_map a items).
