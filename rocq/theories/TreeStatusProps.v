(** Property theorems about the status, rank and claims of requirement trees (C32 to C36, C48,
    C60, C77, C78). *)
From Coq Require Import List ZArith QArith Bool String Lia Lqa.
From Verif Require Import Prelude Dec Status Course Claims Exceptions Op Context CondExpr Predicate Limit Apply Assertion Query CourseRule Tree.
From Verif Require Import ListFacts AssertionSpec AssertionProofs QuerySpec QueryProofs QueryProps CourseRuleSpec CourseRuleProofs CourseRuleProps TreeSpec TreeProofs PredicateProofs.
Import ListNotations.
Local Open Scope string_scope.
Local Open Scope list_scope.
Local Open Scope Q_scope.

(** ** Sample trees *)
Definition leaf (name : string) (optional : bool) (cl : option claim) : crule :=
  mkCrule ["$"; ".count"; ("*" ++ name)%string] false (Some name) None None None None None None None None None None None
    false false optional false false false [] None cl.
Definition got (name : string) (failed : bool) : node :=
  NCourse KRes (leaf name false (Some (mkClaim (mk_simple name name "1") ["$"] failed))).
Definition missing (name : string) : node := NCourse KSol (leaf name false None).
Definition of_ (count : Z) (at_most : bool) (audits : list any_assertion) (items : list node) : node :=
  NCount KRes (mkCount ["$"; ".count"] false count at_most audits) items.
Definition req (name : string) (in_gpa : bool) (n : node) : node :=
  NReq KRes (mkReq ["$"; ("%" ++ name)%string] false name false false in_gpa None) (Some n).
Definition whether (b : bool) (t : node) (f : option node) : node :=
  NCond KRes (mkCond ["$"; ".cond"] false (EFun FHasCourse "A 1" (Some b))) t f.
Definition failed_audit : any_assertion :=
  APlain (mkAs ["$"] FailedInvariant DtCourse None KCourses OLt (mkDec 1 0) None [] false None None false true false (Some 2) None None None).
Definition sample : node :=
  of_ 2 false [] [got "A" false; req "B" false (whether true (got "B" false) None); missing "C"].

(** ** C33, C36 *)

(** The status of a count requirement that is not waived is the verdict on its children and
    its audit clauses, and the verdict is unique. *)
Theorem count_status_exact :
  forall k i items s, n_overridden i = false ->
  (status_of (NCount k i items) = s <-> verdict (n_count i) (map status_of items) (map any_status (n_audits i)) s).
Proof.
  intros k i items s O. cbn [status_of]. rewrite O. assert (V := count_verdict (n_count i) (map status_of items) (map any_status (n_audits i))).
  split; [intros <-; auto|]. intro V'. eapply verdict_unique; eauto.
Qed.
Print Assumptions count_status_exact.
(** It passes only if at least the requested number of children pass, with all the audit
    clauses; it is complete only if, moreover, no child that passes and no clause is merely
    in progress. *)
Theorem count_passes_only_with_enough :
  forall k i items, n_overridden i = false ->
  (passing (status_of (NCount k i items)) ->
     (exists chosen, subseq chosen items /\ (n_count i <= Z.of_nat (List.length chosen))%Z /\
        forall x, In x chosen -> passing (status_of x)) /\
     (forall a, In a (n_audits i) -> passing (any_status a)) /\
     (forall x, In x items -> status_of x <> FailedInvariant)) /\
  (complete (status_of (NCount k i items)) ->
     (forall x, In x items -> passing (status_of x) -> complete (status_of x)) /\
     (forall a, In a (n_audits i) -> complete (any_status a))).
Proof.
  intros k i items O. assert (V := proj1 (count_status_exact k i items _ O) eq_refl). set (s := status_of (NCount k i items)) in *. split.
  - intro P.
    assert (X : enough (n_count i) (map status_of items) (map any_status (n_audits i)) /\ each_counted (map status_of items) (map any_status (n_audits i)) passing).
    { destruct P as [[E|E]|[E|E]]; rewrite E in V; cbn [verdict] in V; destruct V as [V1 [[V2 V3] V4]]; split; auto; split; unfold passing, complete in *; auto;
        intros x I; specialize (V3 x I); first [rewrite <- V3; auto|tauto]. }
    destruct X as [[[F1 [F2 _]] [m [T LE]]] [_ X2]]. split; [|split].
    + destruct (passing_subseq items) as [SUB L]. eexists. split; [exact SUB|]. split.
      * rewrite L. assert (m = List.length (filter (fun s => inS s passing_statuses) (map status_of items))) by (eapply tally_fun; [exact T|apply tally_filter]). subst m. exact LE.
      * intros x I. apply filter_In in I. apply passing_iff, I.
    + intros a I. apply X2. apply in_map. exact I.
    + intros x I E. apply F1. rewrite <- E. apply in_map. exact I.
  - intro P.
    assert (X : each_counted (map status_of items) (map any_status (n_audits i)) complete).
    { destruct P as [E|E]; rewrite E in V; cbn [verdict] in V; destruct V as [V1 [[V2 V3] V4]]; split; auto; unfold complete in *;
        first [intros x I Px; rewrite <- (V2 x I Px); auto|intros x I; rewrite <- (V3 x I); auto]. }
    destruct X as [X1 X2]. split; [intros x I Px; apply X1; auto; apply in_map; exact I|intros a I; apply X2; apply in_map; exact I].
Qed.
Print Assumptions count_passes_only_with_enough.
Example count_passes_example :
  passing (status_of sample) /\ status_of (missing "C") = Empty /\
  status_of (of_ 3 false [] [got "A" false; got "B" false; missing "C"]) = NeedsMoreItems.
Proof. repeat split. left. left. reflexivity. Qed.

(** C36: a failed invariant of a child or of an audit clause is the status of the whole
    requirement, which never passes. *)
Theorem failed_invariant_not_masked :
  (forall k i items, n_overridden i = false ->
     (status_of (NCount k i items) = FailedInvariant <->
      (exists x, In x items /\ status_of x = FailedInvariant) \/ (exists a, In a (n_audits i) /\ any_status a = FailedInvariant))) /\
  (forall k q, q_overridden q = false ->
     (status_of (NQuery k q) = FailedInvariant <-> exists a, In a (q_asserts q) /\ any_status a = FailedInvariant)) /\
  ~ passing FailedInvariant.
Proof.
  split; [|split].
  - intros k i items O. rewrite (count_status_exact k i items _ O). cbn [verdict]. rewrite !in_map_iff. split; intros [[x [A B]]|[x [A B]]]; eauto.
  - intros k q O. cbn [status_of]. apply (query_passes_iff_all_pass q O).
  - intros [[H|H]|[H|H]]; discriminate.
Qed.
Print Assumptions failed_invariant_not_masked.
Example failed_invariant_example : status_of (of_ 1 false [failed_audit] [got "A" false]) = FailedInvariant.
Proof. reflexivity. Qed.

(** ** C34 *)
(** A tree whose status is done or waived has a witness of its completion. *)
Theorem complete_tree_is_achieved : forall n, complete (status_of n) -> achieved n.
Proof. exact achieved_ok. Qed.
Print Assumptions complete_tree_is_achieved.
Example complete_tree_example : complete (status_of sample) /\ ~ complete (status_of (of_ 2 false [] [got "A" false; missing "C"])).
Proof. split; [left; reflexivity|]. intros [H|H]; discriminate. Qed.
Example not_achieved_example : ~ achieved (of_ 2 false [] [got "A" false; missing "C"]).
Proof.
  intro H. inversion H as [|?|k i items O|k i items ch SUB L A _| | | | | | |]; subst; [discriminate|]. cbn in L.
  assert (M : ~ achieved (missing "C")).
  { intro X. inversion X as [k r [C|[[C _]|[C|[C _]]]]| | | | | | | | | |]; subst; discriminate. }
  inversion SUB as [|? ? ? S1|? ? ? S1]; subst; inversion S1 as [|? ? ? S2|? ? ? S2]; subst; inversion S2; subst; cbn in L; try lia.
  apply M, A. simpl. auto.
Qed.

(** ** C35 *)
(** A waived node is complete and has full rank, whatever lies beneath; conditionals are
    left out (see below), and so is a result of a course rule that has a claim, which the
    audit of a waived rule never makes. *)
Theorem waived_nodes_are_complete_partial :
  forall n, overridden n = true -> (forall k i t f, n <> NCond k i t f) -> (forall r, n = NCourse KRes r -> r_claim r = None) ->
  complete (status_of n) /\ exists r m, rank_of n = Ok (r, m) /\ r == m.
Proof.
  intros n O NC CL. destruct n as [k r|k q|k i items|k i result|k i t f|k i c]; cbn [overridden] in O.
  - assert (S : c_status k r = Waived).
    { apply leaf_status_iff. destruct k; [apply ls_waived; auto; discriminate|apply ls_waived; auto; discriminate|]. apply ls_audited; auto. apply cs_excused. split; auto. intros [cl [E _]]. rewrite (CL r eq_refl) in E. discriminate. }
    cbn [status_of rank_of]. rewrite S. split; [right; auto|]. eexists _, _. split; [reflexivity|]. unfold c_rank, c_max_rank. rewrite S. destruct (r_optional r); reflexivity.
  - cbn [status_of rank_of]. unfold q_status, q_rank, q_max_rank. rewrite O. split; [right; auto|]. eexists _, _. split; reflexivity.
  - cbn [status_of rank_of]. rewrite O. split; [right; auto|]. eexists _, _. split; reflexivity.
  - cbn [status_of rank_of]. unfold req_status. rewrite O. cbn [andb]. split; [destruct (e_audited i || e_contract i)%bool; [left|right]; auto|]. eexists _, _. split; reflexivity.
  - destruct (NC k i t f eq_refl).
  - cbn [status_of rank_of]. unfold prof_node_status. rewrite O. split; [right; auto|]. eexists _, _. split; reflexivity.
Qed.
Print Assumptions waived_nodes_are_complete_partial.
Example waived_nodes_example :
  status_of (NCount KSol (mkCount ["$"] true 5 false [failed_audit]) [missing "A"]) = Waived.
Proof. reflexivity. Qed.
(** Not so for a conditional: dp/rule/conditional.py sets "overridden" from a waiver at its
    path, and nothing looks at it. *)
Theorem waived_conditional_is_complete_refuted :
  exists k i t f, overridden (NCond k i t f) = true /\ status_of (NCond k i t f) = Empty.
Proof. exists KSol, (mkCond ["$"; ".cond"] true (EFun FHasCourse "A 1" (Some true))), (missing "A"), None. split; reflexivity. Qed.
Print Assumptions waived_conditional_is_complete_refuted.

(** ** C32 *)
(** If the thresholds and the measured values of the assertions are not negative, the rank
    of every tree lies between 0 and its maximal rank. (No assumption is needed for the
    upper bound.) *)
Theorem rank_is_bounded :
  forall n r m, rank_of n = Ok (r, m) ->
  r <= m /\ ((forall a, ranked_assertion n a -> any_measured a) -> 0 <= r).
Proof. intros n r m H. split; [eapply rank_le; eauto|eapply rank_nonneg; eauto]. Qed.
Print Assumptions rank_is_bounded.
(** The rank is computed except where "at most one of" an empty list occurs (and is not
    waived, approved or switched off): there, max() of nothing raises ValueError. *)
Theorem rank_is_defined :
  forall n, (forall e, rank_of n = Err e -> e = ValueErr) /\ ((exists e, rank_of n = Err e) <-> rank_undefined n).
Proof.
  intro n. destruct (rank_err n) as [A B]. split; [intros e H; apply (A e H)|]. split; [intros [e H]; apply (A e H)|intro H; eauto].
Qed.
Print Assumptions rank_is_defined.
Theorem rank_always_defined_refuted : exists n, rank_of n = Err ValueErr.
Proof. exists (of_ 1 true [] []). reflexivity. Qed.
Print Assumptions rank_always_defined_refuted.
Example rank_example :
  exists r m, rank_of sample = Ok (r, m) /\ r == 3 /\ m == 4 /\ forall a, ranked_assertion sample a -> any_measured a.
Proof.
  eexists _, _. split; [reflexivity|]. split; [reflexivity|]. split; [reflexivity|].
  assert (L : forall k r a, ranked_assertion (NCourse k r) a -> False) by (intros k r a H; inversion H).
  intros a H. inversion H as [|? ? ? ? I|? ? ? ? ? I R|?|?]; subst; [destruct I|]. destruct I as [<-|[<-|[<-|[]]]]; [destruct (L _ _ _ R)| |destruct (L _ _ _ R)].
  inversion R as [| | |? ? ? ? R'|]; subst. inversion R' as [| | | |? ? ? ? ? ? F R'']; subst. destruct F as [E|x E F]; [destruct (L _ _ _ R'')|discriminate].
Qed.

(** ** C77: status and rank, in full *)
(** The status of a tree is the one described by [has_status], its rank (when there is one)
    is the one described by [has_rank]. *)
Theorem tree_status_exact : forall n s, status_of n = s <-> has_status n s.
Proof. exact status_ok. Qed.
Print Assumptions tree_status_exact.
Theorem tree_rank_exact :
  forall n a m, has_rank n a m <-> exists r c, rank_of n = Ok (r, c) /\ a == r /\ m == c.
Proof.
  intros n a m. rewrite (rank_ok n a m). unfold same_rank. cbn [fst snd]. split; [intros [[r c] H]; eauto|intros [r [c H]]; exists (r, c); auto].
Qed.
Print Assumptions tree_rank_exact.
Example tree_status_example : has_status sample Done /\ has_rank sample 3 4.
Proof.
  split; [apply tree_status_exact; reflexivity|]. apply tree_rank_exact. eexists _, _. split; [reflexivity|]. split; reflexivity.
Qed.

(** ** C48 *)
(** The claims of a tree are those of its course, query and proficiency results, without the
    failed ones, outside requirements audited by a department and outside branches of
    conditionals that are not in force; those for the grade point average are, moreover,
    outside every requirement marked in_gpa: false. *)
Theorem claims_exact :
  forall n cl, (In cl (claims_of n) <-> claimed_in false n cl) /\ (In cl (gpa_claims_of n) <-> claimed_in true n cl).
Proof. exact claims_ok. Qed.
Print Assumptions claims_exact.
(** Every claim for the average is a claim; and if no requirement is marked, all are. *)
Inductive occurs (P : req_info -> Prop) : node -> Prop :=
| oc_here k i o : P i -> occurs P (NReq k i o)
| oc_count k i items x : In x items -> occurs P x -> occurs P (NCount k i items)
| oc_req k i x : occurs P x -> occurs P (NReq k i (Some x))
| oc_cond k i t f x : in_force i t f x -> occurs P x -> occurs P (NCond k i t f).
Theorem gpa_claims_are_claims :
  forall n cl, In cl (gpa_claims_of n) -> In cl (claims_of n).
Proof.
  intros n cl H. apply claims_exact. apply claims_exact in H. induction H; try (constructor; auto; discriminate); eauto using claimed_in.
Qed.
Print Assumptions gpa_claims_are_claims.
Theorem unmarked_claims_count :
  forall n cl, ~ occurs (fun i => e_in_gpa i = false) n -> In cl (claims_of n) -> In cl (gpa_claims_of n).
Proof.
  intros n cl N H. apply claims_exact. apply claims_exact in H. induction H.
  - constructor; auto.
  - constructor; auto.
  - eapply ci_count; eauto. apply IHclaimed_in. intro O. apply N. eapply oc_count; eauto.
  - apply ci_req; auto.
    + intros _. destruct (e_in_gpa i) eqn:E; auto. destruct N. constructor. auto.
    + apply IHclaimed_in. intro O. apply N. apply oc_req. auto.
  - eapply ci_cond; eauto. apply IHclaimed_in. intro O. apply N. eapply oc_cond; eauto.
  - constructor; auto.
Qed.
Print Assumptions unmarked_claims_count.
Example claims_example :
  map (fun cl => c_clbid (cl_course cl)) (claims_of sample) = ["A"; "B"] /\
  map (fun cl => c_clbid (cl_course cl)) (gpa_claims_of sample) = ["A"] /\
  claims_of (got "A" true) = [].
Proof. repeat split. Qed.

(** ** C60 *)
(** Everything about a conditional is that of the branch its condition selects; without
    one, it is done, with full rank and nothing claimed. *)
Theorem conditional_follows_its_branch :
  forall k i t f,
  (forall x, in_force i t f x ->
     status_of (NCond k i t f) = status_of x /\ rank_of (NCond k i t f) = rank_of x /\
     claims_of (NCond k i t f) = claims_of x /\ gpa_claims_of (NCond k i t f) = gpa_claims_of x /\
     (forall cx, potential cx (NCond k i t f) = potential cx x /\ matches_of cx (NCond k i t f) = matches_of cx x /\
                 required_of cx (NCond k i t f) = required_of cx x)) /\
  ((forall x, ~ in_force i t f x) ->
     status_of (NCond k i t f) = Done /\ rank_of (NCond k i t f) = Ok (1, 1) /\
     claims_of (NCond k i t f) = [] /\ gpa_claims_of (NCond k i t f) = [] /\
     (forall cx, potential cx (NCond k i t f) = Ok false /\ matches_of cx (NCond k i t f) = Ok [] /\
                 required_of cx (NCond k i t f) = Ok [])).
Proof.
  intros k i t f. split.
  - intros x F. destruct F as [E|x E ->]; cbn [status_of rank_of claims_of gpa_claims_of potential matches_of required_of]; rewrite E; repeat split.
  - intro N. cbn [status_of rank_of claims_of gpa_claims_of potential matches_of required_of].
    destruct (e_result (d_cond i)) as [[|]|] eqn:E; [destruct (N t); constructor; auto| |repeat split].
    destruct f as [x|]; [destruct (N x); constructor 2; auto|repeat split].
Qed.
Print Assumptions conditional_follows_its_branch.
(** A condition made of known functions always has a value when it is loaded, so at most the
    missing "else" makes a conditional empty. *)
Example conditional_example :
  in_force (mkCond ["$"; ".cond"] false (EFun FHasCourse "A 1" (Some false))) (got "A" false) (Some (missing "B")) (missing "B") /\
  status_of (whether false (got "A" false) (Some (missing "B"))) = Empty /\ status_of (whether true (got "A" false) None) = Done /\
  (forall x, ~ in_force (mkCond ["$"; ".cond"] false (EFun FHasCourse "A 1" (Some false))) (got "A" false) None x).
Proof. split; [constructor 2; reflexivity|]. split; [reflexivity|]. split; [reflexivity|]. intros x H. destruct H; discriminate. Qed.

(** ** C78: the displayed status of the audit clauses of a count *)

Lemma status_eqb_iff a b : status_eqb a b = true <-> a = b.
Proof. destruct a, b; split; intro H; try reflexivity; discriminate. Qed.
(** If the clauses all have the same status, that one; otherwise the verdict on them as a
    conjunction, where clauses on which nothing has happened yet give Empty. *)
Definition unanimous (ss : list status) (s : status) : Prop := ss <> [] /\ forall x, In x ss -> x = s.
Definition audits_verdict (ss : list status) (s : status) : Prop :=
  match s with
  | FailedInvariant => In FailedInvariant ss
  | Waived => ss = []
  | Done => (forall x, In x ss -> complete x) /\ In Done ss
  | PendingCurrent => (forall x, In x ss -> complete x \/ x = PendingCurrent) /\ In PendingCurrent ss
  | PendingRegistered => (forall x, In x ss -> passing x) /\ In PendingRegistered ss
  | Empty => ss <> [] /\ forall x, In x ss -> untouched x
  | NeedsMoreItems => ~ In FailedInvariant ss /\ (exists x, In x ss /\ ~ passing x) /\ (exists x, In x ss /\ ~ untouched x)
  | PendingApproval => False
  end.
Theorem count_audit_status_exact :
  forall i, let ss := map any_status (n_audits i) in
  (n_overridden i = true -> count_audit_status i = Waived) /\
  (n_overridden i = false ->
     (forall s, unanimous ss s -> count_audit_status i = s) /\
     ((forall s, ~ unanimous ss s) -> audits_verdict ss (count_audit_status i))).
Proof.
  intros i ss. unfold count_audit_status. fold ss. split; intro O; rewrite O; auto. split.
  - intros s [NE U]. assert (IN := fun x => in_dedup status_eqb status_eqb_iff x ss). assert (ND := dedup_NoDup status_eqb status_eqb_iff ss).
    assert (D : dedup status_eqb ss = [s]).
    { destruct (dedup status_eqb ss) as [|a [|b l]].
      - destruct ss as [|x l]; [contradiction|]. destruct (proj2 (IN x) (or_introl eq_refl)).
      - f_equal. apply U. apply IN. simpl. auto.
      - assert (A : a = s) by (apply U, IN; simpl; auto). assert (B : b = s) by (apply U, IN; simpl; auto). subst. inversion ND as [|? ? NI]; subst. destruct NI. simpl. auto. }
    rewrite D. reflexivity.
  - intro NU.
    assert (D : match dedup status_eqb ss with [s] => unanimous ss s | _ => True end).
    { destruct (dedup status_eqb ss) as [|a [|b l]] eqn:D; auto. split.
      - intros E. rewrite E in D. discriminate.
      - intros x I. assert (IN := proj2 (in_dedup status_eqb status_eqb_iff x ss) I). rewrite D in IN. destruct IN as [<-|[]]. reflexivity. }
    assert (X : audits_verdict ss
      (if inS FailedInvariant ss then FailedInvariant else if subS ss WAIVED_ONLY then Waived
       else if subS ss WAIVED_AND_DONE then Done else if subS ss WAIVED_DONE_CURRENT then PendingCurrent
       else if subS ss WAIVED_DONE_CURRENT_PENDING then PendingRegistered else if subS ss EMPTY_AND_DEPARTMENTAL then Empty else NeedsMoreItems)).
    { destruct (inS FailedInvariant ss) eqn:FI; [apply inS_iff in FI; exact FI|apply inS_no in FI].
      destruct (subS ss WAIVED_ONLY) eqn:S1; [pose proof (proj1 (subS_iff _ _) S1) as QS1; clear S1; rename QS1 into S1|apply subS_no in S1; destruct S1 as [x1 [I1 N1]]].
      { cbn. destruct ss as [|x l]; auto. destruct (NU Waived). split; [discriminate|]. intros y I. destruct (S1 y I) as [E|[]]. auto. }
      destruct (subS ss WAIVED_AND_DONE) eqn:S2; [pose proof (proj1 (subS_iff _ _) S2) as QS2; clear S2; rename QS2 into S2|apply subS_no in S2; destruct S2 as [x2 [I2 N2]]].
      { cbn. split; [intros x I; destruct (S2 x I) as [E|[E|[]]]; [right|left]; auto|].
        destruct (S2 x1 I1) as [E|[E|[]]]; [destruct N1; simpl; auto|]. rewrite E. auto. }
      destruct (subS ss WAIVED_DONE_CURRENT) eqn:S3; [pose proof (proj1 (subS_iff _ _) S3) as QS3; clear S3; rename QS3 into S3|apply subS_no in S3; destruct S3 as [x3 [I3 N3]]].
      { cbn. split; [intros x I; destruct (S3 x I) as [E|[E|[E|[]]]]; unfold complete; auto|].
        destruct (S3 x2 I2) as [E|[E|[E|[]]]]; try (destruct N2; simpl; auto; fail). rewrite E. auto. }
      destruct (subS ss WAIVED_DONE_CURRENT_PENDING) eqn:S4; [pose proof (proj1 (subS_iff _ _) S4) as QS4; clear S4; rename QS4 into S4|apply subS_no in S4; destruct S4 as [x4 [I4 N4]]].
      { cbn. split; [intros x I; destruct (S4 x I) as [E|[E|[E|[E|[]]]]]; unfold passing, complete; auto|].
        destruct (S4 x3 I3) as [E|[E|[E|[E|[]]]]]; try (destruct N3; simpl; auto; fail). rewrite E. auto. }
      destruct (subS ss EMPTY_AND_DEPARTMENTAL) eqn:S5; [pose proof (proj1 (subS_iff _ _) S5) as QS5; clear S5; rename QS5 into S5|apply subS_no in S5; destruct S5 as [x5 [I5 N5]]].
      { cbn. split; [intro E; rewrite E in I1; destruct I1|]. intros x I. destruct (S5 x I) as [E|[E|[]]]; unfold untouched; auto. }
      cbn. split; auto. split.
      - exists x4. split; auto. intros [[E|E]|[E|E]]; apply N4; rewrite E; simpl; auto.
      - exists x5. split; auto. intros [E|E]; apply N5; rewrite E; simpl; auto. }
    destruct (dedup status_eqb ss) as [|a [|b l]]; [exact X|destruct (NU a D)|exact X].
Qed.
Print Assumptions count_audit_status_exact.
Example count_audit_status_example :
  count_audit_status (mkCount ["$"] false 1 false [failed_audit]) = FailedInvariant /\
  unanimous (map any_status [failed_audit]) FailedInvariant /\
  count_audit_status (mkCount ["$"] false 1 false []) = Waived.
Proof. split; [reflexivity|]. split; [|reflexivity]. split; [discriminate|]. intros x [<-|[]]. reflexivity. Qed.
