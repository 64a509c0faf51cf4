(** Property theorems about exceptions (C45, C46). *)
From Coq Require Import List ZArith Bool String Permutation.
From Verif Require Import Prelude Dec Status Exceptions ExceptionsProofs.
Import ListNotations.
Local Open Scope string_scope.
Local Open Scope list_scope.

(** the exceptions of [l] recorded for exactly path [p], in the given order *)
Definition recorded_at (l : list exc) (p : path) : list exc := filter (fun e => path_eqb (ex_path e) p) l.

(** C45. Lookups after grouping a list of exceptions find exactly the ones at the queried
    path, in order; the single-valued lookups return the first of their sort. *)
Theorem exception_lookups_exact :
  forall l p, let d := group_exceptions l in
    get_inserts d p = filter is_insert (recorded_at l p) /\
    get_blocks d p = filter is_block (recorded_at l p) /\
    get_value d p = hd_error (filter is_value (recorded_at l p)) /\
    get_waive d p = hd_error (filter is_override (recorded_at l p)) /\
    (forall key, has_waive_for_expression d key = true <->
       exists e, hd_error (filter is_override (recorded_at l [key])) = Some e /\ ex_act e = AOverride Done) /\
    Permutation (get_inserts_beneath d p)
      (filter (fun e => prefix_eqb p (ex_path e) && is_insert e) l).
Proof.
  intros l p d. destruct (groups_ok l) as (N & A & B & P). fold d in A.
  unfold get_inserts, get_blocks, get_value, get_waive, has_waive_for_expression.
  rewrite !find_filter, !A. unfold recorded_at. repeat split; try reflexivity.
  - rewrite find_filter, A. destruct (hd_error _) as [e|]; [|discriminate].
    destruct (ex_act e) eqn:E; try discriminate. destruct s; try discriminate. eauto.
  - intros (e & H & E). rewrite find_filter, A, H, E. reflexivity.
  - apply inserts_beneath_perm.
Qed.
Print Assumptions exception_lookups_exact.

(** ... and the cached "is there an exception at or beneath this path" test answers that
    question, whatever was asked before. *)
Theorem exception_beneath_exact :
  forall l earlier p,
    let d := group_exceptions l in
    fst (has_exception_beneath_cached d (beneath_queries d [] earlier) p) = true <->
    exists e rest, In e l /\ ex_path e = p ++ rest.
Proof.
  intros l earlier p d. rewrite (proj1 (cached_step d _ p (queries_ok d earlier [] ltac:(intros ? ?; discriminate)))).
  apply beneath_iff.
Qed.
Print Assumptions exception_beneath_exact.

Example exceptions_example :
  let l := [mkExc ["$"; "%A"] (AInsert "1" false); mkExc ["$"] (ABlock "2"); mkExc ["$"; "%A"] (AValue (mkDec 3 0));
            mkExc ["$"; "%A"] (AInsert "4" true)] in
  let d := group_exceptions l in
  map exc_clbid (get_inserts d ["$"; "%A"]) = ["1"; "4"] /\
  has_exception_beneath d ["$"] = true /\ has_exception_beneath d ["$"; "%A"; ".count"] = false /\
  get_value d ["$"; "%A"] = Some (mkExc ["$"; "%A"] (AValue (mkDec 3 0))).
Proof. vm_compute. auto. Qed.

(** C46. One migration replaces exactly the from-path when it is a prefix, and otherwise
    changes nothing. *)
Inductive migrated (m : migration) : path -> path -> Prop :=
| mg_hit rest : migrated m (mig_from m ++ rest) (mig_to m ++ rest)
| mg_miss p : (forall rest, p <> mig_from m ++ rest) -> migrated m p p.

Inductive migrated_all : list migration -> path -> path -> Prop :=
| ma_nil p : migrated_all [] p p
| ma_cons m ms p q r : migrated m p q -> migrated_all ms q r -> migrated_all (m :: ms) p r.

Lemma migrate1_spec m p : migrated m p (migrate1 p m).
Proof.
  unfold migrate1. destruct (path_eqb (firstn (List.length (mig_from m)) p) (mig_from m)) eqn:E.
  - apply path_eqb_iff in E. rewrite <- (firstn_skipn (List.length (mig_from m)) p) at 1. rewrite E. constructor.
  - apply mg_miss. intros rest ->.
    assert (H : prefix_eqb (mig_from m) (mig_from m ++ rest) = true) by (apply prefix_iff; eauto).
    unfold prefix_eqb in H. congruence.
Qed.

Lemma migrated_fun m p q : migrated m p q -> q = migrate1 p m.
Proof.
  destruct 1 as [rest|p N]; unfold migrate1.
  - rewrite firstn_app, Nat.sub_diag, firstn_all, app_nil_r, path_eqb_refl.
    rewrite skipn_app, Nat.sub_diag, skipn_all. reflexivity.
  - destruct (path_eqb _ _) eqn:E; [|reflexivity]. exfalso. apply path_eqb_iff in E.
    apply (N (skipn (List.length (mig_from m)) p)). rewrite <- E at 1. symmetry. apply firstn_skipn.
Qed.

Theorem migrations_rewrite_prefix :
  forall ms r e, load_exception ms r = Ok e ->
    migrated_all ms (rx_path r) (ex_path e) /\
    (forall p, migrated_all ms (rx_path r) p -> p = ex_path e).
Proof.
  intros ms r e H.
  assert (E : ex_path e = fold_left migrate1 ms (rx_path r)).
  { unfold load_exception in H. destruct (rx_type r) as [ty|]; [|discriminate].
    destruct ty; simpl in H; try (injection H as <-; reflexivity);
      destruct (rx_clbid r); simpl in H; try discriminate; try (injection H as <-; reflexivity);
      try (destruct (rx_value r); simpl in H; try discriminate; injection H as <-; reflexivity);
      try (destruct (rx_credits r); simpl in H; try discriminate; injection H as <-; reflexivity);
      destruct (rx_subject r); simpl in H; try discriminate; injection H as <-; reflexivity. }
  rewrite E. clear H E. generalize (rx_path r). induction ms as [|m ms IH]; intro p; simpl.
  - split; [constructor|]. intros q H. inversion H; reflexivity.
  - destruct (IH (migrate1 p m)) as [H1 H2]. split; [econstructor; [apply migrate1_spec|exact H1]|].
    intros q H. inversion H; subst. apply H2.
    match goal with M : migrated m p ?x |- _ => rewrite <- (migrated_fun m p x M) end. assumption.
Qed.
Print Assumptions migrations_rewrite_prefix.

(** The loaded exception carries the action and the data of the raw one; [force-insert]
    differs from [insert] by the flag only, and an override always means done. *)
Theorem loaded_action_is_the_requested_one :
  forall ms r e, load_exception ms r = Ok e ->
    match rx_type r, ex_act e with
    | Some XInsert, AInsert c f => rx_clbid r = Some c /\ f = false
    | Some XForceInsert, AInsert c f => rx_clbid r = Some c /\ f = true
    | Some XOverride, AOverride s => s = Done
    | Some XValue, AValue v => rx_value r = Some v
    | Some XBlock, ABlock c => rx_clbid r = Some c
    | Some XCourseCredits, ACredits c v => rx_clbid r = Some c /\ rx_credits r = Some v
    | Some XCourseSubject, ASubject c s => rx_clbid r = Some c /\ rx_subject r = Some s
    | _, _ => False
    end.
Proof.
  intros ms r e H. unfold load_exception in H. destruct (rx_type r) as [[]|]; simpl in H; try discriminate;
    repeat match type of H with
    | context [field ?x] => destruct x eqn:?; simpl in H; try discriminate
    end; injection H as <-; simpl; auto.
Qed.
Print Assumptions loaded_action_is_the_requested_one.

Example migrations_example :
  fold_left migrate1 [mkMig ["$"; "%Old"] ["$"; "%New"; "*1"]; mkMig ["$"; "%New"] ["$"; "%Newer"]]
    ["$"; "%Old"; ".count"] = ["$"; "%Newer"; "*1"; ".count"].
Proof. vm_compute. reflexivity. Qed.
