(** Property theorems about what is shown of audits with exceptions that change nothing (C189). *)
From Coq Require Import List ZArith QArith Bool Ascii String Lia Permutation.
From Verif Require Import Transcript Prelude Dec Status Course Claims Exceptions Op Context CondExpr Paths Predicate Limit LimitLoad Apply Assertion Query CourseRule EnumSpec LazyRun Tree Solve Driver Area StudentLoad Estimate Run Loader AreaLoad.
From Verif Require Import ListFacts LoaderSpec LoaderProps TreeSpec TreeSolSpec TreeSolProps AreaLoadSpec AreaLoadProps CommonProps MonoProps MonoExcProps AreaEndProps FrameSpec FrameProofs FrameProps GoneSpec GoneProofs GoneProps ReorderProps ShownSpec ShownProofs.
Import ListNotations.
Local Open Scope string_scope.
Local Open Scope list_scope.

(** ** Estimates *)
Lemma estimate_same ord nord u st es es' : (forall l, Permutation (nord l) l) -> (forall k, In k (forced_clbids es) <-> In k (forced_clbids es')) ->
  (forall p, names_part (u_result u) p -> exc_at (group_exceptions es) p = exc_at (group_exceptions es') p) ->
  (forall p, asked_beneath (u_result u) p -> has_exception_beneath (group_exceptions es) p = has_exception_beneath (group_exceptions es') p) ->
  area_estimate ord nord u st es' = area_estimate ord nord u st es.
Proof.
  intros NORD FM TA TB. unfold area_estimate. rewrite (transcripts_same ord u st es es' FM).
  rewrite (mapr_eq (fun lt => top_estimate ord nord (limited_ctx u st es' lt) (u_result u)) (fun lt => top_estimate ord nord (limited_ctx u st es lt) (u_result u))); [reflexivity|].
  intros lt _. rewrite (ctx_same u st es es' FM lt). set (cx := limited_ctx u st es lt). set (d := group_exceptions es) in *. set (d' := group_exceptions es') in *.
  change cx with (swap d cx) at 2. pose (S1 := fun p => exc_at d p = exc_at d' p). pose (S2 := fun p => has_exception_beneath d p = has_exception_beneath d' p).
  assert (AT : forall p, S1 p -> exc_at d p = exc_at d' p) by (intros p H; exact H). assert (BE : forall p, S2 p -> has_exception_beneath d p = has_exception_beneath d' p) by (intros p H; exact H).
  apply (top_estimate_eq ord nord (swap d cx) (swap d' cx) (pcov S1 S2) (tcov S1 S2) NORD (pcov_part S1 S2)).
  - intros k i items y [T1 T2] J p [z [Z K]]. split; [apply T1; exists z; split; [eapply pt_count; eauto|exact K]|apply T2; eapply ab_count; [exact J|exists z; auto]].
  - intros k i t f [T1 T2]. split; [intros p [y [Y J]]; apply T1; exists y; split; [apply pt_true, Y|exact J]|intros p A; apply T2, ab_true, A].
  - intros k i t y [T1 T2]. split; [intros p [z [Z J]]; apply T1; exists z; split; [apply pt_false, Z|exact J]|intros p A; apply T2, ab_false, A].
  - intros n N [T1 T2] p J. split; [apply T1, J|apply T2, ab_other; assumption].
  - intros n p H J. symmetry. apply (waived_eq d d' S1 AT). destruct H as [H|[H _]]; [apply (H p); exists n|apply H; exists n]; (split; [apply pt_self|exact J]).
  - intros k q C. unfold q_estimate. assert (Q0 : S1 (q_path q)) by (apply (C (q_path q)); exists (NQuery k q); split; [apply pt_self|apply in_eq]).
    rewrite (q_filtered_eq d d' S1 AT cx q Q0). cbn [swap cx_exc]. rewrite (waive_eq d d' S1 AT (q_path q) Q0). reflexivity.
  - intros n C. symmetry. exact (potential_eq d d' S1 S2 BE cx n C).
  - intros n C. symmetry. exact (matches_eq d d' S1 S2 AT cx n C).
  - split; [exact TA|exact TB].
Qed.

(** ** C189 *)

(** With any arguments all that is shown of the audit is the same with an exception that names no
    part of the area, and that no part which is asked lies above, *)
Theorem exceptions_apart_show_nothing :
  forall ord nord args u st a x b, (forall l, Permutation (nord l) l) -> decided_area u -> apart_from u x -> not_forced x ->
  same_trace (audit_area ord nord args u st (a ++ b)) (audit_area ord nord args u st (a ++ x :: b)).
Proof.
  intros ord nord args u st a x b NORD DA AP NF. destruct (exceptions_apart_change_nothing ord nord u st a x b NORD DA AP NF) as [E F].
  apply shown_alike; [exact E|exact F|]. destruct AP as [NN [AB _]]. apply estimate_same; [exact NORD| | |].
  - intro k. unfold forced_clbids. rewrite !flat_map_app. cbn [flat_map]. unfold not_forced in NF. destruct (ex_act x) as [j [|]| | | | |]; try reflexivity. destruct (NF j eq_refl).
  - intros p N. apply at_more. intro P. apply NN. left. rewrite <- P. exact N.
  - intros p N. apply beneath_more, AB, N.
Qed.
Print Assumptions exceptions_apart_show_nothing.
(** with an exception for a requirement that the area does not have, *)
Theorem exceptions_for_gone_requirements_show_nothing :
  forall c tm st a x b all_emphases s ord nord args u, for_gone_requirement s x -> not_forced x -> (forall l, Permutation (nord l) l) ->
  load_area c tm st (a ++ b) all_emphases s = Ok u ->
  load_area c tm st (a ++ x :: b) all_emphases s = Ok u /\
  same_trace (audit_area ord nord args u st (a ++ b)) (audit_area ord nord args u st (a ++ x :: b)).
Proof.
  intros c tm st a x b all s ord nord args u GR NF NO L. split; [rewrite exceptions_for_gone_requirements_leave_the_rules_alone by exact GR; exact L|].
  destruct (gone_is_apart _ _ _ _ _ _ _ _ L GR) as [D A]. apply exceptions_apart_show_nothing; assumption.
Qed.
Print Assumptions exceptions_for_gone_requirements_show_nothing.
(** and with the same exceptions in another order. *)
Theorem order_of_exceptions_shows_nothing :
  forall c tm st es es' all_emphases s ord nord args u, reordered es es' -> (forall l, Permutation (nord l) l) ->
  load_area c tm st es all_emphases s = Ok u ->
  load_area c tm st es' all_emphases s = Ok u /\ same_trace (audit_area ord nord args u st es) (audit_area ord nord args u st es').
Proof.
  intros c tm st es es' all s ord nord args u R NO L. destruct (order_of_exceptions_changes_nothing c tm st es es' all s ord nord u R NO L) as [L' [E F]]. split; [exact L'|].
  apply shown_alike; [exact E|exact F|]. apply estimate_same; [exact NO|intro k; apply reordered_forced, R|intros p _; apply reordered_at, R|intros p _; apply reordered_beneath, R].
Qed.
Print Assumptions order_of_exceptions_shows_nothing.

(** ** Samples *)

(** the hypotheses are met by [gone_requirement_example] and [either_order_example]; what is shown *)
Definition said_with (es : list exc) : option (list (option (Z * status)) * option err) :=
  match load_area sample_const [] both_taken es false two_rules with
  | Ok u => let t := audit_area TreeSolProps.same_order (fun l => l) default_args u both_taken es in
            Some (map (fun e => match e with EAudit _ => None | ESay (MEstimate n) => Some (n, Empty) | ESay (MResult v _ n _) => Some (n, area_status v) | ESay _ => None end) (fst t), snd t)
  | Err _ => None
  end.
Example said_example :
  said_with [waive_at "Seminar"] = said_with [] /\ said_with [waive_at "Core"; waive_at "Other"] = said_with [waive_at "Other"; waive_at "Core"] /\ said_with [waive_at "Core"] <> said_with [].
Proof. vm_compute. split; [reflexivity|]. split; [reflexivity|discriminate]. Qed.
