(** Property theorems about what is shown of audits that are the same (C188). *)
From Coq Require Import List ZArith QArith Bool Ascii String Lia Permutation.
From Verif Require Import Transcript Prelude Dec Status Course Claims Exceptions Op Context CondExpr Paths Predicate Limit LimitLoad Apply Assertion Query CourseRule EnumSpec LazyRun Tree Solve Driver Area StudentLoad Estimate Run Loader AreaLoad.
From Verif Require Import ListFacts LoaderSpec LoaderProps TreeSpec TreeSolSpec TreeSolProps AreaLoadSpec AreaLoadProps CommonProps MonoProps MonoExcProps AreaEndProps FrameSpec FrameProofs FrameProps GoneProofs GoneProps IdleSpec IdleProofs IdleProps IdleLoadSpec IdleLoadProps OtherSpec OtherProofs OtherProps ShownSpec ShownProofs.
Import ListNotations.
Local Open Scope string_scope.
Local Open Scope list_scope.

(** ** C188 *)

(** The number of solutions that is announced does not change with a class that nothing in the
    area can use, *)
Theorem idle_classes_keep_the_estimate :
  forall ord nord u st es x, (forall l, Permutation (ord l) l) -> (forall l, Permutation (nord l) l) ->
  idle u x -> not_excepted x es -> area_estimate ord nord u (without_class x st) es = area_estimate ord nord u st es.
Proof.
  intros ord nord u st es x ORD NORD ID NE. unfold area_estimate. rewrite (transcripts_drop ord u st es x ORD ID NE). cbn [gmap g_items g_exn].
  assert (M : forall l, mapr (fun lt => top_estimate ord nord (limited_ctx u (without_class x st) es lt) (u_result u)) (map (drop x) l) = mapr (fun lt => top_estimate ord nord (limited_ctx u st es lt) (u_result u)) l).
  { induction l as [|lt l IH]; [reflexivity|]. cbn [map mapr]. rewrite IH. rewrite (ctx_drop u st es x NE lt). assert (UN := ctx_unnamed es x NE (limited_ctx u st es lt) eq_refl).
    rewrite (top_estimate_eq ord nord (limited_ctx u st es lt) (without x (limited_ctx u st es lt)) (all_ignore x) (all_ignore x) NORD (IdleProofs.cov_part x)); [reflexivity| | | |intros n _ C; exact C|intros n p _ _; reflexivity| | | |exact (proj1 ID)].
    1:{ intros k i items y C I. exact (IdleProofs.cov_part x _ y (pt_count _ _ _ _ _ I (pt_self y)) C). }
    1:{ intros k i t f C. exact (IdleProofs.cov_part x _ t (pt_true _ _ _ _ _ (pt_self t)) C). }
    1:{ intros k i t y C. exact (IdleProofs.cov_part x _ y (pt_false _ _ _ _ _ (pt_self y)) C). }
    - intros k q C. unfold q_estimate. rewrite (IdleProofs.q_filtered_eq x _ UN q (C _ (pt_self _))). reflexivity.
    - intros n C. exact (IdleProofs.potential_eq x _ n C).
    - intros n C. exact (IdleProofs.matches_eq x _ UN n C).
  }
  rewrite M. reflexivity.
Qed.
Print Assumptions idle_classes_keep_the_estimate.
(** and not with records that its rules do not look at. *)
Theorem other_records_keep_the_estimate :
  forall ord nord u st st' es, (forall l, Permutation (nord l) l) -> same_classes st st' -> area_looks_alike u st st' ->
  area_estimate ord nord u st' es = area_estimate ord nord u st es.
Proof.
  intros ord nord u st st' es NORD SC AL. unfold area_estimate. rewrite (transcripts_other ord u st st' es SC).
  rewrite (mapr_eq (fun lt => top_estimate ord nord (limited_ctx u st' es lt) (u_result u)) (fun lt => top_estimate ord nord (limited_ctx u st es lt) (u_result u))); [reflexivity|].
  intros lt _. rewrite (ctx_other u st st' es SC lt). assert (HR := ctx_has u st es lt).
  apply (top_estimate_eq ord nord (limited_ctx u st es lt) (with_records st' (limited_ctx u st es lt)) (all_look_alike st st') (all_look_alike st st') NORD (OtherProofs.cov_part st st')); [| | |intros n _ C; exact C|intros n p _ _; reflexivity| | | |exact (proj1 AL)].
  1:{ intros k i items y C I. exact (OtherProofs.cov_part st st' _ y (pt_count _ _ _ _ _ I (pt_self y)) C). }
  1:{ intros k i t f C. exact (OtherProofs.cov_part st st' _ t (pt_true _ _ _ _ _ (pt_self t)) C). }
  1:{ intros k i t y C. exact (OtherProofs.cov_part st st' _ y (pt_false _ _ _ _ _ (pt_self y)) C). }
  - intros k q C. unfold q_estimate. rewrite (OtherProofs.q_filtered_eq st st' _ HR k q (C _ (pt_self _))). reflexivity.
  - intros n C. exact (OtherProofs.potential_eq st st' _ HR n C).
  - intros n C. exact (OtherProofs.matches_eq st st' _ HR n C).
Qed.
Print Assumptions other_records_keep_the_estimate.

(** So with any arguments all that is shown of the audit, the estimate, the progress, the results and
    the exception at the end, is the same for the student who has not taken the class, *)
Theorem idle_classes_show_nothing :
  forall c tm ord nord args st es x all_emphases s u, (forall l, Permutation (ord l) l) -> (forall l, Permutation (nord l) l) ->
  load_area c tm st es all_emphases s = Ok u -> u_kind u <> "degree" -> asks_about_others x s -> idle u x -> not_excepted x es ->
  load_area c tm (without_class x st) es all_emphases s = Ok u /\
  same_trace (audit_area ord nord args u st es) (audit_area ord nord args u (without_class x st) es).
Proof.
  intros c tm ord nord args st es x all s u ORD NORD L KD AO ID NE.
  destruct (idle_classes_are_as_good_as_not_taken c tm ord nord st es x all s u ORD NORD L KD AO ID NE) as [L' SO]. split; [exact L'|].
  exact (shown_same ord nord args u st (without_class x st) es SO (idle_classes_keep_the_estimate ord nord u st es x ORD NORD ID NE)).
Qed.
Print Assumptions idle_classes_show_nothing.
(** and for the student with other records. *)
Theorem other_records_show_nothing :
  forall c tm ord nord args st st' es all_emphases s u, (forall l, Permutation (nord l) l) -> load_area c tm st es all_emphases s = Ok u ->
  same_classes st st' -> OtherSpec.answers_alike s st st' -> declared_alike s st st' -> area_looks_alike u st st' ->
  load_area c tm st' es all_emphases s = Ok u /\ same_trace (audit_area ord nord args u st es) (audit_area ord nord args u st' es).
Proof.
  intros c tm ord nord args st st' es all s u NORD L SC AA DA AL.
  destruct (other_records_are_as_good_as_the_same c tm ord nord st st' es all s u NORD L SC AA DA AL) as [L' SO]. split; [exact L'|].
  exact (shown_same ord nord args u st st' es SO (other_records_keep_the_estimate ord nord u st st' es NORD SC AL)).
Qed.
Print Assumptions other_records_show_nothing.

(** ** Samples *)

(** the hypotheses are met by [unasked_class_example] and [second_area_example]; what is shown there *)
Definition said (o : option err) (l : list (event area_result)) : list (option Z) * option err :=
  (map (fun e => match e with EAudit _ => None | ESay (MEstimate n) => Some n | ESay _ => Some (-1)%Z end) l, o).
Definition shown_for (s : aspec) (st : student) : option (list (option Z) * option err) :=
  match load_area sample_const [] st [] false s with
  | Ok u => let t := audit_area TreeSolProps.same_order (fun l => l) default_args u st [] in Some (said (snd t) (fst t))
  | Err _ => None
  end.
Example shown_example :
  shown_for (choosing (XFun FHasCourse "B 1")) both_taken = Some ([Some 1%Z; None; Some (-1)%Z], None) /\
  shown_for (choosing (XFun FHasCourse "B 1")) (without_class unused both_taken) = Some ([Some 1%Z; None; Some (-1)%Z], None) /\
  shown_for (choosing (XFun FHasDeclaredAreaCode "200")) (declaring both_taken) = Some ([Some 1%Z; None; Some (-1)%Z], None).
Proof. vm_compute. repeat split; reflexivity. Qed.
