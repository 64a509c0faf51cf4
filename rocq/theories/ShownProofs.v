(** Lemmas about what is shown of audits that are the same. *)
From Coq Require Import List ZArith QArith Bool Ascii String Lia Permutation.
From Verif Require Import Transcript Prelude Dec Status Course Claims Exceptions Op Context CondExpr Paths Predicate Limit Assertion Query CourseRule LazyRun Tree Solve Driver Area StudentLoad Estimate Run.
From Verif Require Import ListFacts TreeSpec TreeSolSpec TreeSolProps FrameSpec FrameProofs FrameProps IdleProps ShownSpec.
Import ListNotations.
Local Open Scope string_scope.
Local Open Scope list_scope.

Lemma filter_res_in {A} (f : A -> res bool) l : forall l' x, filter_res f l = Ok l' -> In x l' -> In x l.
Proof.
  induction l as [|a l IH]; intros l' x F I; cbn [filter_res] in F; [injection F as <-; exact I|]. destruct (f a) as [b|]; cbn [bind] in F; [|discriminate F]. destruct (filter_res f l) as [r|]; cbn [bind] in F; [|discriminate F].
  injection F as <-. destruct b; [destruct I as [->|I]; [left; reflexivity|]|]; right; exact (IH r x eq_refl I).
Qed.
(** ** Estimates in two contexts *)
Section Estimates.
  Variables (ord : list course -> list course) (nord : list node -> list node) (cx cy : ctx) (P T : node -> Prop).
  Hypothesis NORD : forall l, Permutation (nord l) l.
  Hypothesis PART : forall n y, part_of n y -> P n -> P y.
  (** [T] is for what is at the top *)
  Hypothesis TC : forall k i items y, T (NCount k i items) -> In y items -> P y.
  Hypothesis TT : forall k i t f, T (NCond k i t f) -> T t.
  Hypothesis TF : forall k i t y, T (NCond k i t (Some y)) -> T y.
  Hypothesis TL : forall n, match n with NCount _ _ _ | NCond _ _ _ _ => False | _ => True end -> T n -> P n.
  Hypothesis WV : forall n p, P n \/ T n -> In p (places n) -> waived cy p = waived cx p.
  Hypothesis QE : forall k q, P (NQuery k q) -> q_estimate ord cy q = q_estimate ord cx q.
  Hypothesis PO : forall n, P n -> potential cy n = potential cx n.
  Hypothesis MA : forall n, P n -> matches_of cy n = matches_of cx n.
  Lemma likely_eq cs : (forall c, In c cs -> P (fst c)) -> likely_children cy cs = likely_children cx cs.
  Proof. intro H. unfold likely_children. rewrite (filter_res_eq (fun c => potential cy (fst c)) (fun c => potential cx (fst c))); [reflexivity|]. intros c I. apply PO, H, I. Qed.
  Lemma guesses_in (f : node -> res Z) items c : In c (map (fun c => (c, f c)) items) -> In (fst c) items.
  Proof. intro I. apply in_map_iff in I as [y [<- I]]. exact I. Qed.
  Lemma estimate_eq n : P n -> estimate ord cy n = estimate ord cx n.
  Proof.
    induction n as [k r|k q|k i items IH|k i o IH|k i t f IHt IHf|k i c] using node_induction; intro C; cbn [estimate]; try reflexivity.
    - apply (QE k), C.
    - assert (CI : forall y, In y items -> P y) by (intros y I; eapply PART; [eapply pt_count; [exact I|apply pt_self]|exact C]).
      rewrite (map_ext_in _ (fun c => (c, estimate ord cx c)) items) by (intros y I; rewrite (IH y I (CI y I)); reflexivity).
      unfold count_estimate. rewrite (WV _ (n_path i) (or_introl C) (in_eq _ _)). rewrite likely_eq; [reflexivity|]. intros c I. apply CI. exact (guesses_in _ _ _ I).
    - rewrite (WV _ (e_path i) (or_introl C) (in_eq _ _)). destruct o as [y|]; [|reflexivity]. rewrite (IH y eq_refl); [reflexivity|]. eapply PART; [apply pt_req, pt_self|exact C].
    - destruct (e_result (d_cond i)) as [[|]|]; [|destruct f as [y|]; [|reflexivity]|reflexivity].
      + apply IHt. eapply PART; [apply pt_true, pt_self|exact C].
      + apply (IHf y eq_refl). eapply PART; [apply pt_false, pt_self|exact C].
  Qed.
  Lemma top_estimate_eq n : T n -> top_estimate ord nord cy n = top_estimate ord nord cx n.
  Proof.
    induction n as [k r|k q|k i items IH|k i o IH|k i t f IHt IHf|k i c] using node_induction; intro C; cbn [top_estimate]; try (apply estimate_eq; apply TL; [exact Logic.I|exact C]).
    - assert (CI : forall y, In y items -> P y) by (intros y I; exact (TC k i items y C I)).
      unfold top_count_estimate. rewrite (WV _ (n_path i) (or_intror C) (in_eq _ _)). destruct (waived _ _); [reflexivity|].
      rewrite (map_ext_in _ (fun c => (c, estimate ord cx c)) items) by (intros y I; rewrite (estimate_eq y (CI y I)); reflexivity).
      rewrite likely_eq by (intros c I; apply CI; exact (guesses_in _ _ _ I)).
      destruct (likely_children _ _) as [pot|] eqn:L; cbn [bind]; [|reflexivity]. destruct pot as [|p0 pot']; [reflexivity|]. destruct (n_audits i); [|reflexivity].
      set (pot := p0 :: pot') in *.
      assert (LI : forall c, In c pot -> In (fst c) items).
      { intros c I. unfold likely_children in L. destruct (filter_res _ _) as [l|] eqn:F; cbn [bind] in L; [|discriminate L]. injection L as L. rewrite <- L in I. apply dedup_incl in I. apply (guesses_in (estimate ord cx)). eapply filter_res_in; eauto. }
      assert (PI : forall y, In y (nord (map fst pot)) -> In y items).
      { intros y I. apply (Permutation_in _ (NORD _)) in I. apply in_map_iff in I as [c [<- J]]. apply LI, J. }
      rewrite (mapr_eq (fun n => let! m := matches_of cy n in Ok (n, m)) (fun n => let! m := matches_of cx n in Ok (n, m))) by (intros y I; rewrite (MA y (CI y (PI y I))); reflexivity).
      reflexivity.
    - destruct (e_result (d_cond i)) as [[|]|]; [|destruct f as [y|]; [|reflexivity]|reflexivity].
      + apply IHt. exact (TT k i t _ C).
      + apply (IHf y eq_refl). exact (TF k i t y C).
  Qed.
End Estimates.

(** ** The driver *)
Definition same_out (a b : res (outcome area_result)) : Prop :=
  match a, b with
  | Ok o, Ok o' => same_result (o_result o) (o_result o') /\ o_rank o' = o_rank o /\ o_status o' = o_status o
  | Err x, Err y => y = x
  | _, _ => False
  end.
Definition same_best (a b : option (area_result * Q * Z)) : Prop :=
  match a, b with
  | Some (v, q, j), Some (v', q', j') => same_result v v' /\ q' = q /\ j' = j
  | None, None => True
  | _, _ => False
  end.
Lemma same_also l l' a b : Forall2 same_event l l' -> same_trace a b -> same_trace (also l a) (also l' b).
Proof. intros F [G E]. split; [apply Forall2_app; assumption|exact E]. Qed.
Lemma finish_same args n a b b' p : same_best b b' -> same_trace (finish args (mkState n a b p)) (finish args (mkState n a b' p)).
Proof.
  unfold finish. cbn [st_best st_printed st_audits st_total]. destruct b as [[[v q] j]|], b' as [[[v' q'] j']|]; cbn [same_best]; try (intros []; fail).
  - intros [S [-> ->]]. destruct (ar_print_all args || p); [split; [constructor|reflexivity]|]. split; [constructor; [apply se_result; exact S|constructor]|reflexivity].
  - intros _. split; [constructor; [apply se_none|constructor]|reflexivity].
Qed.
Lemma drive_same args e l l' : Forall2 same_out l l' -> forall n a b b' p, same_best b b' -> same_trace (drive args (mkState n a b p) l e) (drive args (mkState n a b' p) l' e).
Proof.
  induction 1 as [|o o' l l' SO F IH]; intros n a b b' p SB; cbn [drive].
  - destruct e; [split; [constructor|reflexivity]|apply finish_same, SB].
  - cbn [st_total st_audits st_best st_printed]. set (i := (n + 1)%Z). set (m := (a + 1)%Z).
    destruct (match ar_print_only args with [] => false | _ => negb (in_only args i) end); [apply IH, SB|].
    destruct (zmod i (ar_audit_each args)) as [[|z|z]|]; try (apply IH, SB); [|split; [constructor|reflexivity]].
    destruct o as [o|x], o' as [o'|x']; cbn [same_out] in SO; try (destruct SO; fail).
    2:{ subst x'. split; [constructor; [apply se_audit|constructor]|reflexivity]. }
    destruct SO as [SR [RK SS]]. rewrite SS, RK. destruct (inS (o_status o) WAIVED_AND_DONE).
    + apply same_also; [constructor; [apply se_audit|constructor]|]. apply finish_same. split; [exact SR|split; reflexivity].
    + assert (SB' : same_best (Some (better b o i)) (Some (better b' o' i))).
      { unfold better. rewrite RK. destruct b as [[[v q] j]|], b' as [[[v' q'] j']|]; cbn [same_best] in SB; try (destruct SB; fail); [|split; [exact SR|split; reflexivity]]. destruct SB as [SV [-> ->]].
        destruct (Qle_bool _ _); [split; [exact SV|split; reflexivity]|split; [exact SR|split; reflexivity]]. }
      destruct (better b o i) as [[v q] j], (better b' o' i) as [[v' q'] j']. destruct SB' as [SV [-> ->]].
      destruct (zmod m (ar_progress_every args)) as [k|x]; [|split; [constructor; [apply se_audit|constructor]|reflexivity]].
      apply same_also.
      * constructor; [apply se_audit|]. apply Forall2_app; [destruct (k =? 0)%Z; [constructor; [apply se_progress|constructor]|constructor]|]. destruct (ar_print_all args || in_only args i); [constructor; [apply se_result; exact SR|constructor]|constructor].
      * destruct (match ar_stop_after args with Some k0 => (k0 <=? m)%Z | None => false end); [apply finish_same|apply IH]; (split; [exact SV|split; reflexivity]).
Qed.
Lemma audited_area ord u z v t : area_audit ord u z = Ok (v, t) -> v_area v = u.
Proof.
  unfold area_audit. destruct (audit _ _ _ _) as [[r t']|]; cbn [bind]; [|discriminate]. destruct (u_kind u =? "major"); [|intro H; injection H as <- _; reflexivity].
  destruct (audit_common _ _ _ _); cbn [bind]; [|discriminate]. destruct r; try discriminate. intro H; injection H as <- _; reflexivity.
Qed.
Lemma shown_alike ord nord args u st st' es es' :
  g_exn (area_solutions ord nord u st' es') = g_exn (area_solutions ord nord u st es) ->
  Forall2 (fun z z' => z_sol z' = z_sol z /\ z_claims z' = z_claims z /\ same_audit (area_audit ord u z) (area_audit ord u z')) (g_items (area_solutions ord nord u st es)) (g_items (area_solutions ord nord u st' es')) ->
  area_estimate ord nord u st' es' = area_estimate ord nord u st es ->
  same_trace (audit_area ord nord args u st es) (audit_area ord nord args u st' es').
Proof.
  intros E F ES. unfold audit_area. rewrite E, ES. unfold audit_driver. destruct (area_estimate ord nord u st es) as [n|x]; [|split; [constructor|reflexivity]].
  apply same_also; [constructor; [apply se_estimate|constructor]|]. destruct (ar_estimate_only args); [split; [constructor|reflexivity]|]. apply drive_same; [|exact Logic.I]. clear E ES.
  induction F as [|z z' l l' [_ [_ A]] F IH]; cbn [map]; constructor; [|exact IH]. unfold outcome_of, same_audit in *.
  destruct (area_audit ord u z) as [[v t]|] eqn:V, (area_audit ord u z') as [[w t']|] eqn:W; try (destruct A; fail); cbn [bind]; [|cbn; congruence].
  destruct A as (A1 & A2 & A3 & A4). unfold area_rank, area_status. rewrite A2. destruct (rank_of _) as [[q q']|]; cbn [bind same_out]; [|reflexivity]. cbn [o_result o_rank o_status]. split; [|split; reflexivity].
  split; [exact A1|]. split; [exact A2|]. first [exact A3|exact A4].
Qed.
Lemma shown_same ord nord args u st st' es : same_outcome ord nord u st st' es -> area_estimate ord nord u st' es = area_estimate ord nord u st es ->
  same_trace (audit_area ord nord args u st es) (audit_area ord nord args u st' es).
Proof. intros [E F] ES. exact (shown_alike ord nord args u st st' es es E F ES). Qed.
