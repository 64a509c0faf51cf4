(** Property theorems about students with the same classes and different other records (C187). *)
From Coq Require Import List ZArith QArith Bool Ascii String Lia Permutation.
From Verif Require Import Transcript Prelude Dec Status Course Claims Exceptions Op Context CondExpr Paths Predicate Limit LimitLoad Apply Assertion Query CourseRule EnumSpec LazyRun Tree Solve Driver Area StudentLoad Run Loader AreaLoad.
From Verif Require Import ListFacts ExceptionsProofs LoaderSpec LoaderProofs LoaderProps TreeSpec TreeSolSpec TreeSolProps AreaLoadSpec AreaLoadProofs AreaLoadProps CommonProps MonoProps MonoExcProps AreaEndProps FrameSpec FrameProofs FrameProps GoneProofs GoneProps IdleProps IdleLoadSpec IdleLoadProofs IdleLoadProps OtherSpec OtherProofs.
Import ListNotations.
Local Open Scope string_scope.
Local Open Scope list_scope.

(** ** Areas *)
Section Areas.
  Variables (ord : list course -> list course) (nord : list node -> list node) (u : study) (st st' : student) (es : list exc).
  Hypothesis NORD : forall l, Permutation (nord l) l.
  Hypothesis DR : decided (u_result u).
  Hypothesis DC : forall n, In n (u_common u) -> decided n.
  Hypothesis SC : same_classes st st'.
  Hypothesis AL : area_looks_alike u st st'.
  Lemma ctx_other lt : limited_ctx u st' es lt = with_records st' (limited_ctx u st es lt).
  Proof. destruct SC as [E1 E2]. unfold limited_ctx, with_records, with_transcript. cbn. rewrite E1, E2. reflexivity. Qed.
  Lemma ctx_has lt : has_records st (limited_ctx u st es lt).
  Proof. repeat split. Qed.
  Lemma transcripts_other : transcripts ord u st' es = transcripts ord u st es.
  Proof. unfold transcripts. rewrite (proj1 SC). reflexivity. Qed.
  Lemma top_other lt t : top_solutions ord nord (limited_ctx u st' es lt) t (u_result u) = top_solutions ord nord (limited_ctx u st es lt) t (u_result u).
  Proof. rewrite ctx_other. exact (top_eq ord nord st st' (limited_ctx u st es lt) (ctx_has lt) NORD (u_result u) t (proj1 AL) DR). Qed.
  Definition renamed (z : area_solution) : area_solution := mkAsol (with_records st' (z_ctx z)) (z_claims z) (z_sol z).
  Lemma solutions_from_other lts e0 : forall t, solutions_from ord nord u st' es t lts e0 = gmap renamed (solutions_from ord nord u st es t lts e0).
  Proof.
    induction lts as [|lt lts IH]; intro t; [reflexivity|]. cbn [solutions_from]. rewrite top_other. destruct (top_solutions _ _ _ _ _) as [[[|s ss] [y|]] t1].
    - reflexivity.
    - apply IH.
    - rewrite gapp_map, <- IH, ctx_other. unfold gmap at 1. cbn [g_items g_exn map]. rewrite map_map. reflexivity.
    - rewrite gapp_map, <- IH, ctx_other. unfold gmap at 1. cbn [g_items g_exn map]. rewrite map_map. reflexivity.
  Qed.
  Lemma area_solutions_other : area_solutions ord nord u st' es = gmap renamed (area_solutions ord nord u st es).
  Proof. unfold area_solutions. rewrite transcripts_other. apply solutions_from_other. Qed.
  Lemma solutions_from_fine lts e0 : forall t z, In z (g_items (solutions_from ord nord u st es t lts e0)) -> has_records st (z_ctx z) /\ kind_of (z_sol z) = KSol /\ livable st st' (z_sol z).
  Proof.
    assert (ONE : forall lt t s, In s (g_items (fst (top_solutions ord nord (limited_ctx u st es lt) t (u_result u)))) -> kind_of s = KSol /\ livable st st' s).
    { intros lt t s I. destruct (top_good _ _ _ _ _ _ I) as [K W]. split; [exact K|]. refine (livable_of st st' (u_result u) s DR (proj1 AL) W _). eapply top_quotes. exact I. }
    induction lts as [|lt lts IH]; intros t z I; [destruct I|]. cbn [solutions_from] in I.
    assert (G := ONE lt t). destruct (top_solutions _ _ _ _ _) as [[[|s ss] y] t1]; [destruct y; [destruct I|eapply IH; exact I]|].
    apply in_gapp in I as [I|I]; [|eapply IH; exact I]. cbn [g_items] in I. cbn [fst g_items] in G. destruct I as [<-|I].
    - split; [apply ctx_has|]. apply G. apply in_eq.
    - apply in_map_iff in I as [s' [<- I]]. split; [apply ctx_has|]. apply G. right. exact I.
  Qed.
  Lemma best_other cx n : has_records st cx -> In n (u_common u) -> best_or_fail ord (with_records st' cx) n = best_or_fail ord cx n.
  Proof. intros HR I. unfold best_or_fail. rewrite (find_best_eq ord st st' cx HR); [reflexivity|apply (proj2 AL), I|apply DC, I]. Qed.
  Lemma common_other cx r : has_records st cx -> audit_common ord u (with_records st' cx) r = audit_common ord u cx r.
  Proof.
    intros HR. assert (NTH : forall k n, nth_rule (u_common u) k = Ok n -> In n (u_common u)) by (intros k n E; unfold nth_rule in E; destruct (nth_error (u_common u) k) eqn:F; [injection E as <-; eapply nth_error_In; exact F|discriminate E]).
    unfold audit_common. destruct (nth_rule (u_common u) 0) as [r0|] eqn:E0; cbn [bind]; [|reflexivity].
    change (common_exceptions (with_records st' cx) (path_of r0)) with (common_exceptions cx (path_of r0)).
    destruct (common_exceptions cx (path_of r0)) as [forced|]; cbn [bind]; [|reflexivity].
    change (claimed_ctx ord (with_records st' cx) r forced) with (with_records st' (claimed_ctx ord cx r forced)). change (whole_ctx (with_records st' cx)) with (with_records st' (whole_ctx cx)).
    rewrite best_other; [|exact HR|eapply NTH; exact E0]. destruct (best_or_fail _ _ r0); cbn [bind]; [|reflexivity].
    destruct (nth_rule (u_common u) 1) as [r1|] eqn:E1; cbn [bind]; [|reflexivity]. rewrite best_other; [|exact HR|eapply NTH; exact E1]. destruct (best_or_fail _ _ r1); cbn [bind]; [|reflexivity].
    destruct (nth_rule (u_common u) 2) as [r2|] eqn:E2; cbn [bind]; [|reflexivity]. rewrite ?best_other; [reflexivity|exact HR|eapply NTH; exact E2].
  Qed.
  Lemma audit_other z : In z (g_items (area_solutions ord nord u st es)) ->
    area_audit ord u (renamed z) = let! (v, t) := area_audit ord u z in Ok (mkAres (v_area v) (with_records st' (v_ctx v)) (v_result v), t).
  Proof.
    intro I. unfold area_solutions in I. destruct (solutions_from_fine _ _ _ _ I) as [E [K W]]. destruct z as [cx t s]. cbn [z_ctx z_sol] in *. unfold renamed, area_audit. cbn [z_ctx z_claims z_sol].
    rewrite (audit_eq ord st st' cx E s t K W). destruct (audit ord cx t s) as [[r t']|]; cbn [bind]; [|reflexivity]. destruct (String.eqb_spec (u_kind u) "major") as [MJ|_]; [|reflexivity].
    rewrite (common_other cx r E). destruct (audit_common ord u cx r); cbn [bind]; [|reflexivity]. destruct r; reflexivity.
  Qed.
End Areas.

(** ** C187 *)

(** If the rules of an area look at nothing in which the two students differ, then the same is tried
    for both, and the results, the claims and the averages are the same. *)
Theorem other_records_do_not_matter :
  forall ord nord u st st' es, (forall l, Permutation (nord l) l) -> decided_area u ->
  same_classes st st' -> area_looks_alike u st st' -> same_outcome ord nord u st st' es.
Proof.
  intros ord nord u st st' es NORD [DR DC] SC AL. unfold same_outcome. rewrite (area_solutions_other ord nord u st st' es NORD DR SC AL). cbn [gmap g_exn g_items]. split; [reflexivity|].
  assert (AUD := audit_other ord nord u st st' es DR DC AL).
  revert AUD. induction (g_items (area_solutions ord nord u st es)) as [|z l IH]; intro AUD; cbn [map]; constructor; [|apply IH; intros y I; apply AUD; right; exact I].
  split; [reflexivity|]. split; [reflexivity|]. rewrite (AUD z (in_eq _ _)). unfold same_audit. destruct (area_audit ord u z) as [[v t]|] eqn:A; cbn [bind]; [|reflexivity]. split; [reflexivity|]. split; [reflexivity|]. split; reflexivity.
Qed.
Print Assumptions other_records_do_not_matter.

(** ** The rules *)
Section Rules.
  Variables (st st' : student).
  Hypothesis SC : same_classes st st'.
  Lemma load_other es : load_ctx st' es = mkCtx (cx_transcript (load_ctx st es)) (cx_excluded (load_ctx st es)) (cx_failed (load_ctx st es)) (cx_forced (load_ctx st es)) (cx_multi (load_ctx st es)) (cx_exc (load_ctx st es)) (t_areas st') [] [] (t_prof st').
  Proof. destruct SC as [E1 E2]. unfold load_ctx, with_transcript. cbn. rewrite E1, E2. reflexivity. Qed.
  Lemma exists_code areas code : existsb (fun a => String.eqb code (a_code a)) areas = true <-> exists p, In p areas /\ a_code p = code.
  Proof. rewrite existsb_exists. split; intros [p [I E]]; exists p; (split; [exact I|]); [symmetry; apply String.eqb_eq; exact E|rewrite E; apply String.eqb_refl]. Qed.
  Lemma bool_iff a b : (a = true <-> b = true) -> a = b.
  Proof. destruct a, b; intros [H1 H2]; try reflexivity; [symmetry; apply H1; reflexivity|apply H2; reflexivity]. Qed.
  Lemma answers_other s es f a : OtherSpec.answers_alike s st st' -> area_asks s f a -> eval_pfun (load_ctx st' es) f a = eval_pfun (load_ctx st es) f a.
  Proof.
    intros [D X] A. rewrite load_other. destruct f; try reflexivity; cbn [eval_pfun].
    - cbn [cx_prof]. rewrite (X (ex_intro _ a A)). reflexivity.
    - f_equal. unfold has_declared_area_code. apply bool_iff. rewrite !exists_code. apply iff_sym, D, A.
  Qed.
  Lemma required_other es n : required_of (load_ctx st' es) n = required_of (load_ctx st es) n.
  Proof.
    rewrite load_other. induction n as [k r|k q|k i items IH|k i o IH|k i t f IHt IHf|k i co] using node_induction; cbn [required_of]; try reflexivity.
    - rewrite (mapr_in (required_of _) (required_of (load_ctx st es)) items); [reflexivity|]. intros y J. apply (IH y J).
    - destruct o as [y|]; [|reflexivity]. apply (IH y eq_refl).
    - destruct (e_result _) as [[|]|]; [exact IHt| |reflexivity]. destruct f as [y|]; [|reflexivity]. apply (IHf y eq_refl).
  Qed.
  Lemma others_other code b : b <> code -> (declares st b <-> declares st' b) ->
    existsb (String.eqb b) (map a_code (filter (fun p => negb (a_code p =? code)) (t_areas st'))) = existsb (String.eqb b) (map a_code (filter (fun p => negb (a_code p =? code)) (t_areas st))).
  Proof.
    intros N D. assert (G : forall l, existsb (String.eqb b) (map a_code (filter (fun p => negb (a_code p =? code)) l)) = existsb (fun a => String.eqb b (a_code a)) l).
    { induction l as [|p l IH]; [reflexivity|]. cbn [filter existsb]. destruct (String.eqb_spec (a_code p) code) as [E|E]; cbn [negb map existsb]; rewrite IH; [|reflexivity]. rewrite E. destruct (String.eqb_spec b code) as [E'|_]; [destruct (N E')|reflexivity]. }
    rewrite !G. apply bool_iff. rewrite !exists_code. apply iff_sym, D.
  Qed.
  Lemma outside_other code dept : standing_alike code st st' ->
    outside_body dept code (map a_code (filter (fun p => negb (a_code p =? code)) (t_areas st'))) = outside_body dept code (map a_code (filter (fun p => negb (a_code p =? code)) (t_areas st))).
  Proof.
    intros [_ [A B]]. destruct dept as [d|]; [|reflexivity]. cbn [outside_body]. unfold outside_query. destruct (String.eqb_spec code "140") as [E|E].
    - rewrite (others_other code "135"); [|rewrite E; discriminate|apply A, E]. rewrite E. reflexivity.
    - destruct (String.eqb_spec code "135") as [F|F]; [|reflexivity]. rewrite (others_other code "140"); [reflexivity|rewrite F; discriminate|apply B, F].
  Qed.
  Lemma prepare_other cx c tm degree dept code : standing_alike code st st' -> prepare_common cx c tm degree dept (t_areas st') code = prepare_common cx c tm degree dept (t_areas st) code.
  Proof. intro A. unfold prepare_common. rewrite (outside_other code dept A). reflexivity. Qed.
  Lemma chosen_other s all : declared_alike s st st' -> chosen_emphases st' all (ar_emphases s) = chosen_emphases st all (ar_emphases s).
  Proof.
    intros [D _ _]. unfold chosen_emphases. apply filter_ext_in. intros e0 J. f_equal. apply bool_iff.
    assert (G : forall st0, existsb (String.eqb (em_key e0)) (map a_code (filter (fun a => match a_kind a with AkEmphasis => true | _ => false end) (t_areas st0))) = true <-> declared st0 e0).
    { intro st0. rewrite existsb_exists. split.
      - intros [k [J' E]]. apply in_map_iff in J' as [p [<- J']]. apply filter_In in J' as [J' K]. exists p. split; [exact J'|]. split; [destruct (a_kind p); try discriminate K; reflexivity|symmetry; apply String.eqb_eq; exact E].
      - intros [p [J' [K E]]]. exists (a_code p). split; [|rewrite E; apply String.eqb_refl]. apply in_map, filter_In. rewrite K. split; [exact J'|reflexivity]. }
    rewrite !G. apply iff_sym, D, J.
  Qed.
End Rules.

(** An area is loaded to the same rules for both students, if its questions about declared areas and
    examinations have the same answers for both, both have declared the same of its emphases, and
    the department and the standing in art are the same. *)
Theorem other_records_leave_the_rules_alone :
  forall c tm st st' es all_emphases s, same_classes st st' -> OtherSpec.answers_alike s st st' -> declared_alike s st st' ->
  load_area c tm st' es all_emphases s = load_area c tm st es all_emphases s.
Proof.
  intros c tm st st' es all s SC AA DA.
  assert (EV : forall es' f a, area_asks s f a -> eval_pfun (load_ctx st' es') f a = eval_pfun (load_ctx st es') f a) by (intros es' f a A; exact (answers_other st st' SC s es' f a AA A)).
  assert (FO : forall es' p e0, In e0 (get_inserts (cx_exc (load_ctx st' es')) p) -> forced_by_clbid (load_ctx st' es') (exc_clbid e0) = forced_by_clbid (load_ctx st es') (exc_clbid e0)) by (intros es' p e0 _; rewrite (load_other st st' SC es'); reflexivity).
  assert (EMP : mapr (check_emphasis c tm st') (ar_emphases s) = mapr (check_emphasis c tm st) (ar_emphases s)).
  { apply mapr_in. intros e0 I. unfold check_emphasis. assert (ST := dl_codes _ _ _ DA e0 I).
    rewrite (top_alike (area_asks s) (load_ctx st' []) (load_ctx st []) c tm (EV []) eq_refl (FO [])); [|intros y E n f a M B; apply (aa_emphasis s f a e0 n I); [eapply mi_result; eauto|exact B]| |intros ? []].
    2:{ intros k b J n f a M B. apply (aa_emphasis s f a e0 n I); [|exact B]. unfold reqs_of in J. destruct (rb_reqs (em_body e0)) as [l|] eqn:EL; [|destruct J]. eapply mi_req; eauto. }
    rewrite (limits_alike (area_asks s) (load_ctx st' []) (load_ctx st []) c (EV [])) by (intros f a A; eapply aa_emphasis_limit; eauto).
    rewrite (prepare_alike (area_asks s) (load_ctx st' []) (load_ctx st []) c tm (EV []) eq_refl (FO [])), (proj1 ST), (prepare_other st st' _ _ _ _ _ _ ST). reflexivity. }
  unfold load_area. rewrite EMP, (chosen_other st st' s all DA). assert (ST := dl_area _ _ _ DA).
  rewrite (top_alike (area_asks s) (load_ctx st' es) (load_ctx st es) c tm (EV es) eq_refl (FO es));
    [|intros y E n f a M B; eapply aa_result; eauto|intros k b J n f a M B; eapply aa_req; eauto|].
  2:{ intros e0 I n f a M B. apply (aa_emphasis s f a e0 n); [|exact M|exact B]. unfold chosen_emphases in I. apply filter_In in I. apply I. }
  rewrite (limits_alike (area_asks s) (load_ctx st' es) (load_ctx st es) c (EV es)) by (intros f a A; apply aa_limit, A).
  rewrite (prepare_alike (area_asks s) (load_ctx st' es) (load_ctx st es) c tm (EV es) eq_refl (FO es)), (proj1 ST), (prepare_other st st' _ _ _ _ _ _ ST).
  destruct (mapr (check_emphasis c tm st) (ar_emphases s)) as [us|]; cbn [bind]; [|reflexivity]. destruct (load_top _ c tm _ _ _) as [t|]; cbn [bind]; [|reflexivity]. rewrite (required_other st st' SC es t). reflexivity.
Qed.
Print Assumptions other_records_leave_the_rules_alone.

(** So the whole of the audit is the same. *)
Corollary other_records_are_as_good_as_the_same :
  forall c tm ord nord st st' es all_emphases s u, (forall l, Permutation (nord l) l) -> load_area c tm st es all_emphases s = Ok u ->
  same_classes st st' -> OtherSpec.answers_alike s st st' -> declared_alike s st st' -> area_looks_alike u st st' ->
  load_area c tm st' es all_emphases s = Ok u /\ same_outcome ord nord u st st' es.
Proof.
  intros c tm ord nord st st' es all s u NORD L SC AA DA AL. split; [rewrite (other_records_leave_the_rules_alone c tm st st' es all s SC AA DA); exact L|].
  exact (other_records_do_not_matter ord nord u st st' es NORD (loaded_areas_are_decided c tm st es all s u L) SC AL).
Qed.
Print Assumptions other_records_are_as_good_as_the_same.

(** ** Samples *)

(** the student of the samples with a second area declared *)
Definition second_area : area_ptr := mkArea "300" AsDeclared AkConcentration "Other" "B.A." None None None.
Definition declaring (st : student) : student := mkStudent (t_courses st) (t_failed st) (second_area :: t_areas st) (t_perf st) (t_slips st) (t_prof st).
Lemma declares_more st a : a <> "300" -> declares st a <-> declares (declaring st) a.
Proof. intro N. split; intros [p [J E]]; [exists p; split; [right; exact J|exact E]|]. destruct J as [<-|J]; [destruct (N (eq_sym E))|exists p; split; [exact J|exact E]]. Qed.
Example second_area_example :
  exists u, load_area sample_const [] both_taken [] false (choosing (XFun FHasDeclaredAreaCode "200")) = Ok u /\
  same_classes both_taken (declaring both_taken) /\ OtherSpec.answers_alike (choosing (XFun FHasDeclaredAreaCode "200")) both_taken (declaring both_taken) /\
  declared_alike (choosing (XFun FHasDeclaredAreaCode "200")) both_taken (declaring both_taken) /\ area_looks_alike u both_taken (declaring both_taken) /\ ~ declares both_taken "300".
Proof.
  destruct (load_area sample_const [] both_taken [] false (choosing (XFun FHasDeclaredAreaCode "200"))) as [u|] eqn:L; [|vm_compute in L; discriminate L]. exists u. split; [reflexivity|].
  split; [split; reflexivity|]. split; [split; [|reflexivity]; intros a A; apply choosing_asks in A; inversion A; subst; apply declares_more; discriminate|].
  split; [split; [intros e0 []|split; [reflexivity|split; intro E; discriminate E]|intros e0 []]|]. split; [|intros [p [J E]]; vm_compute in J; intuition; subst; discriminate E].
  vm_compute in L. injection L as <-. split.
  - intros y P. cbn [u_result] in P. inversion P as [| | |? ? ? ? ? Q0|? ? ? ? ? Q0]; subst; [exact Logic.I| |]; inversion Q0; subst; exact Logic.I.
  - intros n J y P. cbn [u_common] in J. repeat (destruct J as [<-|J]; [repeat match goal with H : part_of _ _ |- _ => inversion H; clear H; subst; try exact Logic.I end|]); try destruct J.
Qed.
(** A question about the declared areas chooses other rules. *)
Definition other_records_never_choose : Prop :=
  forall c tm st st' es all_emphases s, same_classes st st' -> declared_alike s st st' -> load_area c tm st' es all_emphases s = load_area c tm st es all_emphases s.
Theorem other_records_never_choose_refuted : ~ other_records_never_choose.
Proof.
  intro H. specialize (H sample_const [] both_taken (declaring both_taken) [] false (choosing (XFun FHasDeclaredAreaCode "300")) (conj eq_refl eq_refl)).
  assert (DA : declared_alike (choosing (XFun FHasDeclaredAreaCode "300")) both_taken (declaring both_taken)) by (split; [intros e0 []|split; [reflexivity|split; intro E; discriminate E]|intros e0 []]).
  specialize (H DA). vm_compute in H. discriminate H.
Qed.
Print Assumptions other_records_never_choose_refuted.

(** A rule that looks at the declared areas finds something else. *)
Definition asks_for_area : study :=
  AreaProps.one_rule "concentration" (AreaProps.all_of [NQuery KRule (mkQuery ["$"; ".count"; "[0]"; ".query"] false QAreas DtArea
    [APlain (mkAs ["$"; ".assert"] Empty DtArea None KAreas OGte (mkDec 1 0) None [] false None None false false false None None None None)] [] None false true true false [] [] [] [] [] [])]) [].
Definition other_records_never_matter : Prop :=
  forall ord nord u st st' es, (forall l, Permutation (nord l) l) -> decided_area u -> same_classes st st' -> same_outcome ord nord u st st' es.
Theorem other_records_never_matter_refuted : ~ other_records_never_matter.
Proof.
  intro H. assert (D : decided_area asks_for_area) by (apply one_query_decided; intros a [<-|[]]; exact Logic.I).
  specialize (H TreeSolProps.same_order (fun l => l) asks_for_area (AreaProps.took []) (declaring (AreaProps.took [])) [] (fun l => Permutation_refl l) D (conj eq_refl eq_refl)).
  apply same_outcome_found in H. vm_compute in H. discriminate H.
Qed.
Print Assumptions other_records_never_matter_refuted.
