(** Property theorems about areas that have no specification (C157). *)
From Coq Require Import List Bool Arith ZArith QArith String Lia Permutation.
From Verif Require Import Transcript Prelude Dec Status Course Claims Exceptions Op Context CondExpr Paths Predicate Limit Apply Assertion Query CourseRule Tree Solve Driver Area Loader AreaLoad StudentLoad Run MissingArea.
From Verif Require Import ListFacts PathsSpec LimitProps ClaimsSpec QuerySpec CourseRuleSpec TreeSpec TreeSolSpec TreeAuditSpec SolveSpec LoaderSpec AreaSpec AreaLoadSpec RunSpec WaiveSpec MissingSpec.
From Verif Require Import TreeProofs TreeSolProofs TreeSolProps TreeStatusProps TreeAuditProofs SolveProofs SolveProps AreaProps AreaLoadProofs LoaderProofs LoaderProps AreaLoadProps CommonProps AreaEndProps RunProps WaiveProofs WaiveProps.
Import ListNotations.
Local Open Scope string_scope.
Local Open Scope list_scope.

Definition error_info : req_info := mkReq missing_error false "Error" true false true None.
Definition error_node : node := NReq KRule error_info None.
Lemma missing_loaded c tm st es all stem u : load_area c tm st es all (missing_area stem) = Ok u ->
  u_kind u = "error" /\ u_limit u = [] /\
  exists kids, u_result u = NCount KRule (mkCount missing_top false (Z.of_nat (S (List.length kids))) false []) (error_node :: kids) /\
    (forall x, In x kids -> exists r, x = NCourse KRule r) /\
    List.length kids = List.length (get_inserts (cx_exc (load_ctx st es)) missing_top).
Proof.
  intro L. split; [unfold load_area in L; destruct (mapr _ _); cbn [bind] in L; [|discriminate]; destruct (load_top _ _ _ _ _ _); cbn [bind] in L; [|discriminate]; destruct (required_of _ _); cbn [bind] in L; [|discriminate]; destruct (LimitLoad.load_limits _ _ _); cbn [bind] in L; [|discriminate]; cbn [ar_bad missing_area] in L; destruct (prepare_common _ _ _ _ _ _ _); cbn [bind] in L; [|discriminate]; injection L as <-; reflexivity|].
  destruct (area_top _ _ _ _ _ _ _ L) as (ks & n & d & adds & EU & ED & AD & LR & _ & LL & _). split; [cbn in LL; injection LL as <-; reflexivity|].
  injection ED as <-. assert (NA : List.concat adds = []) by (destruct AD as [AD| ->]; [|reflexivity]; cbn in AD; inversion AD; reflexivity). rewrite NA in LR. apply loaded_exactly in LR.
  inversion LR as [? ? ? ? ? SH|? ? ? ? ? ? ? SH|? ? ? ? ? ? SH|? ? ? ? ? ? SH|? ? ? ? ? ? ? ? ? SH|? ? ? ? ? ? ? ? ? SH|? ? ? ? k l es' ins audits nodes z SH LI EX FI entries KD AL AK BD Z0 ZL|? ? ? ? ? ? ? SH|? ? ? ? ? ? ? SH]; subst; cbn in SH; repeat match goal with H : _ /\ _ |- _ => destruct H end; try discriminate.
  match goal with H : Some _ = Some k |- _ => injection H as <- end.
  inversion LI; subst; try discriminate. match goal with H : _ = Some l |- _ => injection H as <- end.
  inversion EX as [|? ? es1 _ EX'| |]; subst; try discriminate. inversion EX'; subst. cbn in AL. inversion AL; subst.
  inversion AK; subst; try (exfalso; match goal with H : ~ wants_all _ |- _ => apply H; left; discriminate end).
  subst entries. cbn [app map] in KD. inversion KD as [|? ? ? ? ? ? n1 ns W1 KD1|? ? ? ? ? ? ns W1 KD1]; subst.
  2:{ inversion W1 as [? ? ? ? ? W2| |]; subst. inversion W2 as [? ? ? ? ? SH|? ? ? ? ? ? ? SH|? ? ? ? ? ? SH|? ? ? ? ? ? SH|? ? ? ? ? ? ? ? ? SH|? ? ? ? ? ? ? ? ? SH|? ? ? ? ? ? ? ? ? ? ? SH|? ? ? ? ? ? ? SH|? ? ? ? ? ? ? SH]; subst; cbn in SH; repeat match goal with H : _ /\ _ |- _ => destruct H end; discriminate. }
  assert (E1 : n1 = error_node).
  { inversion W1 as [? ? ? ? ? W2| |]; subst. inversion W2 as [? ? ? ? ? SH|? ? ? ? ? ? ? SH|? ? ? ? ? ? SH|? ? ? ? ? ? SH|? ? ? ? ? ? ? ? ? SH|? ? ? ? ? ? ? ? ? SH|? ? ? ? ? ? ? ? ? ? ? SH|? ? ? ? nm b n' SH WB|? ? ? ? ? ? ? SH]; subst; cbn in SH; repeat match goal with H : _ /\ _ |- _ => destruct H end; try discriminate.
    match goal with H : Some _ = Some (nm, b) |- _ => injection H as <- <- end. inversion WB; subst; [discriminate|]. reflexivity. }
  subst n1. clear W1 KD LI EX EX' LR.
  assert (KK : forall q sc i l ns, kids (load_ctx st es) c tm [] sc q i (map ECourse l) ns -> List.length ns = List.length l /\ forall x, In x ns -> exists r, x = NCourse KRule r).
  { intros q sc i l. revert i. induction l as [|r l IH]; intros i ns' K; cbn [map] in K; inversion K as [|? ? ? ? ? ? n2 ns2 W K'|? ? ? ? ? ? ns2 W K']; subst; [split; [reflexivity|intros x []]| |].
    - destruct (IH _ _ K') as [L1 L2]. split; [cbn; now rewrite L1|]. intros x [<-|J]; [|auto]. inversion W; subst. eauto.
    - inversion W. }
  destruct (KK _ _ _ _ _ KD1) as [LN FN]. exists (map (keep_out ks (blocks_at es)) ns). rewrite EU. cbn [keep_out map]. rewrite map_length. split; [reflexivity|]. split.
  - intros x J. apply in_map_iff in J. destruct J as (y & <- & J). destruct (FN y J) as [r ->]. cbn [keep_out]. eauto.
  - rewrite LN. symmetry. eapply TreeSolProofs.Forall2_len. exact FI.
Qed.

Definition missing_tree : node := NCount KRule (mkCount missing_top false 1 false []) [error_node].
Definition missing_solution (w1 : bool) (child : node) : node := NCount KSol (mkCount missing_top w1 1 false []) [child].
Definition error_as (k : kind) (w : bool) : node := NReq k (mkReq missing_error w "Error" true false true None) None.
Lemma missing_solved ord nord cx t : (forall l, Permutation (nord l) l) ->
  exists s, fst (top_solutions ord nord cx t missing_tree) = gret [s] /\
    (waived cx missing_top = true -> s = missing_solution true error_node) /\
    (waived cx missing_top = false -> exists k, s = missing_solution false (error_as k (waived cx missing_error)) /\ (k = KRule -> waived cx missing_error = false)).
Proof.
  intro NO. assert (NE : forall x, nord [x] = [x]) by (intro x; apply Permutation_length_1_inv; symmetry; apply NO). assert (NN : nord [] = []) by (apply Permutation_nil; symmetry; apply NO).
  cbn [top_solutions missing_tree]. unfold top_count_solutions. cbn [n_path]. destruct (waived cx missing_top) eqn:W1; [eexists; split; [reflexivity|]; split; [reflexivity|discriminate]|].
  unfold potential_children. cbn [map filter_res fst potential error_node error_info e_path e_audited].
  destruct (has_exception_beneath (cx_exc cx) missing_error) eqn:HB; cbn [bind].
  - cbn [map fst dedup filter_res bind n_audits filter]. rewrite NE. cbn [mapr matches_of error_node bind classify]. rewrite NE. cbn [solve_independent]. unfold find_best_solution.
    assert (SO : solutions ord cx error_node = gret [error_as KSol (waived cx missing_error)]) by (cbn [solutions error_node error_info e_path]; destruct (waived cx missing_error); reflexivity).
    fold error_node error_info. rewrite SO. destruct (waived cx missing_error) eqn:W2.
    + eexists. split; [vm_compute; reflexivity|]. split; [discriminate|]. intros _. exists KRes. split; [reflexivity|discriminate].
    + eexists. split; [vm_compute; reflexivity|]. split; [discriminate|]. intros _. exists KRes. split; [reflexivity|discriminate].
  - assert (W2 : waived cx missing_error = false).
    { unfold waived, get_waive, exc_at. unfold has_exception_beneath in HB. destruct (xget _ _); [discriminate|reflexivity]. }
    eexists. split; [vm_compute; reflexivity|]. split; [discriminate|]. intros _. exists KRule. rewrite W2. split; reflexivity.
Qed.

Lemma none_inserted es : nothing_added es -> get_inserts (group_exceptions es) missing_top = [].
Proof.
  intro NA. destruct (get_inserts (group_exceptions es) missing_top) as [|x l] eqn:G; [reflexivity|]. exfalso. assert (J : In x (x :: l)) by (left; reflexivity). rewrite <- G in J.
  apply QueryProofs.inserts_at in J. destruct J as (J & PX & k & f & AX). exact (NA x k f J PX AX).
Qed.

(** ** C157 *)

(** Without a specification, and with no class added by an exception, an area has one solution,
    which can be audited and has the status the exceptions at its two rules say. *)
Theorem missing_areas_have_one_result :
  forall ord nord c tm st es all stem u,
  (forall l, Permutation (nord l) l) -> load_area c tm st es all (read_area None stem) = Ok u -> nothing_added es ->
  exists z, area_solutions ord nord u st es = gret [z] /\
  exists v t', area_audit ord u z = Ok (v, t') /\ missing_status es (area_status v) /\ area_claims v = [].
Proof.
  intros ord nord c tm st es all stem u NO L NA. cbn [read_area] in L. destruct (missing_loaded _ _ _ _ _ _ _ L) as (KU & LU & kids & EU & _ & LK).
  assert (GI := none_inserted es NA). change (cx_exc (load_ctx st es)) with (group_exceptions es) in LK.
  rewrite GI in LK. destruct kids; [|discriminate]. change (u_result u = missing_tree) in EU. clear GI LK.
  set (cx := limited_ctx u st es (t_courses st)). assert (EX : cx_exc cx = group_exceptions es) by reflexivity.
  destruct (missing_solved ord nord cx [] NO) as (s & ES & S1 & S2). destruct (top_solutions ord nord cx [] missing_tree) as [g t1] eqn:T. cbn [fst] in ES. subst g.
  exists (mkAsol cx t1 s). split.
  { unfold area_solutions, transcripts. rewrite LU, no_limits_no_change. cbn [gret g_items g_exn solutions_from]. rewrite EU. fold cx. rewrite T. reflexivity. }
  unfold area_audit. rewrite KU. change ("error" =? "major") with false. cbn [z_ctx z_claims z_sol].
  assert (W1 := waived_at_iff cx es missing_top EX). assert (W2 := waived_at_iff cx es missing_error EX).
  destruct (waived cx missing_top).
  - rewrite (S1 eq_refl). do 2 eexists. split; [reflexivity|]. split; [|reflexivity]. apply ms_top. apply W1. reflexivity.
  - assert (N1 : ~ waived_at es missing_top) by (intro H; apply W1 in H; discriminate). destruct (S2 eq_refl) as (k & -> & KW). destruct (waived cx missing_error).
    + assert (V : waived_at es missing_error) by (apply W2; reflexivity). destruct k; [discriminate (KW eq_refl)| |]; (do 2 eexists; split; [vm_compute; reflexivity|]; split; [|reflexivity]; now apply ms_error).
    + assert (V : ~ waived_at es missing_error) by (intro H; apply W2 in H; discriminate). destruct k; (do 2 eexists; split; [vm_compute; reflexivity|]; split; [|reflexivity]; now apply ms_neither).
Qed.
Print Assumptions missing_areas_have_one_result.

Lemma missing_parts i kids x : (forall x, In x kids -> exists r, x = NCourse KRule r) -> part_of (NCount KRule i (error_node :: kids)) x ->
  x = NCount KRule i (error_node :: kids) \/ x = error_node \/ exists r, x = NCourse KRule r.
Proof.
  intros F P. inversion P as [|? ? ? y ? Iy Py| | |]; subst; [auto|]. right. destruct Iy as [<-|Iy]; [left; inversion Py; reflexivity|]. right. destruct (F y Iy) as [r ->]. inversion Py; eauto.
Qed.
Lemma audited_path cx x y : audited cx x y -> path_of y = path_of x.
Proof. intro H. inversion H; subst; cbn; auto. Qed.
Lemma same_by {A B} (f : A -> B) l : NoDup (map f l) -> forall x y, In x l -> In y l -> f x = f y -> x = y.
Proof.
  induction l as [|a l IH]; intros N x y Ix Iy E; [destruct Ix|]. cbn [map] in N. inversion N as [|? ? N1 N2]; subst. destruct Ix as [<-|Ix], Iy as [<-|Iy]; auto.
  - exfalso. apply N1. rewrite E. apply in_map. exact Iy.
  - exfalso. apply N1. rewrite <- E. apply in_map. exact Ix.
Qed.
(** Whatever the exceptions, such an area passes only if the rule at its top or its one
    requirement is waived: classes added by exceptions are not enough. *)
Theorem missing_areas_pass_only_if_waived :
  forall ord nord c tm st es all stem u z v t',
  set_order ord -> (forall l, Permutation (nord l) l) -> load_area c tm st es all (read_area None stem) = Ok u ->
  g_exn (area_solutions ord nord u st es) = None -> In z (g_items (area_solutions ord nord u st es)) -> area_audit ord u z = Ok (v, t') ->
  passing (area_status v) -> waived_at es missing_top \/ waived_at es missing_error.
Proof.
  intros ord nord c tm st es all stem u z v t' SO NO L G I A P. cbn [read_area] in L. destruct (missing_loaded _ _ _ _ _ _ _ L) as (KU & LU & kids & EU & FK & _).
  destruct (solution_from _ _ _ _ _ _ I) as (lt & t0 & EC & IS). assert (EX : cx_exc (z_ctx z) = group_exceptions es) by (rewrite EC; reflexivity).
  assert (W1 := waived_at_iff (z_ctx z) es missing_top EX). destruct (waived (z_ctx z) missing_top) eqn:E1; [left; apply W1; reflexivity|].
  assert (N1 : ~ waived_at es ["$"; ".count"]) by (intro H; apply W1 in H; discriminate).
  assert (WF : well_formed st all (missing_area stem) u).
  { split; [|split; [|split]].
    - intros chosen CH. rewrite (picked_once _ _ _ _ CH (picked_chosen _ _ _)). cbn. split; [constructor|intros a b n m t []].
    - intros e [].
    - rewrite LU. intros l1 l2 [].
    - intros k q PQ. rewrite EU in PQ. apply missing_parts in PQ; [|exact FK]. destruct PQ as [PQ|[PQ|[r PQ]]]; discriminate. }
  assert (AF : asks_for_all (missing_area stem)) by (do 3 eexists; split; [reflexivity|]; split; [repeat split|reflexivity]).
  destruct (passing_areas_pass_in_all_parts _ _ _ _ _ _ _ _ _ _ _ _ SO NO L WF AF N1 G I A P) as (i & items & k & j & results & EU' & EV & ALL & _).
  assert (SB := loaded_siblings _ _ _ _ _ _ _ L WF). rewrite EU in EU'. injection EU' as <- <-.
  destruct (ALL error_node (or_introl eq_refl)) as (y & Iy & PY & SY).
  rewrite EU in IS, SB. destruct (SB _ _ _ (AreaOnceSpec.hd_self _)) as [SB' _].
  destruct (top_children ord nord (z_ctx z) KRule (mkCount missing_top false (Z.of_nat (S (List.length kids))) false []) (error_node :: kids) NO E1 _ _ IS) as (out & ES & OUT).
  apply area_audit_exact in A. destruct A as (r & AU & _ & _ & K). destruct K as [[_ VR]|[MJ _]]; [|rewrite KU in MJ; discriminate]. rewrite VR in EV. subst r. rewrite EV, ES in AU. unfold count_solution in AU.
  apply (audit_audited ord (z_ctx z) _ SO) in AU. inversion AU as [| |? ? ? OV|? ? ? rs css cls OV F2 _ _ | | | | | | | |]; subst; [discriminate|].
  destruct (PredicateProofs.F2_in_r _ _ _ _ F2 Iy) as (x & Ix & XY). destruct (OUT x Ix) as (c0 & Ic & FROM).
  assert (PX : path_of x = path_of y) by (destruct XY as [[_ XY]|[_ ->]]; [symmetry; exact (audited_path _ _ _ XY)|reflexivity]).
  assert (PC : path_of x = path_of c0).
  { destruct FROM as [J|[->|(own & last & SE)]]; [exact (proj1 (solutions_keep _ _ _ _ J))|reflexivity|]. apply selected_in in SE. destruct SE as (s' & q & J & CA & _). rewrite (audit_path _ _ _ _ _ _ CA). exact (proj1 (solutions_keep _ _ _ _ J)). }
  assert (c0 = error_node) by (apply (same_by path_of (error_node :: kids)); [exact (proj1 SB')|exact Ic|left; reflexivity|congruence]). subst c0. right.
  assert (SOL : forall s', In s' (g_items (solutions ord (z_ctx z) error_node)) -> s' = error_as KSol (waived (z_ctx z) missing_error)) by (intros s' J; cbn [solutions error_node error_info e_path] in J; destruct (waived (z_ctx z) missing_error); destruct J as [<-|[]]; reflexivity).
  assert (AUD : forall k w y', audited (z_ctx z) (error_as k w) y' -> y' = error_as KRes w).
  { intros k' w y' H. inversion H; subst. reflexivity. }
  assert (XS : x = error_as KSol (waived (z_ctx z) missing_error) \/ x = error_node \/ x = error_as KRes (waived (z_ctx z) missing_error)).
  { destruct FROM as [J|[->|(own & last & SE)]]; [left; exact (SOL _ J)|right; left; reflexivity|]. right; right. apply selected_in in SE. destruct SE as (s' & q & J & CA & _). apply SOL in J. subst s'. apply (audit_audited ord (z_ctx z) _ SO) in CA. exact (AUD _ _ _ CA). }
  apply (waived_at_iff (z_ctx z) es missing_error EX). assert (YS : exists k' w, y = error_as k' w /\ (w = true -> waived (z_ctx z) missing_error = true)).
  { destruct XS as [->|[->| ->]]; destruct XY as [[XK XY]|[XK ->]]; try discriminate XK.
    - apply AUD in XY. subst y. eauto.
    - exfalso. apply XK. reflexivity.
    - exists KRule, false. split; [reflexivity|discriminate].
    - eauto. }
  destruct YS as (k' & w & -> & YW). apply YW. destruct w; [reflexivity|]. destruct SY as [[SY|SY]|[SY|SY]]; discriminate.
Qed.
Print Assumptions missing_areas_pass_only_if_waived.

(** So a run for such an area reports what the exceptions of the student say. *)
Theorem runs_without_specification :
  forall tord ord nord sw args d xs s tr v j n t stem,
  (forall l, Permutation (tord l) l) -> (forall l, Permutation (nord l) l) -> ar_audit_each args <> 0%Z -> ar_progress_every args <> 0%Z ->
  sp_area s = read_area None stem ->
  run tord ord nord sw args d xs s = Ok (ShAudit tr) -> In (ESay (MResult v j n t)) (fst tr) ->
  exists es st k u, audits_area sw d xs s es st k u /\ (nothing_added es -> missing_status es (area_status v) /\ area_claims v = []).
Proof.
  intros tord ord nord sw args d xs s tr v j n t stem TO NO AE PE SP R J.
  destruct (reported_results_are_audits _ _ _ _ _ _ _ _ _ _ _ _ _ TO AE PE R J) as (es & st & k & u & z & rest & AA & I & A). exists es, st, k, u. split; [exact AA|]. intro NA.
  destruct AA as (_ & _ & _ & _ & L). rewrite SP in L. destruct (missing_areas_have_one_result ord nord _ _ _ _ _ _ _ NO L NA) as (z' & E & v' & t' & A' & ST & C). rewrite E in I. destruct I as [<-|[]].
  rewrite A' in A. injection A as <- _. auto.
Qed.
Print Assumptions runs_without_specification.
(** With no exception such an area is empty; if its requirement is waived it is done; a class
    that is added does not make it pass. *)
Definition missing_result (es : list exc) : list status :=
  let st := enrolled [] four in
  match load_area sample_const [] st es false (read_area None "999") with
  | Ok u => map (fun z => match area_audit same_order u z with Ok (v, _) => area_status v | Err _ => FailedInvariant end) (g_items (area_solutions same_order keep u st es))
  | Err _ => []
  end.
Example missing_area_example :
  missing_result [] = [Empty] /\ missing_result [mkExc missing_error (AOverride Waived)] = [Done] /\ missing_result [mkExc missing_top (AOverride Waived)] = [Waived] /\
  missing_result [mkExc missing_top (AInsert "1" false)] = [NeedsMoreItems] /\
  missing_result [mkExc missing_error (AOverride Waived); mkExc missing_top (AInsert "1" false)] = [Done] /\
  nothing_added [mkExc missing_error (AOverride Waived)].
Proof. repeat (split; [vm_compute; reflexivity|]). intros e k f [<-|[]] H; discriminate. Qed.
