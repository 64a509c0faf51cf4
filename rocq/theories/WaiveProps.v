(** Property theorems about the parts of a result marked as waived (C156), and about areas that
    have no specification (C157). *)
From Coq Require Import List Bool Arith ZArith QArith String Lia Permutation.
From Verif Require Import Transcript Prelude Dec Status Course Claims Exceptions Op Context CondExpr Paths Predicate Limit Apply Assertion Query CourseRule Tree Solve Driver Area Loader AreaLoad StudentLoad Run.
From Verif Require Import ListFacts PathsSpec LimitProps ClaimsSpec QuerySpec CourseRuleSpec TreeSpec TreeSolSpec TreeAuditSpec SolveSpec LoaderSpec AreaSpec AreaLoadSpec RunSpec WaiveSpec.
From Verif Require Import TreeProofs TreeSolProofs TreeSolProps TreeStatusProps TreeAuditProofs SolveProofs SolveProps AreaProps AreaLoadProofs LoaderProofs LoaderProps AreaLoadProps CommonProps AreaEndProps RunProps WaiveProofs.
Import ListNotations.
Local Open Scope string_scope.
Local Open Scope list_scope.

(** ** C156 *)

Lemma written_marked cx c tm l ems reqs d p n : cx_exc cx = group_exceptions l ->
  load_rule cx c tm d (Ok (additions cx c tm ems)) (load_reqs cx c tm reqs) p = Ok (Some n) -> all_marked l n /\ none_auto n.
Proof.
  intros EX L. apply (fresh_marked cx l n EX); [exact (loaded_is_fresh _ _ _ _ _ _ _ _ L)|]. apply loaded_exactly in L. exact (proj1 (early_all cx c tm) _ _ _ _ _ L n eq_refl).
Qed.
Lemma kept_marked l ks f n : all_marked l n -> none_auto n -> all_marked l (keep_out ks f n) /\ none_auto (keep_out ks f n).
Proof.
  intros A [N1 N2]. split; [|split].
  - intros x P. apply part_keep in P. destruct P as (m & P & ->). destruct (A m P) as [M Q]. split.
    + destruct m; exact M.
    + intros k i k' r E. destruct m; try discriminate E. exact (Q _ _ _ _ E).
  - intros k r P. apply part_keep in P. destruct P as (m & P & E). destruct m; try discriminate E. injection E as -> ->. exact (N1 _ _ P).
  - intros k i k' r P. apply part_keep in P. destruct P as (m & P & E). destruct m; try discriminate E. cbn [keep_out] in E. rewrite <- E in P. exact (N2 _ _ _ _ P).
Qed.
Lemma solution_from ord nord u st es z : In z (g_items (area_solutions ord nord u st es)) ->
  exists lt t, z_ctx z = limited_ctx u st es lt /\ In (z_sol z) (g_items (fst (top_solutions ord nord (z_ctx z) t (u_result u)))).
Proof.
  unfold area_solutions. generalize (g_items (transcripts ord u st es)) as lts, (g_exn (transcripts ord u st es)) as e, ([] : claims) as t.
  intros lts e. induction lts as [|lt lts IH]; intros t I; cbn [solutions_from] in I; [destruct I|].
  destruct (top_solutions ord nord (limited_ctx u st es lt) t (u_result u)) as [[[|s ss] x] t1] eqn:T.
  - destruct x; [destruct I|]. exact (IH _ I).
  - assert (J : In z (mkAsol (limited_ctx u st es lt) t1 s :: map (mkAsol (limited_ctx u st es lt) []) ss) \/ In z (g_items (solutions_from ord nord u st es [] lts e))).
    { unfold gapp in I. cbn [g_exn g_items] in I. destruct x; [auto|]. cbn [g_items] in I. apply in_app_iff in I. exact I. }
    destruct J as [J|J]; [|exact (IH _ J)]. exists lt, t. destruct J as [<-|J]; cbn [z_ctx z_sol]; [rewrite T; cbn; auto|]. apply in_map_iff in J. destruct J as (y & <- & J). cbn [z_ctx z_sol]. rewrite T. cbn. auto.
Qed.
(** one of the two parts of a result that stand for the common block of a major *)
Definition block_of_common (x : node) : Prop :=
  match x with
  | NReq _ i _ => e_path i = ["$"; "%Common Requirements"] /\ e_audited i = false
  | NCount _ i _ => n_path i = ["$"; "%Common Requirements"; ".count"]
  | _ => False
  end.
Lemma common_marked c tm st es all s u : load_area c tm st es all s = Ok u -> forall r, In r (u_common u) -> all_marked es r /\ none_auto r.
Proof.
  intros L. unfold load_area in L. destruct (mapr _ (ar_emphases s)) as [x|]; cbn [bind] in L; [|discriminate]. destruct (load_top _ _ _ _ _ _) as [n|]; cbn [bind] in L; [|discriminate].
  destruct (required_of _ n) as [cs|]; cbn [bind] in L; [|discriminate]. destruct (LimitLoad.load_limits _ c _) as [lims|]; cbn [bind] in L; [|discriminate]. destruct (ar_bad s); [discriminate|].
  destruct (prepare_common _ _ _ _ _ _ _) as [common|] eqn:PC; cbn [bind] in L; [|discriminate]. injection L as <-. cbn [u_common]. intros r I.
  assert (ONE : forall name b i m, load_common (load_ctx st es) c tm name b i = Ok m -> all_marked es m /\ none_auto m).
  { intros name b i m H. unfold load_common in H. destruct (load_rule _ _ _ _ _ _ _) as [[m'|]|] eqn:LR; cbn [bind] in H; try discriminate. injection H as ->.
    apply (written_marked (load_ctx st es) c tm es [] [(name, b)] _ _ _ eq_refl LR). }
  unfold prepare_common in PC. cbv zeta in PC.
  destruct (load_common _ _ _ "Credits at a C or higher" _ _) as [m0|] eqn:E0; cbn [bind] in PC; [|discriminate]. destruct (load_common _ _ _ "Credits taken S/U" _ _) as [m1|] eqn:E1; cbn [bind] in PC; [|discriminate].
  match type of PC with (if ?b then _ else _) = _ => destruct b end.
  - injection PC as <-. destruct I as [<-|[<-|[]]]; eauto.
  - destruct (load_common _ _ _ "Credits outside the major" _ _) as [m2|] eqn:E2; cbn [bind] in PC; [|discriminate]. injection PC as <-. destruct I as [<-|[<-|[<-|[]]]]; eauto.
Qed.
(** In a result of an area, a part that was solved is marked as waived exactly if an exception
    waives it, and a rule that was left aside is not marked (but for queries and conditionals,
    which are marked in any case); the common block of a major and its list are never marked. *)
Theorem waived_parts_are_marked_partial :
  forall ord nord c tm st es all s u z v t' x,
  set_order ord -> (forall l, Permutation (nord l) l) -> load_area c tm st es all s = Ok u ->
  In z (g_items (area_solutions ord nord u st es)) -> area_audit ord u z = Ok (v, t') -> part_of (v_result v) x ->
  marked es x \/ (u_kind u = "major" /\ block_of_common x /\ overridden x = false).
Proof.
  intros ord nord c tm st es all s u z v t' x SO NO L I A P.
  destruct (area_top _ _ _ _ _ _ _ L) as (ks & n & d & adds & EU & _ & _ & LR & _). destruct (written_marked (load_ctx st es) c tm es _ _ _ _ _ eq_refl LR) as [AM NA].
  destruct (kept_marked es ks (blocks_at es) n AM NA) as [AK NK]. rewrite <- EU in AK, NK. clear AM NA.
  destruct (solution_from _ _ _ _ _ _ I) as (lt & t0 & EC & IS). assert (EX : cx_exc (z_ctx z) = group_exceptions es) by (rewrite EC; reflexivity).
  assert (SM := top_marked ord nord (z_ctx z) es (u_result u) SO NO EX AK NK t0 (z_sol z) IS).
  assert (KS : kind_of (z_sol z) <> KRule) by (rewrite (AreaOnceProofs.top_kind _ _ _ _ _ _ IS); discriminate).
  apply area_audit_exact in A. destruct A as (r & AU & VA & VC & K). assert (RM := audit_marked (z_ctx z) es (z_sol z) r (audit_audited ord (z_ctx z) _ SO _ _ _ AU) KS SM).
  destruct K as [[NM VR]|[MJ (k & i & items & common & ER & CM & VR)]]; rewrite VR in P; [left; exact (RM x P)|]. subst r.
  inversion P as [|? ? ? y ? Iy Py| | |]; subst.
  { left. destruct (RM _ (pt_self _)) as [M _]. split; [exact M|intros; discriminate]. }
  apply in_app_iff in Iy. destruct Iy as [Iy|[<-|[]]]; [left; apply RM; eapply pt_count; eauto|].
  destruct (common_block_exact _ _ _ _ _ SO CM) as (r0 & r1 & more & ccx & a & b & o & UC & (lt' & forced & EQ & _) & BA & BB & BO & ->).
  assert (CO := common_marked _ _ _ _ _ _ _ L). rewrite UC in CO.
  assert (BM : forall cx' m y, cx_exc cx' = group_exceptions es -> In m (r0 :: r1 :: more) -> best_in ord cx' m y -> all_marked es y).
  { intros cx' m y E' Im [own [last SE]]. destruct (CO m Im) as [X Y]. exact (best_marked ord cx' es m y own last SO E' X Y SE). }
  inversion Py as [|? ? ? y ? Iy Pz|? ? y ? Pz| |]; subst; [right; split; [exact MJ|]; split; [split; reflexivity|reflexivity]|].
  inversion Pz as [|? ? ? y ? Iy Pw| | |]; subst; [right; split; [exact MJ|]; split; reflexivity|]. left.
  destruct Iy as [<-|[<-|Iy]].
  - refine (BM _ r0 a _ _ BA x Pw); [exact EX|left; reflexivity].
  - refine (BM _ r1 b _ _ BB x Pw); [exact EX|right; left; reflexivity].
  - cbv zeta in BO. destruct more as [|r2 more]; [subst o; destruct Iy|]. destruct BO as [(w & -> & BO)|[-> _]]; [|destruct Iy]. destruct Iy as [<-|[]].
    refine (BM _ r2 w _ _ BO x Pw); [exact EX|right; right; left; reflexivity].
Qed.
Print Assumptions waived_parts_are_marked_partial.

(** A requirement left to the department passes exactly if an exception waives it. *)
Theorem department_requirements_pass_if_waived :
  forall ord nord c tm st es all s u z v t' k i o,
  set_order ord -> (forall l, Permutation (nord l) l) -> load_area c tm st es all s = Ok u ->
  In z (g_items (area_solutions ord nord u st es)) -> area_audit ord u z = Ok (v, t') -> part_of (v_result v) (NReq k i o) ->
  k <> KRule -> e_audited i = true ->
  (passing (status_of (NReq k i o)) <-> waived_at es (e_path i)) /\
  (waived_at es (e_path i) -> status_of (NReq k i o) = Done) /\ (~ waived_at es (e_path i) -> status_of (NReq k i o) = PendingApproval).
Proof.
  intros ord nord c tm st es all s u z v t' k i o SO NO L I A P K AU.
  assert (M : e_overridden i = true <-> waived_at es (e_path i)).
  { destruct (waived_parts_are_marked_partial _ _ _ _ _ _ _ _ _ _ _ _ _ SO NO L I A P) as [[M _]|(MJ & BC & _)]; [exact (mark_solved _ _ _ _ (or_introl K) M)|].
    destruct BC as [_ BC]. rewrite AU in BC. discriminate BC. }
  assert (ST : status_of (NReq k i o) = if e_overridden i then Done else PendingApproval).
  { cbn [status_of]. unfold req_status. rewrite AU. destruct (e_overridden i); reflexivity. }
  rewrite ST. destruct (e_overridden i).
  - split; [split; [intros _; apply M; reflexivity|intros _; left; left; reflexivity]|]. split; [reflexivity|]. intro N. exfalso. apply N, M. reflexivity.
  - split; [|split; [|reflexivity]].
    + split; [intros [[H|H]|[H|H]]; discriminate|]. intro W. apply M in W. discriminate.
    + intro W. apply M in W. discriminate.
Qed.
Print Assumptions department_requirements_pass_if_waived.

(** The mark is not right everywhere: a waiver of the common block of a major is ignored. *)
Definition every_waived_part_is_marked : Prop :=
  forall ord nord c tm st es all s u z v t' x,
  set_order ord -> (forall l, Permutation (nord l) l) -> load_area c tm st es all s = Ok u ->
  In z (g_items (area_solutions ord nord u st es)) -> area_audit ord u z = Ok (v, t') -> part_of (v_result v) x ->
  kind_of x <> KRule -> (overridden x = true <-> waived_at es (path_of x)).
Definition waive_common : list exc := [mkExc ["$"; "%Common Requirements"] (AOverride Waived)].
Definition common_of (v : area_result) : list node :=
  match v_result v with NCount _ _ items => filter (fun x => path_eqb (path_of x) ["$"; "%Common Requirements"]) items | _ => [] end.
Lemma waive_common_ignored :
  let st := enrolled [] four in
  match load_area sample_const [] st waive_common false (sample_area (d_all [d_ref "Core"]) []) with
  | Ok u => match g_items (area_solutions same_order keep u st waive_common) with
            | z :: _ => match area_audit same_order u z with
                        | Ok (v, _) => match common_of v with x :: _ => overridden x = false /\ kind_of x = KRes | [] => False end
                        | Err _ => False end
            | [] => False end
  | Err _ => False end.
Proof. vm_compute. auto. Qed.
Theorem every_waived_part_is_marked_refuted : ~ every_waived_part_is_marked.
Proof.
  intro H. set (st := enrolled [] four). assert (W := waive_common_ignored). cbv zeta in W. fold st in W.
  destruct (load_area sample_const [] st waive_common false (sample_area (d_all [d_ref "Core"]) [])) as [u|] eqn:L; [|destruct W].
  destruct (g_items (area_solutions same_order keep u st waive_common)) as [|z zs] eqn:G; [destruct W|]. destruct (area_audit same_order u z) as [[v t']|] eqn:A; [|destruct W].
  destruct (common_of v) as [|x xs] eqn:CO; [destruct W|]. destruct W as [OV KD]. unfold common_of in CO. destruct (v_result v) as [| |k i items| | |] eqn:V; try discriminate.
  assert (J : In x (filter (fun x => path_eqb (path_of x) ["$"; "%Common Requirements"]) items)) by (rewrite CO; left; reflexivity). apply filter_In in J. destruct J as [J PX].
  assert (E : path_of x = ["$"; "%Common Requirements"]) by (apply ExceptionsProofs.path_eqb_iff; exact PX).
  assert (X : overridden x = true).
  { eapply (H same_order keep sample_const [] st waive_common false _ u z v t' x); eauto.
    - intro l. apply Permutation_refl.
    - rewrite G. left. reflexivity.
    - rewrite V. eapply pt_count; [exact J|constructor].
    - rewrite KD. discriminate.
    - rewrite E. intro N. apply (N (mkExc ["$"; "%Common Requirements"] (AOverride Waived))); [left; reflexivity|]. split; [reflexivity|]. exists Waived. reflexivity. }
  rewrite X in OV. discriminate.
Qed.
Print Assumptions every_waived_part_is_marked_refuted.
(** The requirement "Core" is waived and marked; its course, left aside, is not. *)
Definition marks_of (es : list exc) : list (path * bool) :=
  let st := enrolled [] four in
  match load_area sample_const [] st es false (sample_area (d_all [d_ref "Core"; d_course "B 1"]) []) with
  | Ok u => match g_items (area_solutions same_order keep u st es) with
            | z :: _ => match area_audit same_order u z with
                        | Ok (v, _) => match v_result v with NCount _ _ items => map (fun x => (path_of x, overridden x)) items | _ => [] end
                        | Err _ => [] end
            | [] => [] end
  | Err _ => [] end.
Example waived_marks_example :
  marks_of [mkExc ["$"; ".count"; "[0]"; "%Core"] (AOverride Waived)] =
    [(["$"; ".count"; "[0]"; "%Core"], true); (["$"; ".count"; "[1]"; "*B 1"], false); (["$"; "%Common Requirements"], false)] /\
  marks_of [mkExc ["$"; ".count"; "[1]"; "*B 1"] (AOverride Waived)] =
    [(["$"; ".count"; "[0]"; "%Core"], false); (["$"; ".count"; "[1]"; "*B 1"], true); (["$"; "%Common Requirements"], false)].
Proof. vm_compute. auto. Qed.
