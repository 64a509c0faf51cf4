(** Property theorems about areas from the specification to the result (C101 to C106). *)
From Coq Require Import List ZArith QArith Bool Ascii String Lia Sorted Permutation.
From Verif Require Import Transcript Prelude Dec Status Course Claims Exceptions Op Context CondExpr Paths Predicate Limit Apply Assertion Query CourseRule Tree Solve Driver Area Loader AreaLoad.
From Verif Require Import PathsSpec LimitSpec LimitProps ClaimsSpec SolveSpec TreeSpec TreeSolSpec TreeAskSpec TreeAuditSpec AreaSpec QueryProps LoaderSpec AreaLoadSpec AreaOnceSpec CommonSpec.
From Verif Require Import ClaimsProofs PredicateProofs ExceptionsProofs TreeSolProofs TreeSolProps TreeProofs TreeStatusProps TreeAskProps SolveProofs SolveProps AreaProofs AreaProps AreaOnceProofs AreaOnceProps LoaderProofs LoaderProps CommonProps AreaLoadProofs AreaLoadProps AreaClaim.
From Verif Require Import ListFacts QuerySpec CourseRuleSpec AreaLoadSpec.
Import ListNotations.
Local Open Scope string_scope.
Local Open Scope list_scope.

(** what is asked of the specification: the declared emphases can be told apart, their
    requirements are dictionaries, and limits can be applied *)
Definition well_formed (st : student) (all : bool) (s : aspec) (u : study) : Prop :=
  (forall chosen, picked (fun e => declared st e \/ all = true) (ar_emphases s) chosen -> distinct_names chosen) /\
  (forall e, In e (ar_emphases s) -> distinct_requirements e) /\
  coherent (u_limit u) /\ (forall k q, part_of (u_result u) (NQuery k q) -> coherent (q_limit q)).
Lemma loaded_multi c tm st es all s u : load_area c tm st es all s = Ok u -> u_multi u = named_segments (ar_multi s).
Proof. intro H. destruct (area_top _ _ _ _ _ _ _ H) as (ks & n & d & adds & _ & _ & _ & _ & _ & A & B). auto. Qed.

(** ** C101 *)

(** In the result of a loaded area, a class is claimed at most once by rules that do not let
    it be used again. *)
Theorem loaded_areas_use_classes_once :
  forall ord nord c tm st es all s u z v t' k,
  set_order ord -> (forall l, Permutation (nord l) l) ->
  load_area c tm st es all s = Ok u -> well_formed st all s u -> one_disjoint (u_result u) -> one_way es ->
  (forall c d, of_student st c -> of_student st d -> c_clbid c = c_clbid d -> c = d) ->
  (forall c, of_student st c -> c_clbid c = k -> ~ is_multicountable (named_segments (ar_multi s)) c) ->
  g_exn (area_solutions ord nord u st es) = None -> In z (g_items (area_solutions ord nord u st es)) ->
  area_audit ord u z = Ok (v, t') ->
  forall l, subseq l (own_claims v) -> (forall cl, In cl l -> c_clbid (cl_course cl) = k /\ ~ shareable es (u_result u) (cl_by cl) k) ->
  (List.length l <= 1)%nat.
Proof.
  intros ord nord c tm st es all s u z v t' k SO NO L (DN & DR & CO & CQ) OD OW UN MU G I A. assert (EM := loaded_multi _ _ _ _ _ _ _ L).
  destruct (loaded_area_is_unaudited _ _ _ _ _ _ _ L) as [RT U]. destruct (loaded_area_is_tidy _ _ _ _ _ _ _ L DN DR) as [AW TT].
  apply (classes_are_used_once_in_results ord nord u st es z v t' k); auto. rewrite EM. exact MU.
Qed.
Print Assumptions loaded_areas_use_classes_once.

(** ** C102 *)

Lemma own_from_result ord u z v t' : area_audit ord u z = Ok (v, t') -> exists r t1, audit ord (z_ctx z) (z_claims z) (z_sol z) = Ok (r, t1) /\ own_claims v = claims_of r.
Proof.
  intro A. unfold area_audit in A. destruct (audit ord (z_ctx z) (z_claims z) (z_sol z)) as [[r t1]|] eqn:AU; cbn [bind] in A; [|discriminate]. exists r, t1. split; [reflexivity|].
  destruct (u_kind u =? "major") eqn:K.
  - destruct (audit_common _ _ _ _) as [c|]; cbn [bind] in A; [|discriminate]. destruct r; try discriminate. injection A as <- <-. unfold own_claims. cbn. rewrite K, removelast_app by discriminate. cbn. rewrite app_nil_r. reflexivity.
  - injection A as <- <-. unfold own_claims. cbn. rewrite K. destruct r; reflexivity.
Qed.
Lemma loaded_siblings c tm st es all s u : load_area c tm st es all s = Ok u -> well_formed st all s u -> top_siblings (u_result u).
Proof.
  intros L (DN & DR & _ & _). destruct (loaded_area_places_differ _ _ _ _ _ _ _ L DN DR) as [ND BE]. intros k i items HD. assert (P := heads_part _ _ HD). assert (N := part_places _ _ P ND).
  cbn in N. inversion N as [|? ? _ N']; subst. split; [split|].
  - apply children_differ. exact N'.
  - apply Forall_forall. intros x I. destruct (BE (path_of x)) as (q & _ & W & ->).
    { eapply part_in_places; [exact P|]. right. apply in_flat_map. exists x. split; [exact I|]. destruct (places_head x) as [r ->]. left. reflexivity. }
    constructor; [|exact W]. right. intros t E. discriminate.
  - destruct (area_top _ _ _ _ _ _ _ L) as (ks & n & d & adds & EU & _ & _ & LR & _). rewrite EU in P. apply part_keep in P. destruct P as (m & P & E). destruct m; try discriminate E. injection E as -> -> ->.
    destruct (loaded_is_fresh _ _ _ _ _ _ _ _ LR _ P) as [_ [_ A]]. exact A.
Qed.
Lemma limited_keyed u st es lt : keyed (limited_ctx u st es lt).
Proof. intros k c D. destruct (area_context u st es lt) as [_ [_ [_ [_ [_ [_ [_ [_ [_ F]]]]]]]]]. apply F in D. destruct D as [_ [pre [post [_ [D _]]]]]. exact D. Qed.
(** a claim of the area itself comes from a leaf that does not exclude the class *)
Lemma claims_not_excluded ord nord c tm st es all s u z v t' cl :
  set_order ord -> (forall l, Permutation (nord l) l) -> load_area c tm st es all s = Ok u -> well_formed st all s u ->
  g_exn (area_solutions ord nord u st es) = None -> In z (g_items (area_solutions ord nord u st es)) -> area_audit ord u z = Ok (v, t') -> In cl (own_claims v) ->
  (exists k r, part_of (u_result u) (NCourse k r) /\ r_path r = cl_by cl /\ ~ In (c_clbid (cl_course cl)) (r_excluded r)) \/
  (exists k i k' r, part_of (u_result u) (NProf k i (Some (k', r))) /\ r_path r = cl_by cl) \/
  (exists k q, part_of (u_result u) (NQuery k q) /\ q_path q = cl_by cl /\ (q_source q = QClaimed \/ ~ In (c_clbid (cl_course cl)) (q_excluded q))).
Proof.
  intros SO NO L WF G I A J. destruct (own_from_result _ _ _ _ _ A) as (r & t1 & AU & E). rewrite E in J. clear E.
  destruct (area_solutions_exact ord nord u st es G) as [_ FT]. destruct (for_transcripts_in _ _ _ _ _ _ _ _ _ FT I) as [lt [IL [EC [G' IS]]]].
  destruct (loaded_area_is_unaudited _ _ _ _ _ _ _ L) as [RT U]. assert (TT := loaded_siblings _ _ _ _ _ _ _ L WF). destruct WF as (_ & _ & _ & CQ).
  destruct (claim_top ord nord (z_ctx z) NO (u_result u) RT U TT _ _ _ _ _ G' IS AU J) as (a & LF & C & B). rewrite C, B.
  apply (leaf_not_excluded ord (z_ctx z) es); auto; rewrite EC; [apply limited_keyed|reflexivity].
Qed.
(** the rule at [p] is the course of a proficiency, or a query over the courses claimed
    already *)
Definition not_held_back (n : node) (p : path) : Prop :=
  (exists k i k' r, part_of n (NProf k i (Some (k', r))) /\ r_path r = p) \/
  (exists k q, part_of n (NQuery k q) /\ q_path q = p /\ q_source q = QClaimed).
(** A class that an exception blocks at a rule is not claimed there, unless this is the course
    of a proficiency or a query over claimed courses. *)
Theorem blocked_classes_are_not_claimed :
  forall ord nord c tm st es all s u z v t' cl e,
  set_order ord -> (forall l, Permutation (nord l) l) -> load_area c tm st es all s = Ok u -> well_formed st all s u ->
  g_exn (area_solutions ord nord u st es) = None -> In z (g_items (area_solutions ord nord u st es)) -> area_audit ord u z = Ok (v, t') ->
  In e es -> ex_act e = ABlock (c_clbid (cl_course cl)) -> ex_path e = cl_by cl ->
  In cl (own_claims v) -> not_held_back (u_result u) (cl_by cl).
Proof.
  intros ord nord c tm st es all s u z v t' cl e SO NO L WF G I A IE AB PE J.
  assert (BL : In (c_clbid (cl_course cl)) (blocks_at es (cl_by cl))).
  { unfold blocks_at. apply in_flat_map. exists e. split; [exact IE|]. rewrite AB. destruct (list_eq_dec string_dec (ex_path e) (cl_by cl)); [left; reflexivity|contradiction]. }
  destruct (area_top _ _ _ _ _ _ _ L) as (ks & n & d & adds & EU & _).
  destruct (claims_not_excluded _ _ _ _ _ _ _ _ _ _ _ _ _ SO NO L WF G I A J) as [(k & r & P & E & N)|[(k & i & k' & r & P & E)|(k & q & P & E & [N|N])]].
  - exfalso. rewrite EU in P. apply part_keep in P. destruct P as (m & _ & EM). destruct m; try discriminate EM. injection EM as -> ->. apply N. cbn [r_excluded c_without]. apply in_app_iff. right. cbn [r_path c_without] in E. rewrite E. exact BL.
  - left. eauto 6.
  - right. eauto.
  - exfalso. rewrite EU in P. apply part_keep in P. destruct P as (m & _ & EM). destruct m; try discriminate EM. injection EM as -> ->. apply N. cbn [q_excluded q_without]. rewrite !in_app_iff. right. right. cbn [q_path q_without] in E. rewrite E. exact BL.
Qed.
Print Assumptions blocked_classes_are_not_claimed.
(** A class that a course rule requires is claimed by course rules only, or by queries over
    claimed courses. *)
Theorem required_classes_are_kept :
  forall ord nord c tm st es all s u chosen n cs z v t' cl x,
  set_order ord -> (forall l, Permutation (nord l) l) -> plain_departments st -> loaded_as c tm st es all s u chosen n cs -> well_formed st all s u ->
  g_exn (area_solutions ord nord u st es) = None -> In z (g_items (area_solutions ord nord u st es)) -> area_audit ord u z = Ok (v, t') ->
  requires (load_ctx st es) n x -> c_clbid x = c_clbid (cl_course cl) ->
  In cl (own_claims v) ->
  (exists r, course_leaf (u_result u) r /\ r_path r = cl_by cl) \/
  (exists k q, part_of (u_result u) (NQuery k q) /\ q_path q = cl_by cl /\ q_source q = QClaimed).
Proof.
  intros ord nord c tm st es all s u chosen n cs z v t' cl x SO NO PD LA WF G I A RQ EX J.
  assert (L : load_area c tm st es all s = Ok u) by (apply area_loaded_exactly; eauto).
  destruct (claims_not_excluded _ _ _ _ _ _ _ _ _ _ _ _ _ SO NO L WF G I A J) as [(k & r & P & E & N)|[(k & i & k' & r & P & E)|(k & q & P & E & [N|N])]].
  - left. exists r. split; [left; eauto|exact E].
  - left. exists r. split; [right; eauto|exact E].
  - right. eauto.
  - exfalso. assert (EU := la_result _ _ _ _ _ _ _ _ _ _ LA). assert (R := la_required _ _ _ _ _ _ _ _ _ _ LA). rewrite EU in P. apply part_keep in P. destruct P as (m & _ & EM). destruct m; try discriminate EM.
    injection EM as -> ->. apply N. cbn [q_excluded q_without]. rewrite !in_app_iff. right. left. apply in_map_iff. exists x. split; [exact EX|]. apply (required_courses_exact _ _ _ R). exact RQ.
Qed.
Print Assumptions required_classes_are_kept.

(** ** C104 *)

Lemma kids_emphasis cx c tm ems sc p i es ns : kids cx c tm ems sc p i es ns -> forall s k, In (EEmphasis s k) es -> s <> "" ->
  exists b n, In n ns /\ with_added sc ems k = Some b /\ written_body cx c tm b k (p ++ [".emphasis"]) n.
Proof.
  induction 1 as [ems sc p i|ems sc p i e es n ns W K IH|ems sc p i e es ns W K IH]; intros s k I NE; [destruct I| |].
  - destruct I as [->|I].
    + inversion W; subst. destruct s as [|a s]; [contradiction|]. cbn [entry_path] in *. do 2 eexists. split; [left; reflexivity|]. split; eassumption.
    + destruct (IH s k I NE) as (b & m & A & B). exists b, m. split; [right; exact A|exact B].
  - destruct I as [->|I]; [inversion W|]. eauto.
Qed.
Lemma with_added_once ems : forall sc n k b, NoDup (map (fun a : added => snd (fst a)) ems) -> In (n, k, b) ems -> with_added sc ems k = Some b.
Proof.
  induction ems as [|[[n' k'] b'] t IH]; intros sc n k b N I; [destruct I|]. cbn [map fst snd] in N. inversion N as [|? ? NI N']; subst. cbn [with_added]. destruct I as [E|I].
  - injection E as -> -> ->. clear IH N N'. assert (X : forall sc, sc k = Some b -> with_added sc t k = Some b).
    { induction t as [|[[n1 k1] b1] t IH]; intros sc' E; [exact E|]. cbn [with_added]. apply IH; [intro J; apply NI; right; exact J|]. cbn. destruct (String.eqb_spec k k1) as [->|]; [|exact E]. exfalso. apply NI. left. reflexivity. }
    apply X. rewrite String.eqb_refl. reflexivity.
  - apply (IH _ n); assumption.
Qed.
(** the rule at the top asks for all of a list *)
Definition asks_for_all (s : aspec) : Prop := exists d k l, ar_result s = Some d /\ first_shape d (ShCount k) /\ rk_all k = Some l.
(** Then the tree asks for all its children, and the requirements a declared emphasis adds
    are among them. *)
Theorem declared_emphases_are_asked_for :
  forall c tm st es all s u, load_area c tm st es all s = Ok u -> well_formed st all s u -> asks_for_all s ->
  exists i items, u_result u = NCount KRule i items /\ n_path i = ["$"; ".count"] /\ n_count i = Z.of_nat (List.length items) /\
  forall e, In e (ar_emphases s) -> (declared st e \/ all = true) -> exists adds, emphasis_adds e adds /\
  forall name key b, In (name, key, b) adds -> name <> "" ->
  exists x ks, In (keep_out ks (blocks_at es) x) items /\ written_body (load_ctx st es) c tm b key ["$"; ".count"; ".emphasis"] x.
Proof.
  intros c tm st es all s u L (DN & DR & _) (d & k & l & AR & SH & AL). unfold load_area in L.
  destruct (mapr _ (ar_emphases s)) as [x|] eqn:V; cbn [bind] in L; [|discriminate]. destruct (load_top _ _ _ _ _ _) as [n|] eqn:LT; cbn [bind] in L; [|discriminate].
  destruct (required_of _ n) as [cs|] eqn:R; cbn [bind] in L; [|discriminate]. destruct (LimitLoad.load_limits _ c _) as [lims|] eqn:LM; cbn [bind] in L; [|discriminate]. destruct (ar_bad s) eqn:B; [discriminate|]. destruct (prepare_common _ _ _ _ _ _ _) as [common|] eqn:C; cbn [bind] in L; [|discriminate].
  injection L as <-. cbn [u_result]. rewrite result_kept. apply load_top_exact in LT. destruct LT as (d' & adds & E & _ & F & W). rewrite AR in E. injection E as <-.
  specialize (F (ex_intro _ k SH)). assert (ND : NoDup (map (fun a : added => snd (fst a)) (List.concat adds))).
  { eapply (added_keys_distinct (chosen_emphases st all (ar_emphases s))); [apply DN, picked_chosen| |exact F]. intros e I. apply DR. apply chosen_iff in I. apply I. }
  destruct SH as (S1 & S2 & S3 & S4 & S5).
  inversion W as [ems sc d0 p name H1|ems sc d0 p name r x0 H1|ems sc d0 p r x0 H1|ems sc d0 p r x0 H1|ems sc d0 p x0 cond t nt nf H1 H2 H3 H4 H5 H6 wv|ems sc d0 p x0 cond t nt nf H1|
    ems sc d0 p k' l' es' ins audits nodes z H1 H2 H3 H4 entries H5 H6 H7 H8 H9 H10|ems sc d0 p name b n0 H1|ems sc d0 p name b n0 H1]; subst; cbn [first_shape] in H1.
  all: try (exfalso; clear - H1 S1 S2 S3 S4 S5; intuition congruence; fail).
  destruct H1 as (_ & _ & _ & _ & E5). rewrite S5 in E5. injection E5 as <-. cbn [keep_out]. do 2 eexists. split; [reflexivity|]. split; [reflexivity|]. cbn [n_count]. rewrite map_length. split.
  { inversion H7 as [A|A|A|A|z' A]; subst; try reflexivity; exfalso; apply A; left; rewrite AL; discriminate. }
  intros e I D. assert (J : In e (chosen_emphases st all (ar_emphases s))) by (apply chosen_iff; auto). destruct (F2_in_l _ _ _ _ F J) as (a & Ia & EA). exists a. split; [exact EA|].
  intros name key b Ib NE. assert (IC : In (name, key, b) (List.concat adds)) by (apply in_concat; eauto).
  destruct (kids_emphasis _ _ _ _ _ _ _ _ _ H5 name key) as (b' & m & Im & WA & WB).
  - unfold entries. rewrite !in_app_iff. right. left. apply in_map_iff. exists (name, key, b). split; [reflexivity|exact IC].
  - exact NE.
  - rewrite (with_added_once _ _ _ _ _ ND IC) in WA. injection WA as <-. exists m, (map c_clbid cs). split; [apply in_map; exact Im|exact WB].
Qed.
Print Assumptions declared_emphases_are_asked_for.
Lemma top_listed ord nord cx l kd i items s : (forall l, Permutation (nord l) l) -> cx_exc cx = group_exceptions l -> siblings items -> (0 <= n_count i)%Z -> rule_tree (NCount kd i items) -> ~ waived_at l (n_path i) ->
  g_exn (fst (top_solutions ord nord cx [] (NCount kd i items))) = None -> In s (g_items (fst (top_solutions ord nord cx [] (NCount kd i items)))) ->
  exists out, s = NCount KSol (mkCount (n_path i) false (n_count i) (n_at_most i) (n_audits i)) out /\ Permutation (map path_of out) (map path_of items).
Proof.
  intros NO EX SB C0 RT W G I. cbn [top_solutions] in G, I. apply (waived_no cx l _ EX) in W.
  assert (PLAIN : n_audits i <> [] \/ (forall c, ~ usable cx items c) -> exists out, s = NCount KSol (mkCount (n_path i) false (n_count i) (n_at_most i) (n_audits i)) out /\ Permutation (map path_of out) (map path_of items)).
  { intro H. destruct (proj1 top_solutions_otherwise ord nord cx [] i items (or_intror H) (proj1 SB)) as [E _]. rewrite <- (E kd) in I, G.
    destruct (count_solution_lists_every_child_once ord cx l kd i items s EX SB C0) as (out & _ & _ & -> & P & _); eauto.
    - apply Forall_forall. intros x J. apply RT. eapply pt_count; [exact J|constructor].
    - apply (waived_no cx l _ EX). exact W. }
  destruct (n_audits i) eqn:NA; [|apply PLAIN; left; discriminate].
  destruct (filter (has_potential cx) items) as [|u0 us] eqn:US.
  { apply PLAIN. right. intros c [Ic P]. apply potential_iff in P. assert (K : In c (filter (has_potential cx) items)) by (apply filter_In; auto). rewrite US in K. destruct K. }
  assert (NE : filter (has_potential cx) items <> []) by (rewrite US; discriminate).
  destruct (top_count_ok ord nord cx i items NO SB C0 W NA NE [] s G) as [TC _]. apply TC in I. destruct I as (chosen & out & m & ls & _ & _ & _ & _ & ST & PE & _ & ->).
  exists out. rewrite NA. split; [reflexivity|]. rewrite <- (Permutation_map path_of PE). assert (X : map path_of ls = map path_of items); [|rewrite X; reflexivity].
  clear - ST. induction ST as [|c c' cs cs' H ST IH]; [reflexivity|]. cbn [map]. f_equal; [|exact IH].
  destruct H as [[_ (ta & z & SE)]|[[_ [_ IS]]|[_ [_ ->]]]]; [|apply (solutions_keep _ _ _ _ IS)|reflexivity].
  apply selected_in in SE. destruct SE as (s' & q & IS & CA & _). rewrite (audit_path _ _ _ _ _ _ CA). apply (solutions_keep _ _ _ _ IS).
Qed.
Lemma audit_each_paths ord cx : forall out t rs t', audit_each (audit ord cx) t out = Ok (rs, t') -> map path_of rs = map path_of out.
Proof.
  induction out as [|x out IH]; intros t rs t' E; cbn [audit_each] in E; [injection E as <- <-; reflexivity|].
  match type of E with bind ?z _ = _ => destruct z as [[y t1]|] eqn:A end; cbn [bind] in E; [|discriminate].
  destruct (audit_each (audit ord cx) t1 out) as [[ys t2]|] eqn:B; cbn [bind] in E; [|discriminate]. injection E as <- <-. cbn [map]. f_equal; [|eapply IH; eauto].
  destruct (kind_of x); try (injection A as <- _; reflexivity). eapply audit_path; eauto.
Qed.
Lemma all_of_count k i items : n_overridden i = false -> (Z.of_nat (List.length items) <= n_count i)%Z -> passing (status_of (NCount k i items)) -> forall x, In x items -> passing (status_of x).
Proof.
  intros O L P. destruct (proj1 (count_passes_only_with_enough k i items O) P) as [(chosen & SUB & LC & F) _]. replace items with chosen; [exact F|].
  apply subseq_length_eq; [exact SUB|]. assert (LS := subseq_length _ _ SUB). lia.
Qed.
(** Such an area passes only if for each child of its tree there is a passing result at the
    path of the child; a major also needs the common block. *)
Theorem passing_areas_pass_in_all_parts :
  forall ord nord c tm st es all s u z v t',
  set_order ord -> (forall l, Permutation (nord l) l) -> load_area c tm st es all s = Ok u -> well_formed st all s u -> asks_for_all s ->
  ~ waived_at es ["$"; ".count"] ->
  g_exn (area_solutions ord nord u st es) = None -> In z (g_items (area_solutions ord nord u st es)) -> area_audit ord u z = Ok (v, t') ->
  passing (area_status v) ->
  exists i items k j results, u_result u = NCount KRule i items /\ v_result v = NCount k j results /\
    (forall x, In x items -> exists y, In y results /\ path_of y = path_of x /\ passing (status_of y)) /\
    (u_kind u = "major" -> exists r common, audit_common ord u (z_ctx z) r = Ok common /\ passing (status_of common) /\ claims_of r = own_claims v).
Proof.
  intros ord nord c tm st es all s u z v t' SO NO L WF AF NW G I A P.
  destruct (declared_emphases_are_asked_for _ _ _ _ _ _ _ L WF AF) as (i & items & EU & PI & NC & _).
  destruct (area_solutions_exact ord nord u st es G) as [_ FT]. destruct (for_transcripts_in _ _ _ _ _ _ _ _ _ FT I) as [lt [IL [EC [G' IS]]]].
  destruct (loaded_area_is_unaudited _ _ _ _ _ _ _ L) as [RT U]. assert (TT := loaded_siblings _ _ _ _ _ _ _ L WF). rewrite EU in *.
  destruct (TT KRule i items (hd_self _)) as [SB C0]. rewrite <- PI in NW. assert (EX : cx_exc (z_ctx z) = group_exceptions es) by (rewrite EC; reflexivity).
  destruct (top_listed ord nord (z_ctx z) es KRule i items (z_sol z) NO EX SB C0 RT NW G' IS) as (out & ES & PE).
  assert (LEN : List.length out = List.length items) by (rewrite <- (map_length path_of out), (Permutation_length PE); apply map_length).
  destruct (own_from_result _ _ _ _ _ A) as (r0 & t0 & AU0 & OC).
  apply area_audit_exact in A. destruct A as (r & AU & VA & VC & K). rewrite AU in AU0. injection AU0 as <- <-. rewrite ES in AU. cbn [audit n_overridden] in AU.
  destruct (audit_each (audit ord (z_ctx z)) (z_claims z) out) as [[rs t1]|] eqn:AE; cbn [bind] in AU; [|discriminate].
  match type of AU with bind ?x _ = _ => destruct x as [cls|]; cbn [bind] in AU; [|discriminate] end. injection AU as <- <-.
  assert (PA := audit_each_paths _ _ _ _ _ _ AE). assert (LR : List.length rs = List.length items) by (rewrite <- LEN, <- (map_length path_of rs), PA; apply map_length).
  assert (FIND : forall ys, (forall y, In y rs -> In y ys) -> (forall y, In y ys -> passing (status_of y)) -> forall x, In x items -> exists y, In y ys /\ path_of y = path_of x /\ passing (status_of y)).
  { intros ys IN PS x Ix. assert (J : In (path_of x) (map path_of rs)) by (rewrite PA; apply (Permutation_in _ (Permutation_sym PE)); apply in_map; exact Ix).
    apply in_map_iff in J. destruct J as (y & E & J). exists y. auto. }
  unfold area_status in P. destruct K as [[NM VR]|[MJ (k & j & its & common & ER & CM & VR)]]; rewrite VR in P |- *.
  - cbn [node_waived overridden n_overridden] in P. exists i, items. do 3 eexists. split; [reflexivity|]. split; [reflexivity|]. split; [|intro M; contradiction].
    apply FIND; [auto|]. revert P. apply all_of_count; [reflexivity|]. cbn [n_count]. lia.
  - injection ER as <- <- <-. cbn [node_waived overridden n_overridden] in P.
    assert (PS : forall y, In y (rs ++ [common]) -> passing (status_of y)) by (revert P; apply all_of_count; [reflexivity|]; cbn [n_count]; rewrite app_length; cbn [List.length]; lia).
    exists i, items. do 3 eexists. split; [reflexivity|]. split; [reflexivity|]. split.
    + apply FIND; [intros y J; apply in_app_iff; auto|exact PS].
    + intros _. do 2 eexists. split; [exact CM|]. split; [apply PS, in_app_iff; right; left; reflexivity|]. symmetry. exact OC.
Qed.
Print Assumptions passing_areas_pass_in_all_parts.

(** ** C105 *)

(** A major whose top rule asks for all of a list passes only if the courses it uses amount to
    six credits at a C or better, at most one of them (none in music) is taken S/U, and, but
    in music, enough credits are from outside the department. *)
Theorem passing_majors_meet_the_common_demands :
  forall ord nord c tm st es all s u z v t',
  set_order ord -> (forall l, Permutation (nord l) l) -> load_area c tm st es all s = Ok u -> well_formed st all s u -> asks_for_all s ->
  plain_departments st -> ar_type s = Some "major" -> ~ waived_at es ["$"; ".count"] -> no_common_exceptions es ->
  g_exn (area_solutions ord nord u st es) = None -> In z (g_items (area_solutions ord nord u st es)) -> area_audit ord u z = Ok (v, t') ->
  passing (area_status v) ->
  exists used, NoDup used /\ (forall x, In x used <-> exists cl, In cl (own_claims v) /\ cl_failed cl = false /\ cl_course cl = x) /\
    six_credits used /\
    ((ar_degree s = Some "B.M." /\ few_su true used) \/
     (ar_degree s <> Some "B.M." /\ few_su false used /\
      exists dept code, code = or_default (ar_code s) "<null>" /\ department (t_areas st) code (Some dept) /\
        exists others, (forall k, In k others <-> exists a, In a (t_areas st) /\ a_code a = k /\ k <> code) /\ enough_outside dept code others (t_courses st))).
Proof.
  intros ord nord c tm st es all s u z v t' SO NO L WF AF PD TY NW NC G I A P.
  assert (LA := L). apply (area_loaded_exactly c tm st es all s u PD) in LA. destruct LA as (chosen & n & cs & LA).
  assert (UK : u_kind u = "major") by (rewrite (la_kind _ _ _ _ _ _ _ _ _ _ LA), TY; reflexivity).
  destruct (passing_areas_pass_in_all_parts _ _ _ _ _ _ _ _ _ _ _ _ SO NO L WF AF NW G I A P) as (_ & _ & _ & _ & _ & _ & _ & _ & MJ).
  destruct (MJ UK) as (r & common & CM & PC & OC). clear MJ.
  destruct (area_solutions_exact ord nord u st es G) as [_ FT]. destruct (for_transcripts_in _ _ _ _ _ _ _ _ _ FT I) as [lt [IL [EC _]]].
  assert (DP := la_dept _ _ _ _ _ _ _ _ _ _ LA).
  assert (CO := la_code _ _ _ _ _ _ _ _ _ _ LA).
  destruct (common_block_demands ord u (load_ctx st es) (z_ctx z) c tm es (u_dept u) (t_areas st) (u_code u) r common SO (la_common _ _ _ _ _ _ _ _ _ _ LA) eq_refl) as (bm & claimed & BM & MC & D); auto.
  - rewrite EC. reflexivity.
  - apply (department_plain st (u_code u)); assumption.
  - apply D in PC. clear D. destruct PC as (D6 & DS & DO).
    exists claimed. destruct MC as [ND MC]. split; [exact ND|]. split; [intro x; rewrite MC, <- OC; split; intros (cl & A1 & A2); exists cl; (split; [apply claims_exact; exact A1|exact A2])|]. split; [exact D6|].
    rewrite (la_degree _ _ _ _ _ _ _ _ _ _ LA) in BM. destruct bm.
    + left. split; [apply BM; reflexivity|exact DS].
    + right. split; [intro E; apply BM in E; discriminate|]. split; [exact DS|]. destruct DO as [DO|(dept & ED & DO)]; [discriminate|].
      exists dept, (u_code u). split; [exact CO|]. rewrite ED in DP. split; [exact DP|]. eexists. split; [|rewrite EC in DO; exact DO].
      intro k. rewrite in_map_iff. split.
      * intros (a & E & J). apply filter_In in J. destruct J as [J N]. apply negb_true_iff, String.eqb_neq in N. exists a. split; [exact J|]. split; [exact E|congruence].
      * intros (a & J & E & N). exists a. split; [exact E|]. apply filter_In. split; [exact J|]. apply negb_true_iff, String.eqb_neq. congruence.
Qed.
Print Assumptions passing_majors_meet_the_common_demands.

(** ** C106 *)

(** An emphasis that is not declared only has to be valid; otherwise it changes nothing. *)
Definition with_emphases (s : aspec) (l : list emphasis) : aspec :=
  mkAspec (ar_name s) (ar_type s) (ar_degree s) (ar_code s) l (ar_result s) (ar_reqs s) (ar_limit s) (ar_multi s) (ar_bad s).
Theorem undeclared_emphases_change_nothing :
  forall c tm st es all s chosen, plain_departments st ->
  (forall e, In e (ar_emphases s) -> valid_alone c tm st e) ->
  picked (fun e => declared st e \/ all = true) (ar_emphases s) chosen ->
  load_area c tm st es all s = load_area c tm st es all (with_emphases s chosen).
Proof.
  intros c tm st es all s chosen PD V CH. rewrite (picked_once _ _ _ _ CH (picked_chosen st all (ar_emphases s))). unfold load_area, with_emphases. cbn [ar_name ar_type ar_degree ar_code ar_emphases ar_result ar_reqs ar_limit ar_multi ar_bad].
  destruct (proj2 (all_valid c tm st (ar_emphases s) PD) V) as [x ->]. destruct (proj2 (all_valid c tm st (chosen_emphases st all (ar_emphases s)) PD)) as [y ->].
  { intros e I. apply V. apply chosen_iff in I. apply I. }
  cbn [bind]. assert (E : chosen_emphases st all (chosen_emphases st all (ar_emphases s)) = chosen_emphases st all (ar_emphases s)).
  { unfold chosen_emphases. generalize (ar_emphases s) as l. induction l as [|e l IH]; [reflexivity|]. cbn [filter]. destruct (_ || _)%bool eqn:B; [|exact IH]. cbn [filter]. rewrite B, IH. reflexivity. }
  rewrite E. reflexivity.
Qed.
Print Assumptions undeclared_emphases_change_nothing.
(** An invalid emphasis makes the area unusable also for those who have not declared it. *)
Theorem emphases_are_checked :
  forall c tm st es all s e, plain_departments st -> In e (ar_emphases s) -> ~ valid_alone c tm st e -> exists x, load_area c tm st es all s = Err x.
Proof.
  intros c tm st es all s e PD I N. destruct (load_area c tm st es all s) as [u|x] eqn:L; [|eauto]. exfalso. apply (area_loaded_exactly c tm st es all s u PD) in L.
  destruct L as (chosen & n & cs & L). apply N. exact (la_valid _ _ _ _ _ _ _ _ _ _ L e I).
Qed.
Print Assumptions emphases_are_checked.

(** ** Samples *)
Definition d_prof (n : string) (r : raw_course) : rdata := mkRd None (Some (n, Some r, false)) None None None None None None.
Definition any_course : rdata :=
  mkRd None None None (Some (mkRawQuery "courses" None None false (Some (mkRawAs None None None [("count(courses)", mkRawValue [(OGte, RInt 1)] [] false false false)])) None false None false false)) None None None None.
Definition four : list course := map (fun x => taken (fst x) (snd x) full GA GoGrade false) [("1", "A"); ("2", "B"); ("3", "C"); ("4", "D")].
(** the claims in the results of all solutions *)
Definition seen (s : aspec) (st : student) (es : list exc) : option (list (list (string * path))) :=
  match load_area sample_const [] st es false s with
  | Ok u => let g := area_solutions (fun l => l) (fun l => l) u st es in
            match g_exn g with
            | None => Some (map (fun z => match area_audit (fun l => l) u z with Ok (v, _) => map (fun cl => (c_clbid (cl_course cl), cl_by cl)) (own_claims v) | Err _ => [] end) (g_items g))
            | Some _ => None end
  | Err _ => None end.
Definition mixed : aspec := sample_area (d_all [d_ref "Core"; d_prof "Guitar" (CourseRuleProps.by_id "C 1"); d_course "B 1"; any_course]) [].
(** the classes required by course rules are not used by the query; blocked classes are not
    used where they are blocked, except for a proficiency *)
Example claims_example :
  seen mixed (enrolled [] four) [] =
    Some [[("1", ["$"; ".count"; "[0]"; "%Core"; "*A 1"]); ("3", ["$"; ".count"; "[1]"; ".proficiency=Guitar"; "*C 1"]);
           ("2", ["$"; ".count"; "[2]"; "*B 1"]); ("4", ["$"; ".count"; "[3]"; ".query"])]] /\
  seen mixed (enrolled [] four) [mkExc ["$"; ".count"; "[1]"; ".proficiency=Guitar"; "*C 1"] (ABlock "3"); mkExc ["$"; ".count"; "[3]"; ".query"] (ABlock "4")] =
    Some [[("1", ["$"; ".count"; "[0]"; "%Core"; "*A 1"]); ("3", ["$"; ".count"; "[1]"; ".proficiency=Guitar"; "*C 1"]);
           ("2", ["$"; ".count"; "[2]"; "*B 1"])]] /\
  seen mixed (enrolled [] four) [mkExc ["$"; ".count"; "[2]"; "*B 1"] (ABlock "2"); mkExc ["$"; ".count"; "[3]"; ".query"] (ABlock "4")] =
    Some [[("1", ["$"; ".count"; "[0]"; "%Core"; "*A 1"]); ("3", ["$"; ".count"; "[1]"; ".proficiency=Guitar"; "*C 1"])]].
Proof. vm_compute. repeat split; reflexivity. Qed.
Definition statuses (s : aspec) (st : student) (es : list exc) : list (option (status * list status)) :=
  match load_area sample_const [] st es false s with
  | Ok u => map (fun z => match area_audit (fun l => l) u z with Ok (v, _) => Some (area_status v, match v_result v with NCount _ _ l => map status_of l | _ => [] end) | Err _ => None end)
                (g_items (area_solutions (fun l => l) (fun l => l) u st es))
  | Err _ => [] end.
Definition big (k sub : string) : course := taken k sub (mkDec 9 0) GA GoGrade false.
(** a major with a declared emphasis; without the class for the emphasis, with a lower grade
    and without enough courses outside of the department it does not pass *)
Example passing_example :
  let areas := [pointer AkMajor "100"; pointer AkEmphasis "203"] in
  let s := sample_area (d_all [d_ref "Core"]) [one; three] in
  statuses s (enrolled areas [big "1" "A"; big "2" "F"; big "3" "X"; big "4" "C"]) [] = [Some (Done, [Done; Done; Done])] /\
  statuses s (enrolled areas [big "1" "A"; big "3" "C"; big "4" "D"]) [] = [Some (NeedsMoreItems, [Done; Empty; Done])] /\
  statuses s (enrolled areas [taken "1" "A" (mkDec 9 0) GD GoGrade false; taken "2" "F" full GA GoGrade false; big "3" "C"; big "4" "D"]) [] = [Some (NeedsMoreItems, [Done; Done; NeedsMoreItems])] /\
  statuses s (enrolled areas [big "1" "A"; big "2" "F"; big "3" "X"]) [] = [Some (NeedsMoreItems, [Done; Done; NeedsMoreItems])].
Proof. vm_compute. repeat split; reflexivity. Qed.


(** no limits, no declarations of disjointness: a check that can be computed *)
Fixpoint plain_tree (n : node) : bool :=
  match n with
  | NCourse _ _ | NProf _ _ _ => true
  | NQuery _ q => match q_limit q with [] => true | _ => false end
  | NCount _ _ l => forallb plain_tree l
  | NReq _ i o => match e_disjoint i with None => true | _ => false end && match o with Some x => plain_tree x | None => true end
  | NCond _ _ t f => plain_tree t && match f with Some x => plain_tree x | None => true end
  end.
Lemma plain_part n x : part_of n x -> plain_tree n = true -> plain_tree x = true.
Proof.
  induction 1 as [n|k i items x y I P IH|k i x y P IH|k i t f y P IH|k i t x y P IH]; cbn [plain_tree]; intro H; auto; try (apply andb_true_iff in H; apply IH, H).
  apply IH. eapply forallb_forall in H; [exact H|exact I].
Qed.
Lemma plain_disjoint b n : declares b n -> plain_tree n = true -> False.
Proof. induction 1 as [k i o E|k i x D IH]; cbn [plain_tree]; intro H; apply andb_true_iff in H; destruct H as [H1 H2]; [rewrite E in H1; discriminate|auto]. Qed.
(** the hypotheses of the theorems above are met there *)
Example well_formed_example :
  exists u, load_area sample_const [] (enrolled [] four) [] false mixed = Ok u /\ well_formed (enrolled [] four) false mixed u /\ one_disjoint (u_result u) /\ asks_for_all mixed /\
    plain_departments (enrolled [] four) /\ u_kind u = "major".
Proof.
  destruct (load_area sample_const [] (enrolled [] four) [] false mixed) as [u|] eqn:L; [|vm_compute in L; discriminate]. exists u. split; [reflexivity|].
  assert (PT : plain_tree (u_result u) = true) by (vm_compute in L; injection L as <-; vm_compute; reflexivity).
  assert (NL : u_limit u = []) by (vm_compute in L; injection L as <-; reflexivity).
  split; [|split; [|split; [|split]]].
  - split; [|split; [|split]].
    + intros chosen CH. rewrite (picked_once _ _ _ _ CH (picked_chosen _ _ _)). cbn. split; [constructor|intros a b n m t []].
    + intros e [].
    + rewrite NL. intros l1 l2 [].
    + intros k q P. apply plain_part in P; [|exact PT]. cbn [plain_tree] in P. destruct (q_limit q); [intros l1 l2 []|discriminate].
  - intros k i items H x y Ix Iy NE [D _]. apply (plain_disjoint _ _ D). apply (plain_part (u_result u)); [|exact PT].
    apply heads_part in H. clear - H Ix. remember (NCount k i items) as m eqn:E. induction H as [n|k1 i1 l1 x1 y1 I1 P1 IH|k1 i1 x1 y1 P1 IH|k1 i1 t1 f1 y1 P1 IH|k1 i1 t1 x1 y1 P1 IH]; [subst n; eapply pt_count; [exact Ix|constructor]|eapply pt_count; eauto|apply pt_req; auto|apply pt_true; auto|apply pt_false; auto].
  - do 3 eexists. split; [reflexivity|]. split; [cbn; auto 6|reflexivity].
  - intros a d [].
  - vm_compute in L. injection L as <-. reflexivity.
Qed.

(** ** C103 *)

(** A class inserted at a count of the area is a child of it, unless the area is refused. *)
Theorem insertions_are_children_of_areas :
  forall c tm st es all s u, load_area c tm st es all s = Ok u ->
  forall e clbid f k i items, In e es -> ex_act e = AInsert clbid f -> ex_path e = n_path i -> part_of (u_result u) (NCount k i items) ->
  exists x, In x items /\ inserted_child clbid f x.
Proof.
  intros c tm st es all s u L e clbid f k i items I A EP P. destruct (area_top _ _ _ _ _ _ _ L) as (ks & n & d & adds & EU & _ & _ & LR & _).
  rewrite EU in P. apply part_keep in P. destruct P as (m & P & E). destruct m as [| |k' i' items'| | |]; try discriminate E. injection E as -> -> ->.
  destruct (insertion_is_a_child c tm _ _ _ _ _ (load_ctx st es) es eq_refl LR e clbid f _ _ _ I A EP P) as (x & crs & J & FB & (r & -> & R1 & R2 & R3)).
  exists (keep_out ks (blocks_at es) (NCourse KRule r)). split; [apply in_map; exact J|]. cbn [keep_out]. eexists. split; [reflexivity|]. cbn. split; [|auto].
  rewrite R1. f_equal. unfold forced_by_clbid in FB. destruct (find_by_clbid _ clbid) as [y|] eqn:FE.
  - injection FB as ->. apply find_some in FE. apply String.eqb_eq. apply FE.
  - cbn in FB. discriminate.
Qed.
Print Assumptions insertions_are_children_of_areas.
Example insertion_example :
  result_places (load_area sample_const [] (enrolled [] four) [mkExc ["$"; ".count"] (AInsert "3" true)] false (sample_area (d_all [d_ref "Core"]) [])) =
    [["$"; ".count"]; ["$"; ".count"; "[0]"; "%Core"]; ["$"; ".count"; "[0]"; "%Core"; "*A 1"]; ["$"; ".count"; "[1]"; "*C 1"]].
Proof. vm_compute. reflexivity. Qed.

(** ** Emphases that go wrong *)

(** A valid emphasis can make the area unusable for those who declare it. *)
Definition valid_emphases_can_be_declared : Prop :=
  forall c tm st es all s, plain_departments st -> (forall e, In e (ar_emphases s) -> valid_alone c tm st e) -> (forall e, In e (ar_emphases s) -> em_name e <> None) ->
  (exists u, load_area c tm (mkStudent (t_courses st) (t_failed st) [] (t_perf st) (t_slips st) (t_prof st)) es all s = Ok u) ->
  exists u, load_area c tm st es all s = Ok u.
Definition bare : emphasis := emph "205" "Bare" (body (Some (d_course "F 1")) None).
Theorem valid_emphases_can_be_declared_refuted :
  ~ valid_emphases_can_be_declared /\
  load_area sample_const [] (enrolled [pointer AkEmphasis "205"] []) [] false (sample_area (d_all [d_ref "Core"]) [bare]) = Err KeyErr /\
  load_area sample_const [] (enrolled [pointer AkEmphasis "201"] []) [] false (sample_area (d_both [d_ref "Core"; d_course "B 1"]) [one]) = Err AssertErr.
Proof.
  split; [|vm_compute; split; reflexivity]. intro H.
  destruct (H sample_const [] (enrolled [pointer AkEmphasis "205"] []) [] false (sample_area (d_all [d_ref "Core"]) [bare])) as [u E].
  - intros a d [<-|[]] E; injection E as <-; reflexivity.
  - intros e [<-|[]]. apply valid_iff; [|exists tt; vm_compute; reflexivity]. intros a d [<-|[]] E; injection E as <-; reflexivity.
  - intros e [<-|[]]. discriminate.
  - eexists. vm_compute. reflexivity.
  - vm_compute in E. discriminate.
Qed.
Print Assumptions valid_emphases_can_be_declared_refuted.
(** An emphasis of an area that asks for fewer than all children can be left out. *)
Definition declared_emphases_are_needed : Prop :=
  forall ord nord c tm st es s u z v t' e adds,
  set_order ord -> (forall l, Permutation (nord l) l) -> load_area c tm st es false s = Ok u -> well_formed st false s u ->
  g_exn (area_solutions ord nord u st es) = None -> In z (g_items (area_solutions ord nord u st es)) -> area_audit ord u z = Ok (v, t') -> passing (area_status v) ->
  ~ waived_at es ["$"; ".count"] -> In e (ar_emphases s) -> declared st e -> emphasis_adds e adds ->
  forall k j results name key b, v_result v = NCount k j results -> In (name, key, b) adds ->
  exists y, In y results /\ path_of y = ["$"; ".count"; ".emphasis"; "%" ++ key]%string /\ passing (status_of y).
Definition optional : aspec :=
  mkAspec (Some "Sample") (Some "concentration") None (Some "100") [three] (Some (d_any [d_ref "Core"])) (Some [("Core", AreaLoadProps.need "A 1")]) None [] false.
Lemma optional_passes :
  let st := enrolled [pointer AkEmphasis "203"] four in
  match load_area sample_const [] st [] false optional with
  | Ok u =>
    g_exn (area_solutions same_order keep u st []) = None /\
    match g_items (area_solutions same_order keep u st []) with
    | z :: _ => match area_audit same_order u z with
                | Ok (v, _) => match v_result v with
                               | NCount _ _ results => area_status v = Done /\
                                   map (fun y => (path_of y, status_of y)) results = [(["$"; ".count"; "[0]"; "%Core"], Done); (["$"; ".count"; ".emphasis"; "%Emphasis: Three"], Empty)]
                               | _ => False end
                | Err _ => False end
    | [] => False end
  | Err _ => False end.
Proof. vm_compute. auto. Qed.
Theorem declared_emphases_are_needed_refuted : ~ declared_emphases_are_needed.
Proof.
  intro H. set (st := enrolled [pointer AkEmphasis "203"] four).
  destruct (load_area sample_const [] st [] false optional) as [u|] eqn:L; [|vm_compute in L; discriminate].
  assert (PT : plain_tree (u_result u) = true) by (vm_compute in L; injection L as <-; vm_compute; reflexivity).
  assert (NL : u_limit u = []) by (vm_compute in L; injection L as <-; reflexivity).
  assert (Z : exists z v t' k j results, g_exn (area_solutions same_order keep u st []) = None /\ In z (g_items (area_solutions same_order keep u st [])) /\ area_audit same_order u z = Ok (v, t') /\ area_status v = Done /\
    v_result v = NCount k j results /\ map (fun y => (path_of y, status_of y)) results = [(["$"; ".count"; "[0]"; "%Core"], Done); (["$"; ".count"; ".emphasis"; "%Emphasis: Three"], Empty)]).
  { assert (O := optional_passes). cbv zeta in O. fold st in O. rewrite L in O. destruct O as [G O]. destruct (g_items _) as [|z zs]; [destruct O|]. destruct (area_audit same_order u z) as [[v t']|] eqn:A; [|destruct O].
    destruct (v_result v) as [| |k j results| | |] eqn:V; try (destruct O; fail). destruct O as [O1 O2]. exists z, v, t', k, j, results. repeat (split; [auto; left; reflexivity|]). exact O2. }
  destruct Z as (z & v & t' & k & j & results & G & I & A & S & R & ST).
  destruct (H same_order keep sample_const [] st [] optional u z v t' three [("Three", "Emphasis: Three", em_body three)]) with (k := k) (j := j) (results := results) (name := "Three") (key := "Emphasis: Three") (b := em_body three) as (y & Iy & PY & PS); auto.
  - intro l. apply Permutation_refl.
  - split; [|split; [|split]].
    + intros chosen CH. rewrite (picked_once _ _ _ _ CH (picked_chosen _ _ _)). assert (V : chosen_emphases st false (ar_emphases optional) = [three]) by (vm_compute; reflexivity). rewrite V. split; [repeat constructor; intros []|].
      intros a b n m t [<-|[]] [<-|[]] E1 E2. injection E1 as <-. injection E2 as <-. discriminate.
    + intros e [<-|[]] l E. discriminate E.
    + rewrite NL. intros l1 l2 [].
    + intros k' q P. apply plain_part in P; [|exact PT]. cbn [plain_tree] in P. destruct (q_limit q); [intros l1 l2 []|discriminate].
  - rewrite S. left. unfold complete. auto.
  - intro W. apply W. intros e [].
  - left. reflexivity.
  - exists (pointer AkEmphasis "203"). split; [left; reflexivity|]. split; reflexivity.
  - apply (ea_whole three "Three" (d_all [d_course "F 1"])); [reflexivity|reflexivity|]. right. split; [reflexivity|]. do 2 eexists. split; [reflexivity|]. split; [reflexivity|]. left. intros x [<-|[]]. reflexivity.
  - left. reflexivity.
  - assert (J : In (path_of y, status_of y) (map (fun y => (path_of y, status_of y)) results)) by (apply (in_map (fun y => (path_of y, status_of y))); exact Iy). rewrite ST in J.
    rewrite PY in J. destruct J as [J|[J|[]]]; [discriminate|]. injection J as J. rewrite <- J in PS. destruct PS as [[PS|PS]|[PS|PS]]; discriminate.
Qed.
Print Assumptions declared_emphases_are_needed_refuted.
