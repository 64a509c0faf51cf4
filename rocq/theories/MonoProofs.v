(** A complete result is a way to meet the rule. *)
From Coq Require Import List ZArith QArith Bool String Lia Sorted Permutation.
From Verif Require Import Prelude Dec Status Course Claims Exceptions Op Context CondExpr Paths Predicate Limit Apply Assertion Query CourseRule Tree Solve.
From Verif Require Import ListFacts LimitSpec LimitProps ClaimsSpec ClaimsProofs AssertionSpec PathsSpec PathsProofs PredicateProofs ExceptionsProofs EnumSpec QuerySpec CourseRuleSpec CourseRuleProofs CourseRuleProps TreeSpec TreeProofs TreeStatusProps TreeSolSpec TreeSolProofs TreeSolProps TreeAskSpec TreeAskProps TreeAuditSpec TreeAuditProofs TreeAuditProps SolveSpec SolveProofs PlanSpec PlanProofs PlanTop MonoSpec MonoQuery.
Import ListNotations.
Local Open Scope list_scope.

Definition or_nil (o : option (list string)) : list string := match o with Some l => l | None => [] end.
Lemma each_back ord cx (Q : node -> list string -> Prop) out :
  (forall x, In x out -> kind_of x = KSol -> forall t r t', audit ord cx t x = Ok (r, t') -> complete (status_of r) -> exists ks, Q x ks /\ NoDup ks /\ newly t t' ks) ->
  (forall x, In x out -> kind_of x <> KSol -> ~ complete (status_of x)) ->
  forall t rs t', audit_each (audit ord cx) t out = Ok (rs, t') ->
  exists kos, Forall2 (fun x ko => forall ks, ko = Some ks -> kind_of x = KSol /\ Q x ks) out kos /\
    NoDup (List.concat (map or_nil kos)) /\ newly t t' (List.concat (map or_nil kos)) /\ grows t t' /\
    (forall n, tally (fun y => complete (status_of y)) rs n -> tally (fun ko => ko <> None) kos n).
Proof.
  induction out as [|x out IH]; intros HS HU t rs t' A.
  - cbn in A. injection A as <- <-. exists []. split; [constructor|]. split; [constructor|]. split; [intros k []|]. split; [apply grows_refl|]. intros n T. inversion T. constructor.
  - cbn [audit_each] in A. apply bind_ok in A. destruct A as [[y t1] [A1 A]]. apply bind_ok in A. destruct A as [[ys t2] [A2 A]]. injection A as <- <-.
    destruct (IH (fun z I => HS z (or_intror I)) (fun z I => HU z (or_intror I)) _ _ _ A2) as [kos [F [ND [NW [G T]]]]].
    assert (H : exists ko, (forall ks, ko = Some ks -> kind_of x = KSol /\ Q x ks) /\ NoDup (or_nil ko) /\ newly t t1 (or_nil ko) /\ grows t t1 /\ (complete (status_of y) <-> ko <> None)).
    { destruct (kind_of x) eqn:K.
      - injection A1 as <- <-. exists None. split; [discriminate|]. split; [constructor|]. split; [intros k []|]. split; [apply grows_refl|]. split; [intro C; exfalso; revert C; apply HU; simpl; auto; congruence|congruence].
      - assert (G1 := audit_grows _ _ _ _ _ _ A1). destruct (inS (status_of y) WAIVED_AND_DONE) eqn:E.
        + apply complete_iff in E. destruct (HS x (or_introl eq_refl) K _ _ _ A1 E) as [ks [H1 [H2 H3]]]. exists (Some ks). split; [intros ? H; injection H as <-; auto|]. split; [exact H2|]. split; [exact H3|]. split; [exact G1|]. split; [discriminate|auto].
        + exists None. split; [discriminate|]. split; [constructor|]. split; [intros k []|]. split; [exact G1|]. split; [intro C; apply complete_iff in C; congruence|congruence].
      - injection A1 as <- <-. exists None. split; [discriminate|]. split; [constructor|]. split; [intros k []|]. split; [apply grows_refl|]. split; [intro C; exfalso; revert C; apply HU; simpl; auto; congruence|congruence]. }
    destruct H as [ko [H1 [H2 [H3 [H4 H5]]]]]. exists (ko :: kos). split; [constructor; auto|]. cbn [map List.concat].
    destruct (newly_app t t1 t2 (or_nil ko) _ H4 G H2 ND H3 NW) as [N1 N2]. split; [exact N1|]. split; [exact N2|]. split; [eapply grows_trans; eauto|].
    intros n TT. inversion TT; subst; [apply t_yes; [tauto|auto]|apply t_no; [tauto|auto]].
Qed.
(** reading an aligned list as a function *)
Lemma f2_function {B} (d : B) (R : node -> B -> Prop) l m : NoDup (map path_of l) -> Forall2 R l m ->
  exists f : node -> B, m = map f l /\ forall x, In x l -> R x (f x).
Proof.
  intros ND F. induction F as [|x y l m H F IH]; [exists (fun _ => d); split; [reflexivity|intros x []]|].
  cbn in ND. inversion ND as [|? ? N1 N2]; subst. destruct (IH N2) as [f [-> HF]].
  exists (fun z => if path_eqb (path_of z) (path_of x) then y else f z).
  assert (NE : forall z, In z l -> path_eqb (path_of z) (path_of x) = false).
  { intros z I. destruct (path_eqb _ _) eqn:E; [|reflexivity]. apply path_eqb_iff in E. exfalso. apply N1. rewrite <- E. apply in_map. exact I. }
  assert (E0 : path_eqb (path_of x) (path_of x) = true) by (apply path_eqb_iff; reflexivity).
  split.
  - cbn [map]. rewrite E0. f_equal. apply map_ext_in. intros z I. rewrite (NE z I). reflexivity.
  - intros z [<-|I]; [rewrite E0; exact H|]. rewrite (NE z I). auto.
Qed.

(** ** courses *)
Lemma course_back ord cx l k r s t x t' : cx_multi cx = [] -> cx_exc cx = group_exceptions l -> year_has_term r -> g_exn (c_solutions cx r) = None ->
  r_optional r = false -> r_inserted r = false -> In s (g_items (c_solutions cx r)) -> c_audit (cx_multi cx) t s = Ok (x, t') -> complete (c_status KRes x) ->
  exists ks, meets ord cx l (NCourse k r) ks /\ NoDup ks /\ newly t t' ks.
Proof.
  intros MC EX Y N OP NI I A C. assert (FC := solved_not_from_claimed _ _ _ I). rewrite MC in A. apply (course_solutions_exact cx l r EX Y N) in I.
  assert (NODUP : forall b c, NoDup (uses_up b c)) by (intros b c; destruct b; repeat constructor; intros []).
  destruct I as [[W _]|[W I]].
  { exists []. split; [apply me_course_waived; exact W|]. split; [constructor|intros ? []]. }
  assert (AW : r_auto_waived r = false) by (destruct (r_auto_waived r); tauto). assert (W' : ~ waived_at l (r_path r)) by tauto. clear W.
  assert (X : r_overridden s = false -> forall c, r_matched s = Some c -> exists cl, x = c_result s (Some cl) false /\ make_claim [] t c (r_path s) (r_forced s || r_allow s) = Ok (cl, t')).
  { intros O c M. unfold c_audit in A. rewrite O, M, FC in A. cbn [andb] in A. apply bind_ok in A. destruct A as [[cl t1] [A1 A2]]. injection A2 as <- <-. eauto. }
  assert (CL : forall cl c p b, make_claim [] t c p b = Ok (cl, t') -> cl_course cl = c).
  { intros cl c p b M. unfold make_claim in M. destruct b; [injection M as <- _; reflexivity|]. destruct (dget t _) as [[|]|]; cbn in M; injection M as <- _; reflexivity. }
  assert (ST : forall cl, x = c_result s (Some cl) false -> r_optional s = false -> cl_failed cl = false /\ (r_inserted s = false -> c_in_progress (cl_course cl) = false)).
  { intros cl E OS. subst x. assert (CS := proj1 (course_result_status_exact _ _) (eq_refl (c_status KRes (c_result s (Some cl) false)))).
    revert CS C; generalize (c_status KRes (c_result s (Some cl) false)); intros st CS C; destruct CS as [[D E]|d D [cl' [E1 [E2 E3]]] F|d D U F|d D U F|D U F|D U F]; try (destruct C; discriminate).
    - split; [destruct (cl_failed cl) eqn:FL; [|reflexivity]; exfalso; apply D; exists cl; auto|]. intro IN. cbn in E. destruct E; congruence.
    - cbn in E1. injection E1 as <-. split; [exact E2|]. intros _. rewrite E3. exact F.
    - cbn in F. congruence. }
  destruct I as [[c [forced [IN [S [O [II FO]]]]]]|[[c [FI [AC [S [O [II FO]]]]]]|[[S [O [II FO]]] _]]];
    destruct S as (M & _ & _ & _ & _ & _ & _ & _ & _ & _ & _ & _ & _ & _ & AL & OPS & _); rewrite OP in OPS.
  - destruct (X O c M) as [cl [E MK]]. destruct (ST cl E OPS) as [CF _]. exists (uses_up (forced || r_allow r) (c_clbid c)).
    split; [eapply me_inserted; eauto|]. split; [apply NODUP|]. rewrite FO, AL in MK. eapply claim_back; eauto.
  - destruct (X O c M) as [cl [E MK]]. destruct (ST cl E OPS) as [CF IP]. exists (uses_up (r_allow r) (c_clbid c)).
    split; [apply (me_course ord cx l k r c); auto; rewrite <- (CL _ _ _ _ MK); apply IP; congruence|]. split; [apply NODUP|]. rewrite FO, AL in MK. eapply claim_back; eauto.
  - exfalso. unfold c_audit in A. rewrite O, M in A. injection A as <- <-. assert (CS := proj1 (course_result_status_exact _ _) (eq_refl (c_status KRes (c_result s None false)))).
    revert CS C; generalize (c_status KRes (c_result s None false)); intros st CS C; destruct CS as [[D E]|d D [cl' [E1 [E2 E3]]] F|d D U F|d D U F|D U F|D U F]; try (destruct C; discriminate).
    + cbn in E. destruct E; congruence.
    + cbn in F. congruence.
Qed.

(** ** the whole tree *)
Lemma of_courses_item l k i items c : of_courses l (NCount k i items) -> In c items -> of_courses l c.
Proof. intros H I x P. apply H. eapply pt_count; eauto. Qed.
Lemma no_debts_item cx k i items c : no_debts cx (NCount k i items) -> In c items -> no_debts cx c.
Proof. intros H I k' q x P. apply (H k'). eapply pt_count; eauto. Qed.
Lemma no_debts_req cx k i x : no_debts cx (NReq k i (Some x)) -> no_debts cx x.
Proof. intros H k' q c P. apply (H k'). apply pt_req. exact P. Qed.
Lemma no_debts_cond cx k i t f x : no_debts cx (NCond k i t f) -> in_force i t f x -> no_debts cx x.
Proof. intros H IF k' q c P. apply (H k'). destruct IF as [_|y' _ ->]; [apply pt_true|apply pt_false]; exact P. Qed.
Lemma f2_in_r {A B} (R : A -> B -> Prop) l m y : Forall2 R l m -> In y m -> exists x, In x l /\ R x y.
Proof. induction 1 as [|a b l m H F IH]; intro I; [destruct I|]. destruct I as [<-|I]; [exists a; simpl; auto|]. destruct (IH I) as [x [J K]]. exists x. simpl. auto. Qed.
Lemma f2_chain {A B C} (P : A -> B -> Prop) (R : B -> C -> Prop) l m o : Forall2 P l m -> Forall2 R m o -> Forall2 (fun a c => exists b, P a b /\ R b c) l o.
Proof. intro F. revert o. induction F; intros o G; inversion G; subst; constructor; eauto. Qed.
Lemma subseq_tally {A} (P : A -> Prop) s l : subseq s l -> (forall x, In x s -> P x) -> forall n, tally P l n -> (List.length s <= n)%nat.
Proof.
  induction 1 as [|x s l H IH|x s l H IH]; intros HP n T; cbn; [lia| |]; inversion T; subst.
  - apply le_n_S, IH; auto. intros; apply HP; simpl; auto.
  - exfalso. apply H2, HP. simpl. auto.
  - apply Nat.le_le_succ_r, IH; auto.
  - apply IH; auto.
Qed.
Lemma settled_empty : settled Empty.
Proof. split; [discriminate|]. intros [[H|H]|[H|H]]; discriminate. Qed.

Section Back.
  Variable ord : list course -> list course.
  Variables (cx : ctx) (l : list exc).
  Hypothesis MC : cx_multi cx = [].
  Hypothesis EX : cx_exc cx = group_exceptions l.
  Hypothesis SO : set_order ord.

  Lemma complete_is_a_plan n : of_courses l n -> orderly n -> no_debts cx n -> listable ord cx l n ->
    forall s t r t', In s (g_items (solutions ord cx n)) -> audit ord cx t s = Ok (r, t') -> complete (status_of r) ->
    exists ks, meets ord cx l n ks /\ NoDup ks /\ newly t t' ks.
  Proof.
    induction n as [k x|k q|k i items IH|k i o IH|k i bt f IHt IHf|k i c] using node_induction; intros OC OR DE LI s t r t' I A C;
      destruct (OC _ (pt_self _)) as [PP SE]; cbn [plain_part] in PP; try contradiction.
    - inversion LI as [? ? N| | | | | | | | |]; subst. cbn [solutions gmap g_items] in I. apply in_map_iff in I. destruct I as [y [<- I]].
      cbn [audit] in A. apply bind_ok in A. destruct A as [[z t1] [A1 A2]]. injection A2 as <- <-. cbn [status_of] in C.
      apply (course_back ord cx l k x y t z t1); auto; try apply PP. apply (proj1 OR). left. exists k. constructor.
    - cbn [solutions gmap g_items] in I. apply in_map_iff in I. destruct I as [y [<- I]]. cbn [audit] in A. apply bind_ok in A. destruct A as [[z t1] [A1 A2]]. injection A2 as <- <-. cbn [status_of] in C.
      apply (query_back ord cx l q EX SO PP) with (s := y) (r := z); auto. intros c J. apply (DE k q c (pt_self _) J).
    - destruct PP as [NA C1]. assert (SI : siblings items) by (apply (proj2 (proj2 OR) k i); constructor).
      assert (NOEX := listable_rules_raise_nothing ord cx l _ EX LI).
      apply (solutions_exact ord cx l _ _ EX) in I; [|intros k' i' its' HH; injection HH as <- <- <-; split; [exact SI|lia]|exact NOEX]. cbn [solution_of] in I.
      destruct I as [[W _]|[W I]]; [exists []; split; [apply me_count_waived; exact W|]; split; [constructor|intros ? []]|].
      inversion LI as [| |? ? ? W'|? ? ? _ C0 CH| | | | | |]; subst; [contradiction|].
      destruct I as [chosen [out [n [NDc [CHO [TN [FT [[m [FS [PM _]]] ->]]]]]]]].
      cbn [audit n_overridden n_audits] in A. apply bind_ok in A. destruct A as [[rs t1] [A1 A]]. rewrite NA in A. cbn [mapr bind] in A. injection A as <- <-.
      assert (KR : forall c, In c items -> kind_of c = KRule) by (intros c I; apply (proj1 (proj2 OR)); eapply pt_count; [exact I|constructor]).
      assert (PE : forall c, In c items -> (potential cx c = Ok true <-> promising cx l c)).
      { intros c I. assert (Y := proj1 (orderly_item _ _ _ _ OR I)). destruct (CH c I) as [H|[H _]]; rewrite H; rewrite <- (potential_exact cx l c _ EX Y H); split; congruence. }
      assert (SEc : forall c, In c items -> status_of c = Empty) by (intros c I; apply (of_courses_item _ _ _ _ _ OC I), pt_self).
      set (Q := fun x ks => exists c, In c items /\ In c chosen /\ path_of c = path_of x /\ meets ord cx l c ks).
      assert (ST : forall x, In x out -> exists c, In c items /\ stands ord cx chosen c x).
      { intros x I. eapply f2_in_r; [exact FS|]. eapply Permutation_in; [symmetry; exact PM|exact I]. }
      destruct (each_back ord cx Q out) with (t := t) (rs := rs) (t' := t1) as [kos [F [ND [NW [_ T]]]]]; [| |exact A1|].
      { intros x I K t0 r0 t0' A0 C0'. destruct (ST x I) as [c [Ic [[J IS]|[_ ->]]]]; [|rewrite (KR c Ic) in K; discriminate].
        assert (LC : listable ord cx l c) by (destruct (CH c Ic) as [H|[_ [H _]]]; [assert (H' := proj2 (CHO c J)); congruence|exact H]).
        destruct (IH c Ic (of_courses_item _ _ _ _ _ OC Ic) (orderly_item _ _ _ _ OR Ic) (no_debts_item _ _ _ _ _ DE Ic) LC x t0 r0 t0' IS A0 C0') as [ks [ME [N1 N2]]].
        exists ks. split; [|auto]. exists c. split; [exact Ic|]. split; [exact J|]. split; [|exact ME]. symmetry. apply (solutions_keep _ _ _ _ IS). }
      { intros x I K. destruct (ST x I) as [c [Ic [[J IS]|[_ ->]]]]; [rewrite (proj2 (solutions_keep _ _ _ _ IS)) in K; congruence|].
        rewrite (SEc c Ic). intros [H|H]; discriminate. }
      (* back to the order of the items *)
      destruct (perm_forall2 _ _ _ (Permutation_sym PM) _ F) as [kos' [F' PK]].
      assert (G : Forall2 (fun c ko => forall ks, ko = Some ks -> In c chosen /\ meets ord cx l c ks) items kos').
      { refine (Forall2_weaken _ _ _ _ _ (f2_chain _ _ _ _ _ FS F')). intros c ko Ic [x [SX H]] ks E. destruct (H ks E) as [K [c' [Ic' [J [EP ME]]]]].
        destruct SX as [[_ IS]|[_ ->]]; [|rewrite (KR c Ic) in K; discriminate].
        replace c with c'; [auto|]. eapply same_sibling; [apply SI|exact Ic'|exact Ic|]. rewrite EP. apply (solutions_keep _ _ _ _ IS). }
      destruct (f2_function None _ items kos' (proj1 SI) G) as [f [-> GF]].
      set (p := fun c => match f c with Some _ => true | None => false end). set (a := fun c => or_nil (f c)).
      assert (EQ : List.concat (map or_nil (map f items)) = flat_map a (filter p items)).
      { rewrite <- flat_pick. rewrite map_map. f_equal. apply map_ext. intro c. unfold a, p. destruct (f c); reflexivity. }
      assert (PCC : Permutation (List.concat (map or_nil kos)) (flat_map a (filter p items))).
      { rewrite <- EQ. apply perm_concat. apply Permutation_map. exact PK. }
      exists (flat_map a (filter p items)). split; [|split; [eapply Permutation_NoDup; eauto|intros c J; apply NW; eapply Permutation_in; [symmetry; exact PCC|exact J]]].
      assert (OV : n_overridden {| n_path := n_path i; n_overridden := false; n_count := n_count i; n_at_most := n_at_most i; n_audits := [] |} = false) by reflexivity.
      destruct (count_passes_only_with_enough KRes _ rs OV) as [E1 E2]. destruct (E1 (or_introl C)) as [[sel [SS [LE PA]]] _]. destruct (E2 C) as [PC _]. cbn [n_count] in LE.
      set (mm := List.length (filter p items)).
      assert (TC : tally (fun y => complete (status_of y)) rs mm).
      { assert (T1 := tally_ok (fun y => complete (status_of y)) (fun y => inS (status_of y) WAIVED_AND_DONE) rs (fun y => complete_iff (status_of y))).
        assert (T2 := T _ T1). apply (tally_perm _ _ _ _ PK) in T2. apply (proj1 (tally_map f (fun ko => ko <> None) items _)) in T2.
        replace mm with (List.length (filter (fun y => inS (status_of y) WAIVED_AND_DONE) rs)); [exact T1|].
        eapply tally_fun; [exact T2|]. apply PlanTop.tally_filter. intros c _. unfold p. destruct (f c); split; congruence. }
      assert (CM : (n_count i <= Z.of_nat mm)%Z).
      { assert (List.length sel <= mm)%nat; [|lia]. apply (subseq_tally (fun y => complete (status_of y)) sel rs SS); [|exact TC]. intros y Iy. apply PC; [eapply subseq_in; eauto|auto]. }
      assert (PCH : forall c, In c items -> p c = true -> In c chosen /\ meets ord cx l c (a c)).
      { intros c Ic E. unfold p in E. unfold a. destruct (f c) as [ks|] eqn:Ef; [|discriminate]. exact (GF c Ic ks Ef). }
      assert (LEN : (mm <= List.length chosen)%nat).
      { unfold mm. apply NoDup_incl_length; [apply NoDup_filter, (NoDup_map_inv path_of), SI|]. intros c J. apply filter_In in J. exact (proj1 (PCH c (proj1 J) (proj2 J))). }
      apply (me_count ord cx l k i items p a n mm); auto.
      + intros c Ic E. apply (proj1 (PE c Ic)). apply (CHO c (proj1 (PCH c Ic E))).
      + intros c Ic E. exact (proj2 (PCH c Ic E)).
      + intros c Ic _. rewrite (SEc c Ic). apply settled_empty.
      + refine (tally_imp _ _ items _ n TN). exact PE.
      + left. fold mm. destruct FT as [[F1 [F2 F3]]|[F1 F2]]; [|lia]. split; [exact CM|]. split; [lia|]. intro AM. specialize (F3 AM). lia.
      + apply PlanTop.tally_filter. intros c Ic. rewrite (SEc c Ic). split; [intros [E|[E|E]]; [exact E|discriminate|discriminate]|auto].
      + lia.
    - destruct PP as [NAU NN]. destruct o as [x|]; [|congruence]. cbn [solutions] in I. destruct (waived cx (e_path i)) eqn:WV.
      { exists []. split; [|split; [constructor|intros ? []]]. apply me_req_waived. intro H. rewrite (proj2 (waived_no cx l _ EX)) in WV; [discriminate|]. intro W. exact (W H). }
      assert (W : ~ waived_at l (e_path i)) by (apply (waived_no cx l _ EX); exact WV).
      cbn [gmap g_items] in I. apply in_map_iff in I. destruct I as [y [<- I]]. cbn [req_solution audit e_overridden] in A. rewrite (proj2 (solutions_keep _ _ _ _ I)) in A.
      apply bind_ok in A. destruct A as [[z t1] [A1 A2]]. injection A2 as <- <-. cbn [status_of] in C. unfold req_status in C. cbn in C. rewrite NAU in C.
      inversion LI; subst; [contradiction|]. destruct (IH x eq_refl) with (s := y) (t := t) (r := z) (t' := t1) as [ks [ME H']]; auto.
      { intros w P. apply OC. apply pt_req. exact P. }
      { eapply orderly_req; eauto. }
      { eapply no_debts_req; eauto. }
      exists ks. split; [|exact H']. apply me_req; auto.
    - destruct PP as [y IF]. inversion LI as [| | | | | | |? ? ? ? F| |]; subst. assert (LY := F y IF). assert (OY := orderly_cond _ _ _ _ _ OR IF).
      assert (DY := no_debts_cond _ _ _ _ _ _ DE IF). assert (OCy : of_courses l y) by (intros w P; apply OC; destruct IF as [_|y' _ ->]; [apply pt_true|apply pt_false]; exact P).
      cbn [solutions] in I. assert (IF' := IF). destruct IF as [E|y' E ->]; rewrite E in I; cbn [gmap g_items] in I; apply in_map_iff in I; destruct I as [z [<- I]];
        cbn [audit] in A; rewrite E, (proj2 (solutions_keep _ _ _ _ I)) in A; apply bind_ok in A; destruct A as [[w t1] [A1 A2]]; injection A2 as <- <-; cbn [status_of] in C; rewrite E in C.
      + destruct (IHt OCy OY DY LY z t w t1 I A1 C) as [ks [ME H']]. exists ks. split; [|exact H']. eapply me_cond; eauto.
      + destruct (IHf _ eq_refl OCy OY DY LY z t w t1 I A1 C) as [ks [ME H']]. exists ks. split; [|exact H']. eapply me_cond; eauto.
  Qed.
End Back.
