(** Trees of courses with longer transcripts, and at the top of an area. *)
From Coq Require Import List ZArith QArith Bool String Lia Sorted Permutation.
From Verif Require Import Prelude Dec Status Course Claims Exceptions Op Context CondExpr Paths Predicate Limit Apply Assertion Query CourseRule Tree Solve.
From Verif Require Import ListFacts LimitSpec LimitProps ClaimsSpec ClaimsProofs AssertionSpec PathsSpec PathsProofs PredicateProofs ExceptionsProofs EnumSpec QuerySpec CourseRuleSpec CourseRuleProofs CourseRuleProps TreeSpec TreeProofs TreeStatusProps TreeSolSpec TreeSolProofs TreeSolProps TreeAskSpec TreeAskProps TreeAuditSpec TreeAuditProofs TreeAuditProps SolveSpec SolveProofs SolveSafe SolveProps AreaOnceProofs PlanSpec PlanProofs PlanTop MonoSpec MonoQuery MonoProofs.
Import ListNotations.
Local Open Scope list_scope.

Lemma of_courses_req l k i x : of_courses l (NReq k i (Some x)) -> of_courses l x.
Proof. intros H y P. apply H. apply pt_req. exact P. Qed.
Lemma of_courses_cond l k i t f x : of_courses l (NCond k i t f) -> in_force i t f x -> of_courses l x.
Proof. intros H IF y P. apply H. destruct IF as [_|x _ ->]; [apply pt_true|apply pt_false]; exact P. Qed.
Lemma plain_item cx l k i items c : plain_rule cx l (NCount k i items) -> In c items -> plain_rule cx l c.
Proof.
  intros [H1 H2] I. split; [|intros k' q P; apply (H2 k'); eapply pt_count; eauto].
  intros r [[k' P]|[k' [i' [k'' P]]]]; apply H1; [left; exists k'|right; exists k', i', k'']; eapply pt_count; eauto.
Qed.
Lemma plain_req cx l k i x : plain_rule cx l (NReq k i (Some x)) -> plain_rule cx l x.
Proof.
  intros [H1 H2]. split; [|intros k' q P; apply (H2 k'); apply pt_req; exact P].
  intros r [[k' P]|[k' [i' [k'' P]]]]; apply H1; [left; exists k'|right; exists k', i', k'']; apply pt_req; exact P.
Qed.
Lemma plain_cond cx l k i t f x : plain_rule cx l (NCond k i t f) -> in_force i t f x -> plain_rule cx l x.
Proof.
  intros [H1 H2] I. assert (PT : forall y, part_of x y -> part_of (NCond k i t f) y) by (intros y P; destruct I as [_|x _ ->]; [apply pt_true|apply pt_false]; exact P).
  split; [|intros k' q P; apply (H2 k'); auto].
  intros r [[k' P]|[k' [i' [k'' P]]]]; apply H1; [left; exists k'|right; exists k', i', k'']; auto.
Qed.

(** ** questions are answered *)
Lemma any_total {A} (f : A -> res bool) l : (forall x, In x l -> exists b, f x = Ok b) -> exists b, any_res f l = Ok b.
Proof.
  induction l as [|x l IH]; intro H; [exists false; reflexivity|]. cbn [any_res]. destruct (H x (or_introl eq_refl)) as [b ->]. cbn [bind].
  destruct b; [eauto|]. apply IH. intros; apply H; simpl; auto.
Qed.
Lemma courses_answer cx l n : of_courses l n -> years_have_terms n -> exists b, potential cx n = Ok b.
Proof.
  induction n as [k x|k q|k i items IH|k i o IH|k i bt f IHt IHf|k i c] using node_induction; intros OC Y;
    destruct (OC _ (pt_self _)) as [PP _]; cbn [plain_part] in PP; try contradiction; cbn [potential].
  - unfold c_potential. destruct (r_auto_waived x || _)%bool; [eauto|]. destruct (given (r_clbid x)); [eauto|]. apply any_total. intros c _.
    destruct (filter_spec x c (Y x (or_introl (ex_intro _ k (pt_self _))))) as [b [E _]]. eauto.
  - apply query_answer; apply PP.
  - destruct (has_exception_beneath _ _); [eauto|]. apply any_total. intros c I. apply (IH c I (of_courses_item _ _ _ _ _ OC I)).
    intros r C. apply Y. destruct C as [[k' P]|[k' [i' [k'' P]]]]; [left; exists k'|right; exists k', i', k'']; (eapply pt_count; [exact I|exact P]).
  - destruct (has_exception_beneath _ _); [eauto|]. destruct (e_audited i); [eauto|]. destruct o as [x|]; [|eauto]. apply (IH x eq_refl (of_courses_req _ _ _ _ OC)).
    intros r C. apply Y. destruct C as [[k' P]|[k' [i' [k'' P]]]]; [left; exists k'|right; exists k', i', k'']; apply pt_req; exact P.
  - destruct PP as [y IF]. assert (OY := of_courses_cond _ _ _ _ _ _ OC IF).
    assert (YY : years_have_terms y).
    { intros r C. apply Y. destruct C as [[k' P]|[k' [i' [k'' P]]]]; [left; exists k'|right; exists k', i', k'']; (destruct IF as [_|y' _ ->]; [apply pt_true|apply pt_false]; exact P). }
    destruct IF as [E|y' E ->]; rewrite E; [apply IHt|apply IHf]; auto.
Qed.
Lemma courses_not_barren l n : of_courses l n -> ~ barren l n.
Proof.
  intros OC B. induction B as [k i t f H|k i t f x IF B IH|k i x W B IH].
  - destruct (OC _ (pt_self _)) as [[y IF] _]. exact (H y IF).
  - apply IH. eapply of_courses_cond; eauto.
  - apply IH. eapply of_courses_req; eauto.
Qed.
Lemma forced_found cx k c : find_by_clbid cx k = Some c -> forced_by_clbid cx k = Ok c.
Proof. intro H. unfold forced_by_clbid. rewrite H. reflexivity. Qed.
Lemma courses_listable ord cx l n : set_order ord -> cx_exc cx = group_exceptions l -> of_courses l n -> years_have_terms n -> plain_rule cx l n -> listable ord cx l n.
Proof.
  intros SO EX. induction n as [k x|k q|k i items IH|k i o IH|k i bt f IHt IHf|k i c] using node_induction; intros OC Y PL;
    destruct (OC _ (pt_self _)) as [PP _]; cbn [plain_part] in PP; try contradiction.
  - apply li_course. assert (H := course_rule_yields_or_raises cx l x EX). destruct (g_exn (c_solutions cx x)); [|reflexivity]. exfalso.
    destruct H as [[_ [ex [k' [fo [I [P [A F]]]]]]]|[_ H]].
    + destruct (proj1 PL x (or_introl (ex_intro _ k (pt_self _)))) as [_ PC]. destruct (PC ex k' fo I P A) as [c FC]. rewrite (forced_found _ _ _ FC) in F. discriminate.
    + apply H. apply Y. left. exists k. constructor.
  - apply li_query. apply (simple_exn ord cx l q EX SO PP).
  - destruct (waived cx (n_path i)) eqn:W; [apply li_count_waived, (waived_ok cx l _ EX), W|]. apply li_count; [apply (waived_no cx l _ EX), W|lia|].
    intros c I. assert (OCc := of_courses_item _ _ _ _ _ OC I).
    assert (Yc : years_have_terms c) by (intros r C; apply Y; destruct C as [[k' P]|[k' [i' [k'' P]]]]; [left; exists k'|right; exists k', i', k'']; (eapply pt_count; [exact I|exact P])).
    destruct (courses_answer cx l c OCc Yc) as [[|] E]; [right|left; exact E]. split; [exact E|]. split; [|apply courses_not_barren; exact OCc].
    apply IH; auto. eapply plain_item; eauto.
  - destruct o as [x|]; [|apply li_req_none]. apply li_req. apply (IH x eq_refl (of_courses_req _ _ _ _ OC)); [|eapply plain_req; eauto].
    intros r C. apply Y. destruct C as [[k' P]|[k' [i' [k'' P]]]]; [left; exists k'|right; exists k', i', k'']; apply pt_req; exact P.
  - apply li_cond. intros y IF. assert (OY := of_courses_cond _ _ _ _ _ _ OC IF). assert (PY := plain_cond _ _ _ _ _ _ _ PL IF).
    assert (YY : years_have_terms y).
    { intros r C. apply Y. destruct C as [[k' P]|[k' [i' [k'' P]]]]; [left; exists k'|right; exists k', i', k'']; (destruct IF as [_|y' _ ->]; [apply pt_true|apply pt_false]; exact P). }
    destruct IF as [E|y' E ->]; [apply IHt|apply IHf]; auto.
Qed.

(** ** more on the transcript *)
Lemma finds_more cx cx' r c : more cx cx' -> finds cx r c -> finds cx' r c.
Proof. intros [H1 [H2 _]] [[k [E [N F]]]|[N [I D]]]; [left; exists k; auto|right; auto]. Qed.
Lemma in_order_item cx cx' k i items c : in_order cx cx' (NCount k i items) -> In c items -> in_order cx cx' c.
Proof. intros H I k' q P. apply (H k'). eapply pt_count; eauto. Qed.
Lemma in_order_req cx cx' k i x : in_order cx cx' (NReq k i (Some x)) -> in_order cx cx' x.
Proof. intros H k' q P. apply (H k'). apply pt_req. exact P. Qed.
Lemma in_order_cond cx cx' k i t f x : in_order cx cx' (NCond k i t f) -> in_force i t f x -> in_order cx cx' x.
Proof. intros H IF k' q P. apply (H k'). destruct IF as [_|y' _ ->]; [apply pt_true|apply pt_false]; exact P. Qed.
Lemma promising_more cx cx' l n : more cx cx' -> in_order cx cx' n -> of_courses l n -> promising cx l n -> promising cx' l n.
Proof.
  intros M IO OC P. induction P as [k r H|k q H|k i items H|k i items x I P IH|k i o H|k i x A P IH|k i t f x IF P IH|k i c].
  - apply pr_course. destruct H as [H|[H|[c H]]]; [left; exact H|right; left; exact H|right; right; exists c; eapply finds_more; eauto].
  - apply pr_query. destruct (OC _ (pt_self _)) as [[QS _] _]. refine (query_promising cx cx' l q _ QS H). intros c. apply subseq_in. apply (proj1 (IO k q (pt_self _))).
  - apply pr_count_exc. exact H.
  - eapply pr_count; [exact I|]. apply IH; [eapply in_order_item; eauto|eapply of_courses_item; eauto].
  - apply pr_req_exc. exact H.
  - apply pr_req; [exact A|]. apply IH; [eapply in_order_req; eauto|eapply of_courses_req; eauto].
  - eapply pr_cond; [exact IF|]. apply IH; [eapply in_order_cond; eauto|eapply of_courses_cond; eauto].
  - destruct (OC _ (pt_self _)) as [[] _].
Qed.
Lemma meets_more ord cx cx' l n ks : set_order ord -> more cx cx' -> cx_exc cx = group_exceptions l -> cx_exc cx' = group_exceptions l -> of_courses l n -> in_order cx cx' n -> no_debts cx' n -> years_have_terms n -> meets ord cx l n ks -> meets ord cx' l n ks.
Proof.
  intros SO M EX EX' OC IO DE Y ME. revert OC IO DE Y.
  induction ME as [k r c AW W FI AC FP|k r c forced AW W IN|k r W|k q out QS QO QA MS NE AC|k q cs ins forced v QS QO QA QF IV NE AC
      |k q data N1 N2 QO QF AC|k i items W|k i items chosen a n m W NA PR ME IH ST TN FT TM CM M1|k i o W|k i x ks W NAU ME IH|k i t f x ks IF ME IH
      |k i c W|k i W PS|k i k' r x rest s W PS FS OK]; intros OC IO DE Y; try (destruct (OC _ (pt_self _)) as [[] _]; fail).
  - apply (me_course ord cx' l k r c); auto. eapply finds_more; eauto.
  - apply (me_inserted ord cx' l k r c forced); auto. destruct IN as [x [k' [H1 [H2 [H3 [H4 H5]]]]]]. exists x, k'. split; [exact H1|]. split; [exact H2|]. split; [exact H3|]. split; [apply M; exact H4|exact H5].
  - apply me_course_waived. exact W.
  - refine (query_more ord cx cx' l k q _ SO EX EX' (proj1 (OC _ (pt_self _))) (IO k q (pt_self _)) (fun c => DE k q c (pt_self _)) _). apply me_query; assumption.
  - refine (query_more ord cx cx' l k q _ SO EX EX' (proj1 (OC _ (pt_self _))) (IO k q (pt_self _)) (fun c => DE k q c (pt_self _)) _). eapply me_query_free; eassumption.
  - exfalso. apply N1. apply (proj1 (OC _ (pt_self _))).
  - apply me_count_waived. exact W.
  - assert (OCc : forall c, In c items -> of_courses l c) by (intros c I; eapply of_courses_item; eauto).
    assert (Yc : forall c, In c items -> years_have_terms c) by (intros c I r C; apply Y; destruct C as [[k' P]|[k' [i' [k'' P]]]]; [left; exists k'|right; exists k', i', k'']; (eapply pt_count; [exact I|exact P])).
    assert (SEc : forall c, In c items -> status_of c = Empty) by (intros c I; apply (OCc c I), pt_self).
    assert (TM' : tally (fun c => chosen c = true) items m).
    { refine (tally_imp _ _ items _ m TM). intros c I. rewrite (SEc c I). split; [intros [H|[H|H]]; [exact H|discriminate|discriminate]|auto]. }
    assert (ML : m = List.length (filter chosen items)) by (eapply tally_fun; [exact TM'|apply PlanTop.tally_filter; tauto]).
    set (n' := List.length (filter (has_potential cx') items)).
    assert (TN' : tally (promising cx' l) items n').
    { apply PlanTop.tally_filter. intros c I. destruct (courses_answer cx' l c (OCc c I) (Yc c I)) as [b E].
      assert (PE := potential_exact cx' l c b EX' (Yc c I) E). rewrite potential_iff, E, <- PE. split; congruence. }
    assert (PR' : forall c, In c items -> chosen c = true -> promising cx' l c) by (intros c I E; eapply promising_more; eauto; eapply in_order_item; eauto).
    apply (me_count ord cx' l k i items chosen a n' m); auto; [intros c I E; apply IH; auto; [eapply in_order_item; eauto|eapply no_debts_item; eauto]|].
    assert (m <= n')%nat by (eapply tally_at_least; [|exact TM'|exact TN']; auto).
    left. rewrite <- ML in *. split; [exact CM|]. split; [assumption|]. intro AM. destruct FT as [[_ [_ H']]|[H' H'']]; [auto|lia].
  - apply me_req_waived. exact W.
  - apply me_req; auto. apply IH; [eapply of_courses_req; eauto|eapply in_order_req; eauto|eapply no_debts_req; eauto|].
    intros r C. apply Y. destruct C as [[k' P]|[k' [i' [k'' P]]]]; [left; exists k'|right; exists k', i', k'']; apply pt_req; exact P.
  - eapply me_cond; [exact IF|]. apply IH; [eapply of_courses_cond; eauto|eapply in_order_cond; eauto|eapply no_debts_cond; eauto|].
    intros r C. apply Y. destruct C as [[k' P]|[k' [i' [k'' P]]]]; [left; exists k'|right; exists k', i', k'']; (destruct IF as [_|y' _ ->]; [apply pt_true|apply pt_false]; exact P).
Qed.

(** ** back from a complete result at the top *)
Lemma each_all ord cx (P : node -> list string -> Prop) out :
  (forall x, In x out -> kind_of x = KSol -> forall t r t', audit ord cx t x = Ok (r, t') -> complete (status_of r) -> exists ks, P x ks /\ NoDup ks /\ newly t t' ks) ->
  forall t rs t', audit_each (audit ord cx) t out = Ok (rs, t') -> (forall y, In y rs -> complete (status_of y)) ->
  exists kss, Forall2 (fun x ks => (kind_of x = KSol /\ P x ks) \/ (kind_of x <> KSol /\ complete (status_of x) /\ ks = [])) out kss /\
    NoDup (List.concat kss) /\ newly t t' (List.concat kss) /\ grows t t'.
Proof.
  induction out as [|x out IH]; intros HS t rs t' A C.
  - cbn in A. injection A as <- <-. exists []. split; [constructor|]. split; [constructor|]. split; [intros k []|]. apply grows_refl.
  - cbn [audit_each] in A. apply bind_ok in A. destruct A as [[y t1] [A1 A]]. apply bind_ok in A. destruct A as [[ys t2] [A2 A]]. injection A as <- <-.
    destruct (IH (fun z I => HS z (or_intror I)) _ _ _ A2 (fun z I => C z (or_intror I))) as [kss [F [ND [NW G]]]].
    assert (H : exists ks, ((kind_of x = KSol /\ P x ks) \/ (kind_of x <> KSol /\ complete (status_of x) /\ ks = [])) /\ NoDup ks /\ newly t t1 ks /\ grows t t1).
    { assert (CY := C y (or_introl eq_refl)). destruct (kind_of x) eqn:K.
      - injection A1 as <- <-. exists []. split; [right; split; [discriminate|auto]|]. split; [constructor|]. split; [intros k []|apply grows_refl].
      - destruct (HS x (or_introl eq_refl) K _ _ _ A1 CY) as [ks [H1 [H2 H3]]]. exists ks. split; [auto|]. split; [exact H2|]. split; [exact H3|]. eapply audit_grows; eauto.
      - injection A1 as <- <-. exists []. split; [right; split; [discriminate|auto]|]. split; [constructor|]. split; [intros k []|apply grows_refl]. }
    destruct H as [ks [H1 [H2 [H3 H4]]]]. exists (ks :: kss). split; [constructor; auto|]. cbn [List.concat].
    destruct (newly_app t t1 t2 ks _ H4 G H2 ND H3 NW) as [N1 N2]. split; [exact N1|]. split; [exact N2|]. eapply grows_trans; eauto.
Qed.
Lemma subseq_whole {A} (s l : list A) : subseq s l -> (List.length l <= List.length s)%nat -> s = l.
Proof.
  assert (LE : forall s l : list A, subseq s l -> (List.length s <= List.length l)%nat) by (induction 1; cbn; lia).
  induction 1 as [|x s l H IH|x s l H IH]; cbn; intro L; [reflexivity|f_equal; apply IH; lia|]. apply LE in H. lia.
Qed.
Lemma nodup_apart {A B} (f : A -> list B) l : NoDup l -> (forall x, In x l -> NoDup (f x)) -> (forall x y k, In x l -> In y l -> x <> y -> In k (f x) -> ~ In k (f y)) -> NoDup (flat_map f l).
Proof.
  induction l as [|x l IH]; intros ND N D; cbn; [constructor|]. inversion ND as [|? ? N1 N2]; subst. apply ListFacts.NoDup_app.
  - apply N. simpl. auto.
  - apply IH; auto. intros; apply N; simpl; auto. intros y z k I J. apply D; simpl; auto.
  - intros k I J. apply in_flat_map in J. destruct J as [y [J K]]. apply (D x y k); simpl; auto. intros ->. contradiction.
Qed.
Lemma nodup_disjoint {A B} (f : A -> list B) l x y k : NoDup (flat_map f l) -> In x l -> In y l -> x <> y -> In k (f x) -> ~ In k (f y).
Proof.
  induction l as [|z l IH]; cbn; intros N I J NE K K'; [destruct I|]. apply nodup_parts in N. destruct N as [_ [N2 N3]].
  destruct I as [<-|I], J as [<-|J]; [congruence| | |eapply IH; eauto].
  - apply (N3 k K). apply in_flat_map. eauto.
  - apply (N3 k K'). apply in_flat_map. eauto.
Qed.
(** the classes of a way to meet a rule are among its matches *)
Lemma meets_matches ord cx l n ks ms k : set_order ord -> cx_exc cx = group_exceptions l -> listable ord cx l n -> orderly n -> unaudited n -> plain_rule cx l n ->
  meets ord cx l n ks -> NoDup ks -> matches_of cx n = Ok ms -> In k ks -> exists x, In (ICourse x) ms /\ c_clbid x = k.
Proof.
  intros SO EX LI OR UN PL ME ND M I. destruct (plan_is_offered ord cx l EX n ks ME LI OR ND) as [s [Is R]]. destruct (R [] (unclaimed_nil _)) as [r [t [A [_ [_ V]]]]].
  destruct (V k I) as [cl [Icl E]]. exists (cl_course cl). split; [|exact E].
  exact (claims_asked _ _ _ _ _ _ _ _ _ _ SO EX (proj1 (proj2 OR)) UN PL Is A Icl M).
Qed.

Section TopBack.
  Variable ord : list course -> list course.
  Variable nord : list node -> list node.
  Variables (cx : ctx) (l : list exc) (i : count_info) (items : list node).
  Hypothesis NO : forall x, Permutation (nord x) x.
  Hypothesis SO : set_order ord.
  Hypothesis EX : cx_exc cx = group_exceptions l.
  Hypothesis MC : cx_multi cx = [].
  Hypothesis OR : orderly (NCount KRule i items).
  Hypothesis OC : of_courses l (NCount KRule i items).
  Hypothesis DE : no_debts cx (NCount KRule i items).
  Hypothesis W : ~ waived_at l (n_path i).
  Hypothesis CNT : n_count i = Z.of_nat (List.length items).
  Hypothesis FA : fair cx l items.
  Let g := top_count_solutions ord nord cx [] i items.
  Hypothesis GE : g_exn (fst g) = None.

  Lemma top_back s t r t' : In s (g_items (fst g)) -> audit ord cx t s = Ok (r, t') -> complete (status_of r) -> all_met ord cx l i items.
  Proof.
    intros Is A C. destruct FA as [UN [HON ID]]. destruct (OC _ (pt_self _)) as [[NA C1] _].
    assert (SI : siblings items) by (apply (proj2 (proj2 OR) KRule i); constructor).
    assert (WV : waived cx (n_path i) = false) by (apply (waived_no cx l _ EX); exact W).
    assert (Y : forall c, In c items -> years_have_terms c) by (intros c I; apply (orderly_item _ _ _ _ OR I)).
    assert (OCc : forall c, In c items -> of_courses l c) by (intros c I; eapply of_courses_item; eauto).
    assert (LI : forall c, In c items -> listable ord cx l c) by (intros c I; apply courses_listable; auto; apply UN, I).
    assert (SEc : forall c, In c items -> status_of c = Empty) by (intros c I; apply (OCc c I), pt_self).
    assert (KR : forall c, In c items -> kind_of c = KRule) by (intros c I; apply (proj1 (proj2 OR)); eapply pt_count; [exact I|constructor]).
    assert (PE : forall c, In c items -> (potential cx c = Ok true <-> promising cx l c)).
    { intros c I. destruct (courses_answer cx l c (OCc c I) (Y c I)) as [b E]. rewrite E, <- (potential_exact cx l c b EX (Y c I) E). split; congruence. }
    assert (US : exists c, usable cx items c).
    { destruct (filter (has_potential cx) items) as [|c0 us] eqn:F.
      - exfalso. assert (NU : forall c, ~ usable cx items c).
        { intros c [I P]. apply potential_iff in P. assert (J : In c (filter (has_potential cx) items)) by (apply filter_In; auto). rewrite F in J. destruct J. }
        destruct (proj1 top_solutions_otherwise ord nord cx [] i items (or_intror (or_intror NU)) (proj1 SI)) as [E _].
        unfold g in Is. rewrite <- (E KRule) in Is.
        assert (LN : listable ord cx l (NCount KRule i items)).
        { apply li_count; [exact W|lia|]. intros c I. left. destruct (courses_answer cx l c (OCc c I) (Y c I)) as [[|] EP]; [|exact EP]. exfalso. apply (NU c). split; auto. }
        destruct (complete_is_a_plan ord cx l MC EX SO _ OC OR DE LN s t r t' Is A C) as [ks [ME _]].
        inversion ME as [| | | | | | |? ? ? ch a n m _ _ PR _ _ _ _ TM _ M1| | | | | |]; subst; [contradiction|].
        assert (T0 : tally (fun c => ch c = true \/ complete (status_of c)) items 0).
        { assert (F0 : filter ch items = []).
          { destruct (filter ch items) as [|c us] eqn:FE; [reflexivity|]. exfalso. assert (J : In c (filter ch items)) by (rewrite FE; simpl; auto). apply filter_In in J. destruct J as [J K].
            apply (NU c). split; [exact J|]. apply PE; auto. }
          replace 0%nat with (List.length (filter ch items)) by (rewrite F0; reflexivity). apply PlanTop.tally_filter. intros c I. rewrite (SEc c I). split; [intros [K|[K|K]]; [exact K|discriminate|discriminate]|auto]. }
        assert (m = 0%nat) by (eapply tally_fun; eauto). lia.
      - exists c0. assert (J : In c0 (filter (has_potential cx) items)) by (rewrite F; simpl; auto). apply filter_In in J. destruct J as [I P]. split; [exact I|]. apply potential_iff. exact P. }
    apply (top_solutions_exact ord nord cx [] i items s NO SI ltac:(lia) WV NA US GE) in Is.
    destruct Is as [chosen [out [n [sols [NDc [CHO [TN [FT [FS [PM [_ ->]]]]]]]]]]].
    cbn [audit n_overridden n_audits] in A. apply bind_ok in A. destruct A as [[rs t1] [A1 A]]. rewrite NA in A. cbn [mapr bind] in A. injection A as <- <-.
    assert (LRS : List.length rs = List.length items).
    { rewrite (TreeSolProofs.Forall2_len _ _ _ FS), (Permutation_length PM). clear -A1. revert t rs A1. induction out as [|x out IH]; intros t rs A; cbn [audit_each] in A.
      - injection A as <- _. reflexivity.
      - apply bind_ok in A. destruct A as [[y t2] [_ A]]. apply bind_ok in A. destruct A as [[ys t3] [A2 A]]. injection A as <- <-. cbn. f_equal. eapply IH; eauto. }
    assert (ALL : forall y, In y rs -> complete (status_of y)).
    { assert (OV : n_overridden {| n_path := n_path i; n_overridden := false; n_count := n_count i; n_at_most := n_at_most i; n_audits := [] |} = false) by reflexivity.
      destruct (count_passes_only_with_enough KRes _ rs OV) as [E1 E2]. destruct (E1 (or_introl C)) as [[sel [SS [LE PA]]] _]. destruct (E2 C) as [PC _]. cbn [n_count] in LE.
      assert (sel = rs) by (apply subseq_whole; [exact SS|lia]). subst sel. auto. }
    set (P := fun x ks => exists c, In c items /\ In c chosen /\ path_of c = path_of x /\ meets ord cx l c ks).
    destruct (each_all ord cx P out) with (t := t) (rs := rs) (t' := t1) as [kss [F [ND _]]]; [|exact A1|exact ALL|].
    { intros x I K t0 r0 t0' A0 C0'. assert (J : In x sols) by (eapply Permutation_in; [symmetry; exact PM|exact I]).
      destruct (f2_in_r _ _ _ _ FS J) as [c [Ic [[_ [t2 [z SEL]]]|[[_ [Jc IS]]|[_ [_ ->]]]]]]; [| |rewrite (KR c Ic) in K; discriminate].
      - assert (KX : kind_of x = KRes).
        { destruct SEL as [pre s0 post r q t3 EI FU [CA _] CO|pre s0 post r q t3 all z0 zr zq zt N EI FU [CA _] P1 P2 E3 CZ]; eapply audit_kind; exact CA. }
        congruence.
      - destruct (complete_is_a_plan ord cx l MC EX SO c (OCc c Ic) (orderly_item _ _ _ _ OR Ic) (no_debts_item _ _ _ _ _ DE Ic) (LI c Ic) x t0 r0 t0' IS A0 C0') as [ks [ME [N1 N2]]].
        exists ks. split; [|auto]. exists c. split; [exact Ic|]. split; [exact Jc|]. split; [|exact ME]. symmetry. apply (solutions_keep _ _ _ _ IS). }
    destruct (perm_forall2 _ _ _ (Permutation_sym PM) _ F) as [kss' [F' PK]].
    assert (G : Forall2 (fun c ks => (independent cx items c /\ exists ks', meets ord cx l c ks' /\ NoDup ks') \/ (~ independent cx items c /\ usable cx items c /\ meets ord cx l c ks)) items kss').
    { refine (Forall2_weaken _ _ _ _ _ (f2_chain _ _ _ _ _ FS F')). intros c ks Ic [x [SX H]].
      destruct SX as [[IN [t2 [z SEL]]]|[[NI [Jc IS]]|[NI [_ ->]]]].
      - left. split; [exact IN|].
        assert (X : exists s0 t0, In s0 (g_items (solutions ord cx c)) /\ audit ord cx [] s0 = Ok (x, t0)).
        { destruct SEL as [pre s0 post r q t3 EI FU [CA _] CO|pre s0 post r q t3 all z0 zr zq zt N EI FU [CA _] P1 P2 E3 CZ]; exists s0, t3; (split; [rewrite EI; apply in_or_app; simpl; auto|exact CA]). }
        destruct X as [s0 [t0 [I0 A0]]]. assert (KX : kind_of x = KRes) by (eapply audit_kind; exact A0).
        destruct H as [[K _]|[_ [CX _]]]; [congruence|].
        destruct (complete_is_a_plan ord cx l MC EX SO c (OCc c Ic) (orderly_item _ _ _ _ OR Ic) (no_debts_item _ _ _ _ _ DE Ic) (LI c Ic) s0 [] x t0 I0 A0 CX) as [ks' [ME [N1 _]]]. eauto.
      - right. split; [exact NI|]. split; [apply (CHO c Jc)|]. destruct H as [[_ [c' [Ic' [_ [EP ME]]]]]|[K _]]; [|rewrite (proj2 (solutions_keep _ _ _ _ IS)) in K; congruence].
        replace c with c'; [exact ME|]. eapply same_sibling; [apply SI|exact Ic'|exact Ic|]. rewrite EP. apply (solutions_keep _ _ _ _ IS).
      - exfalso. destruct H as [[K _]|[_ [K _]]]; [rewrite (KR c Ic) in K; discriminate|]. rewrite (SEc c Ic) in K. destruct K; discriminate. }
    destruct (f2_function [] _ items kss' (proj1 SI) G) as [f1 [-> GF]].
    assert (ND1 : NoDup (flat_map f1 items)) by (rewrite flat_map_concat_map; eapply Permutation_NoDup; [apply perm_concat; exact PK|exact ND]).
    assert (CH : forall c, In c items -> exists ks, (independent cx items c \/ (~ independent cx items c /\ ks = f1 c)) /\ usable cx items c /\ meets ord cx l c ks /\ NoDup ks).
    { intros c I. destruct (GF c I) as [[IN [ks' [ME N]]]|[NI [U ME]]].
      - exists ks'. split; [auto|]. split; [apply IN|auto].
      - exists (f1 c). split; [auto|]. split; [exact U|]. split; [exact ME|]. eapply nodup_one; eauto. }
    destruct (choose_f2 _ items CH) as [ms FM]. destruct (f2_function [] _ items ms (proj1 SI) FM) as [a [-> AF]].
    split; [exact W|]. split; [exact NA|]. split; [exact CNT|]. split; [destruct US as [c [I _]]; intros ->; destruct I|].
    exists a. split.
    { intros c I. destruct (AF c I) as [_ [U [ME _]]]. split; [apply PE; [exact I|apply U]|]. split; [apply LI, I|exact ME]. }
    assert (MA := proj2 (top_asked ord nord cx l i items NO EX OR W NA US GE)).
    (* an independent child uses no class that another one can use *)
    assert (IND : forall c d k, In c items -> In d items -> c <> d -> independent cx items c -> In k (a c) -> In k (a d) -> False).
    { intros c d k Ic Id NE IN Kc Kd. destruct (AF c Ic) as [_ [Uc [Mc Nc]]]. destruct (AF d Id) as [_ [Ud [Md Nd]]].
      destruct (MA c Uc) as [mc EMc]. destruct (MA d Ud) as [md EMd].
      destruct (meets_matches ord cx l c (a c) mc k SO EX (LI c Ic) (orderly_item _ _ _ _ OR Ic) (proj1 (UN c Ic)) (proj2 (UN c Ic)) Mc Nc EMc Kc) as [x [Ix Ex]].
      destruct (meets_matches ord cx l d (a d) md k SO EX (LI d Id) (orderly_item _ _ _ _ OR Id) (proj1 (UN d Id)) (proj2 (UN d Id)) Md Nd EMd Kd) as [y [Iy Ey]].
      assert (XY : x = y) by (refine (ID c d _ _ _ _ Ic Id EMc EMd Ix Iy _); congruence). subst y.
      assert (SH : shares cx c d) by (exists mc, md, (ICourse x); auto).
      destruct IN as [_ [O|[_ O]]]; [apply NE; symmetry; apply O, Ud|].
      apply (O d Ud (fun H => NE (eq_sym H))). split; [exact SH|]. intros [B1 B2]. exact (HON c d Uc Ud NE B1 B2 SH). }
    apply nodup_apart; [apply (NoDup_map_inv path_of), SI|intros c I; apply (AF c I)|].
    intros c d k Ic Id NE Kc Kd. destruct (AF c Ic) as [[Ac|[Ac Ec]] _]; [eapply IND; [exact Ic|exact Id|..]; eauto|].
    destruct (AF d Id) as [[Ad|[Ad Ed]] _]; [eapply IND; [exact Id|exact Ic|..]; eauto|].
    rewrite Ec in Kc. rewrite Ed in Kd. exact (nodup_disjoint f1 items c d k ND1 Ic Id NE Kc Kd).
  Qed.
End TopBack.
