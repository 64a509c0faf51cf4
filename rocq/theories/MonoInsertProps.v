(** Property theorems about insertions at queries: an inserted class counts like one that the query
    matches, and no class counts twice (C180). *)
From Coq Require Import List ZArith QArith Bool String Lia Lqa Sorted Permutation.
From Verif Require Import Transcript Prelude Dec Status Course Claims Exceptions Op Context CondExpr Paths Predicate Limit Apply Assertion Query CourseRule Tree Solve Driver Area StudentLoad Run Loader AreaLoad LoaderProps CommonProps.
From Verif Require Import ListFacts LimitSpec LimitProofs LimitProps LimitLoadProps LimitApartProps ApplyProofs ClaimsSpec ClaimsProofs TranscriptSpec AssertionSpec AssertionProofs PathsSpec PathsProofs PredicateProofs ExceptionsProofs EnumSpec PredicateSpec PredicateProps CommonProofs QuerySpec QueryProofs QueryProps CourseRuleSpec TreeSpec TreeSolSpec TreeSolProofs TreeAskSpec SolveSpec PlanSpec PlanProofs MonoSpec MonoQuery MonoProofs MonoTop AreaProps SolveProps TreeSolProps PlanProps AssertionProps MonoProps MonoAskSpec MonoAskProps MonoAskLimitProps.
Import ListNotations.
Local Open Scope list_scope.

(** A query over the transcript without limits and with one assertion "at least so many"; classes
    may be inserted at it *)
Definition inserting_query (l : list exc) (q : query) (a : assertion) : Prop :=
  q_source q = QCourses /\ q_overridden q = false /\ q_limit q = [] /\ q_forced q = [] /\ answerable (q_where q) /\
  q_asserts q = [APlain a] /\ at_least a /\ answerable (as_where a) /\ untouched l (as_path a).
(** ids tell the classes apart, and none takes credits away *)
Definition proper_candidates (cx : ctx) (l : list exc) (q : query) : Prop :=
  (forall c d, QuerySpec.candidate cx l q c -> QuerySpec.candidate cx l q d -> c_clbid c = c_clbid d -> c = d) /\
  forall c, QuerySpec.candidate cx l q c -> (0 <= dval (c_credits c))%Q.
(** classes that the query accepts or that are inserted at it, and that its assertion accepts,
    each once *)
Definition accepted_or_inserted (cx : ctx) (l : list exc) (q : query) (a : assertion) (items : list course) : Prop :=
  NoDup items /\
  forall c, In c items -> QuerySpec.candidate cx l q c /\ passes_where (as_where a) (ICourse c) /\ (as_ip_pass a = false -> c_in_progress c = false).
(** Either classes are counted, not credits; or the query claims its classes for itself, and no
    insertion is forced; or no class is inserted that the query accepts, nor one inserted twice. *)
Definition counts_once (cx : ctx) (l : list exc) (q : query) (a : assertion) : Prop :=
  as_key a <> KSumCredits \/
  (q_attempt q = true /\ q_allow q = false /\ forall k, ~ forced_id l q k) \/
  (NoDup (query_courses cx q) /\ (forall c, eligible cx q c -> ~ inserted_id l q (c_clbid c)) /\
   forall pre x mid y post k f g, l = pre ++ x :: mid ++ y :: post -> ex_path x = q_path q -> ex_path y = q_path q ->
     ex_act x = AInsert k f -> ex_act y <> AInsert k g).

Lemma inserting_simple l q a : inserting_query l q a -> simple_query [] q.
Proof.
  intros (A & B & C & D & E & F & G & H & _). split; [exact A|]. split; [exact B|]. rewrite C, F. split; [split; [intros x y []|intros m []]|]. split; [exact D|]. split; [intros x []|].
  split; [exact E|]. split; [discriminate|]. intros x [<-|[]]. exists a. split; [reflexivity|]. split; [exact G|]. split; [exact H|intros x []].
Qed.

(** ** claims *)
Lemma subseq_front {A} (s more : list A) : subseq s (s ++ more).
Proof. induction s as [|x s IH]; cbn; [induction more; constructor; auto|constructor; exact IH]. Qed.
Lemma claim_each_sub mc q : forall cs t items ok bad t', claim_each mc t q cs = Ok (items, ok, bad, t') -> subseq items cs.
Proof.
  induction cs as [|c cs IH]; intros t items ok bad t' H; cbn [claim_each] in H; [injection H as <- _ _ _; constructor|].
  apply bind_ok in H. destruct H as [[cl t1] [_ H]]. apply bind_ok in H. destruct H as [[[[its o] b] t2] [R H]]. apply IH in R.
  destruct (cl_failed cl); injection H as <- _ _ _; constructor; exact R.
Qed.
(** classes that nothing has claimed are granted, if each is asked for once *)
Lemma claim_each_free q : forall a b t items ok bad t', NoDup (map c_clbid a) -> (forall c, In c a -> ~ claimed t (c_clbid c)) ->
  claim_each [] t q (a ++ b) = Ok (items, ok, bad, t') -> exists more, items = a ++ more.
Proof.
  induction a as [|c a IH]; intros b t items ok bad t' ND NC H; [exists items; reflexivity|]. cbn [app claim_each] in H. cbn [map] in ND. inversion ND as [|? ? N1 N2]; subst.
  apply bind_ok in H. destruct H as [[cl t1] [M H]]. apply bind_ok in H. destruct H as [[[[its o] z] t2] [R H]].
  assert (G : cl_failed cl = false /\ forall d, In d a -> ~ claimed t1 (c_clbid d)).
  { assert (NCC := NC c (or_introl eq_refl)). unfold claimed in NCC. rewrite dget_recorded in NCC.
    assert (NA : forall d, In d a -> ~ claimed (record_claim t (mkClaim c (q_path q) false)) (c_clbid d)).
    { intros d I. unfold claimed. rewrite recorded_record. cbn [cl_course]. destruct (String.eqb_spec (c_clbid d) (c_clbid c)) as [E|E]; [exfalso; apply N1; rewrite <- E; apply in_map, I|]. apply (NC d). right. exact I. }
    unfold make_claim in M. destruct (_ || _); [injection M as <- <-; split; [reflexivity|intros d I; apply NC; right; exact I]|].
    destruct (dget t (c_clbid c)) as [[|x r]|]; cbn in M; [|exfalso; apply NCC; discriminate|]; injection M as <- <-; auto. }
  destruct G as [G1 G2]. rewrite G1 in H. injection H as <- _ _ _. destruct (IH _ _ _ _ _ _ N2 G2 R) as [more ->]. exists more. reflexivity.
Qed.

(** ** the audit *)
Lemma audit_inserting cx l q a out ins forced t r t' : cx_exc cx = group_exceptions l -> inserting_query l q a ->
  (forall c, In c out -> (0 <= dval (c_credits c))%Q) ->
  q_audit cx t (q_solution q (map ICourse out) ins forced) = Ok (r, t') ->
  exists its ok bad, collect_courses (cx_multi cx) t (q_solution q (map ICourse out) ins forced) out = Ok (its, ok, bad, t') /\
    subseq its out /\ (complete (q_status r) <-> done a (of_kind a its)).
Proof.
  intros EX (QS & QO & QL & QF & W & QA & AL & WA & U) N A. unfold q_audit in A. cbn [q_solution q_overridden q_source q_output q_asserts] in A. rewrite QO, QS, as_courses_map in A. cbn [bind qsource_eqb] in A.
  apply bind_ok in A. destruct A as [[[[items ok] bad] t1] [A1 A]]. apply bind_ok in A1. destruct A1 as [[[[its ok'] bad'] t2] [A1 A2]]. injection A2 as <- <- <- <-.
  assert (SS : subseq its out).
  { unfold collect_courses in A1. destruct (q_attempt _); [eapply claim_each_sub; exact A1|]. destruct (q_record _); [apply bind_ok in A1; destruct A1 as [[o t3] [_ A1]]|]; injection A1 as <- _ _ _; apply subseq_refl. }
  exists its, ok', bad'. split; [|split; [exact SS|]].
  { rewrite A1. apply bind_ok in A. destruct A as [asserts [_ A]]. injection A as _ <-. reflexivity. }
  assert (NL : existsb any_is_lt (q_asserts q) = false) by (rewrite QA; cbn; unfold as_is_lt; destruct AL as (_ & -> & _); reflexivity).
  rewrite NL in A. cbn [andb] in A. rewrite andb_false_r in A. apply bind_ok in A. destruct A as [asserts [A2 A]]. injection A as <- <-.
  rewrite QA in A2. cbn [mapr audit_any] in A2. rewrite (audit_simple cx l a its EX AL WA U) in A2.
  apply bind_ok in A2. destruct A2 as [y [A2 A3]]. injection A3 as <-. apply bind_ok in A2. destruct A2 as [r0 [A2 A3]]. injection A3 as <-. apply bind_ok in A2. destruct A2 as [[st calc] [A2 A3]]. injection A3 as <-.
  assert (NK : forall c, In c (of_kind a its) -> (0 <= dval (c_credits c))%Q) by (intros c I; apply N; eapply subseq_in; [exact SS|]; eapply of_kind_in; eauto).
  rewrite <- (evaluate_done a _ AL NK).
  match goal with |- complete (q_status ?z) <-> _ => destruct (query_passes_iff_all_pass z eq_refl) as [_ [P _]] end.
  rewrite P. cbn [q_result q_asserts]. split.
  - intro H. exists st, calc. split; [exact A2|]. exact (H _ (or_introl eq_refl)).
  - intros [st' [calc' [E C]]] x [<-|[]]. rewrite A2 in E. injection E as <- _. exact C.
Qed.

(** ** what is tried *)
Lemma reaches_apart a items : as_key a <> KSumCredits -> reaches a items -> NoDup items.
Proof.
  unfold reaches. cbv zeta. intros K. destruct (as_key a); try tauto; try congruence; intros [N _].
  all: try exact N. all: try (eapply NoDup_map_inv; exact N). apply subjects_apart in N. eapply NoDup_map_inv; exact N.
Qed.
Definition bare : ctx := limited_ctx (AreaProps.one_rule "" (NQuery KRule (outside_reg 1)) []) (AreaProps.took []) [] [].
Lemma done_enough l q a s : inserting_query l q a -> (forall c, In c s -> (0 <= dval (c_credits c))%Q) -> done a (of_kind a s) -> enough q s.
Proof.
  intros IQ N D. assert (SQ := inserting_simple l q a IQ). apply (all_enough bare [] q s eq_refl SQ). apply (all_complete_iff bare [] q s eq_refl SQ N).
  destruct IQ as (_ & _ & _ & _ & _ & -> & _). intros b [E|[]]. injection E as <-. exact D.
Qed.
(** the data are without repetitions *)
Lemma ins_nodup cx q : (forall k c, find_by_clbid cx k = Some c -> c_clbid c = k) -> (forall k c, forced_by_clbid cx k = Ok c -> c_clbid c = k) ->
  forall es data ins forced d i f, q_insert cx q es (map ICourse data) ins forced = Ok (map ICourse d, i, f) -> NoDup data -> NoDup (map exc_clbid es) ->
  (forall x c, In x es -> ~ In (exc_clbid x) (q_excluded q) -> In c data -> c_clbid c <> exc_clbid x) -> NoDup d.
Proof.
  intros K1 K2. induction es as [|x es IH]; intros data ins forced d i f H ND NE AP; cbn [q_insert] in H.
  - injection H as H _ _. assert (d = data) as -> by (clear -H; revert data H; induction d as [|c d IH]; intros [|c' data] H; try discriminate; [reflexivity|]; injection H as -> H; f_equal; auto). exact ND.
  - cbn [map] in NE. inversion NE as [|? ? N1 N2]; subst. destruct (instr (exc_clbid x) (q_excluded q)) eqn:E.
    { eapply IH; eauto. intros y c Iy. apply AP. right. exact Iy. }
    apply instr_no in E.
    assert (STEP : forall c ins' forced', c_clbid c = exc_clbid x -> q_insert cx q es (map ICourse data ++ [ICourse c]) ins' forced' = Ok (map ICourse d, i, f) -> NoDup d).
    { intros c ins' forced' Ec H'. replace (map ICourse data ++ [ICourse c]) with (map ICourse (data ++ [c])) in H' by (rewrite map_app; reflexivity). eapply IH; [exact H'| |exact N2|].
      - apply ListFacts.NoDup_app; [exact ND|repeat constructor; intros []|]. intros y Iy [<-|[]]. exact (AP x c (or_introl eq_refl) E Iy Ec).
      - intros y z Iy NX Iz. apply in_app_or in Iz. destruct Iz as [Iz|[<-|[]]]; [apply AP; auto; right; exact Iy|]. rewrite Ec. intro X. apply N1. rewrite X. apply in_map, Iy. }
    destruct (exc_forced x).
    + apply bind_ok in H. destruct H as [c [F H]]. eapply STEP; [exact (K2 _ _ F)|exact H].
    + destruct (find_by_clbid cx (exc_clbid x)) as [c|] eqn:F; [eapply STEP; [exact (K1 _ _ F)|exact H]|]. eapply IH; eauto. intros y c Iy. apply AP. right. exact Iy.
Qed.
Lemma apart_nodup {A B} (P : A -> bool) (key : A -> B) : forall l,
  (forall pre x mid y post, l = pre ++ x :: mid ++ y :: post -> P x = true -> P y = true -> key x <> key y) -> NoDup (map key (filter P l)).
Proof.
  induction l as [|x l IH]; intro H; [constructor|]. assert (IH' : NoDup (map key (filter P l))) by (apply IH; intros pre y mid z post E; apply (H (x :: pre) y mid z post); rewrite E; reflexivity).
  cbn [filter]. destruct (P x) eqn:E; [|exact IH']. cbn [map]. constructor; [|exact IH']. intro I. apply in_map_iff in I. destruct I as [y [K I]]. apply filter_In in I. destruct I as [I Py].
  apply in_split in I. destruct I as [mid [post ->]]. exact (H [] x mid y post eq_refl E Py (eq_sym K)).
Qed.
Lemma filtered_insert cx q : q_source q = QCourses -> answerable (q_where q) ->
  q_filtered cx q = q_insert cx q (get_inserts (cx_exc cx) (q_path q)) (map ICourse (MonoQuery.picked cx q)) [] [].
Proof.
  intros QS W. unfold q_filtered, MonoQuery.picked, keeps, q_data. rewrite QS. fold (query_courses cx q).
  set (cs := filter _ (query_courses cx q)). destruct (q_where q) as [w|].
  - destruct (filter_res_total (fun x => apply_pred x w) (map ICourse cs)) as [r R].
    { intros x I. apply in_map_iff in I. destruct I as [c [<- _]]. apply (W w eq_refl). }
    rewrite R. cbn [bind]. apply filter_res_items in R. destruct R as [-> _]. f_equal. clear. induction cs as [|c cs IH]; [reflexivity|]. cbn [map filter]. destruct (match apply_pred (ICourse c) w with Ok b => b | Err _ => false end); cbn [map]; congruence.
  - cbn [bind]. f_equal. f_equal. clear. induction cs as [|c cs IH]; [reflexivity|]. cbn. congruence.
Qed.
Lemma data_nodup cx l q cs ins forced : QueryProps.keyed cx -> cx_exc cx = group_exceptions l -> q_source q = QCourses -> answerable (q_where q) ->
  q_filtered cx q = Ok (map ICourse cs, ins, forced) -> NoDup (query_courses cx q) -> (forall c, eligible cx q c -> ~ inserted_id l q (c_clbid c)) ->
  (forall pre x mid y post k f g, l = pre ++ x :: mid ++ y :: post -> ex_path x = q_path q -> ex_path y = q_path q -> ex_act x = AInsert k f -> ex_act y <> AInsert k g) -> NoDup cs.
Proof.
  intros KE EX QS W F ND EL ON. rewrite (filtered_insert cx q QS W) in F. assert (FK : forall k c, find_by_clbid cx k = Some c -> c_clbid c = k) by (intros k c H; unfold find_by_clbid, lookup_clbid in H; apply find_some in H; apply String.eqb_eq, H).
  refine (ins_nodup cx q _ _ _ _ _ _ _ _ _ F _ _ _).
  - intros k c H. exact (FK k c H).
  - intros k c H. unfold forced_by_clbid in H. destruct (find_by_clbid cx k) as [x|] eqn:E0; [injection H as <-; exact (FK _ _ E0)|]. destruct (dget (cx_forced cx) k) eqn:E; [|discriminate H]. injection H as <-. exact (KE _ _ E).
  - unfold MonoQuery.picked. apply NoDup_filter, NoDup_filter, ND.
  - rewrite EX. unfold get_inserts. destruct (groups_ok l) as [_ [A _]]. rewrite A. 
    replace (filter is_insert (filter (fun x => path_eqb (ex_path x) (q_path q)) l)) with (filter (fun x => path_eqb (ex_path x) (q_path q) && is_insert x) l).
    2:{ clear. induction l as [|x l IH]; [reflexivity|]. cbn [filter]. destruct (path_eqb _ _); cbn [andb filter]; destruct (is_insert x); rewrite ?IH; reflexivity. }
    apply apart_nodup. intros pre x mid y post E Px Py K. apply andb_true_iff in Px, Py. destruct Px as [P1 I1], Py as [P2 I2]. apply path_eqb_iff in P1, P2.
    unfold is_insert in I1, I2. unfold exc_clbid in K. destruct (ex_act x) as [k f| | | | |] eqn:A1; try discriminate. destruct (ex_act y) as [k' g| | | | |] eqn:A2; try discriminate. subst k'.
    exact (ON pre x mid y post k f g E P1 P2 A1 A2).
  - intros x c I NX J K. rewrite EX in I. apply inserts_at in I. destruct I as [I [P [k [f A]]]]. apply (EL c); [split; [exact (picked_in cx q c J)|exact (picked_iff cx q c J)]|].
    assert (E : exc_clbid x = k) by (unfold exc_clbid; rewrite A; reflexivity). rewrite E in *. exists x, f. rewrite K. auto.
Qed.

(** ** C180 *)

(** Classes inserted at a query count like those it accepts, and no class counts twice: the query
    is met exactly when there are so many of them. *)
Theorem inserted_classes_count_once :
  forall ord cx l q a t merge best t', QueryProps.keyed cx -> cx_exc cx = group_exceptions l -> cx_multi cx = [] ->
  inserting_query l q a -> proper_candidates cx l q -> counts_once cx l q a ->
  find_best_solution ord cx t (NQuery KRule q) merge = Ok (best, t') ->
  ((exists r, best = Some r /\ complete (status_of r)) <-> exists items, accepted_or_inserted cx l q a items /\ reaches a items).
Proof.
  intros ord cx l q a t merge best t' KE EX MC IQ [ID NN] ONCE F. assert (SQ := inserting_simple l q a IQ). assert (IQ' := IQ). destruct IQ' as (QS & QO & QL & QF & W & QA & AL & WA & U).
  assert (RI : rising (as_key a)) by apply AL. assert (SEL := proj1 (find_best_exact ord cx t (NQuery KRule q) merge best) (ex_intro _ t' F)).
  assert (FO : exists cs ins forced, q_filtered cx q = Ok (map ICourse cs, ins, forced)).
  { destruct (q_filtered cx q) as [x|er] eqn:E; [destruct (filtered_courses cx q x QS E) as [cs [ins [forced ->]]]; eauto|]. exfalso.
    assert (S0 : solutions ord cx (NQuery KRule q) = Gen [] (Some er)) by (cbn [solutions]; unfold q_solutions; rewrite QO, E; reflexivity). rewrite S0 in SEL.
    destruct SEL as [[r [own [last [_ S]]]]|[_ [_ S]]]; [|discriminate]. inversion S as [pre ? post ? ? ? EI|pre ? post ? ? ? ? ? ? ? ? ? EI]; destruct pre; discriminate. }
  destruct FO as [cs [ins [forced FO]]]. destruct (filtered_spec cx l q _ _ _ EX QS FO) as [cs0 [E0 [CA [IN FC]]]].
  assert (cs0 = cs) as -> by (clear -E0; revert cs E0; induction cs0 as [|c d IH]; intros [|c' data] H; try discriminate; [reflexivity|]; injection H as -> H; f_equal; auto). clear E0.
  assert (LT : forall v, In v (g_items (limited_transcripts ord (q_limit q) forced cs)) <-> v = cs) by (intro v; rewrite QL; cbn; intuition congruence).
  assert (WC := simple_counted [] q SQ).
  assert (SOL : forall s, In s (g_items (solutions ord cx (NQuery KRule q))) <-> exists out, s = NQuery KSol (q_solution q (map ICourse out) ins forced) /\
     (In out (g_items (selections_of ord q cs ins forced)) \/ (out = [] /\ selections_of ord q cs ins forced = Gen [] None))).
  { intro s. cbn [solutions]. unfold gmap. cbn [g_items]. rewrite in_map_iff. split.
    - intros [x [<- I]]. apply (solutions_in ord cx q _ _ _ x QS QO FO) in I. destruct I as [out [-> I]]. eauto.
    - intros [out [-> I]]. eexists. split; [reflexivity|]. apply (solutions_in ord cx q _ _ _ _ QS QO FO). eauto. }
  assert (OUT : forall out, In out (g_items (selections_of ord q cs ins forced)) -> forall c, In c out -> In c cs).
  { intros out I c J. apply selections_in in I. destruct I as [v [Iv I]]. apply LT in Iv. subst v. destruct (q_attempt q); [|subst out; exact J]. destruct I as [combo [I ->]]. eapply complete_with_sub; [|exact J]. eapply iterate_sound; eauto. }
  split.
  - intros [r [-> C]]. destruct SEL as [[x [own [last [E S]]]]|[E _]]; [injection E as <-|discriminate].
    assert (X : exists s t0, In s (g_items (solutions ord cx (NQuery KRule q))) /\ audit ord cx [] s = Ok (r, t0)).
    { destruct S as [pre s0 post r q0 t3 EI FU [A _] CO|pre s0 post r q0 t3 all z0 zr zq zt N EI FU [A _] P1 P2 E3 CZ]; exists s0, t3; (split; [rewrite EI; apply in_or_app; simpl; auto|exact A]). }
    destruct X as [s [t0 [I A]]]. apply SOL in I. destruct I as [out [-> I]]. cbn [audit] in A. apply bind_ok in A. destruct A as [[r' t1] [A A']]. injection A' as <- <-. cbn [status_of] in C.
    assert (OI : forall c, In c out -> In c cs) by (destruct I as [I|[-> _]]; [apply OUT, I|intros c []]).
    assert (NO : forall c, In c out -> (0 <= dval (c_credits c))%Q) by (intros c J; apply NN, CA, OI, J).
    destruct (audit_inserting cx l q a out ins forced [] r' t1 EX IQ NO A) as [its [ok [bad [CO [SS D]]]]]. apply D in C.
    destruct (reduce a its RI C) as [s [S1 [RE PR]]]. exists s. split; [|exact RE]. split; [|intros c J; split; [|apply PR, J]].
    + destruct ONCE as [K|[[QT [QW NF]]|[ND [EL ON]]]]; [eapply reaches_apart; eauto| |].
      * assert (FE : forced = []) by (destruct forced as [|k ks]; [reflexivity|]; exfalso; apply (NF k), FC; left; reflexivity). unfold collect_courses in CO. cbn [q_solution q_attempt] in CO. rewrite QT, MC in CO.
        apply claim_each_back in CO; [|cbn; rewrite QF, FE; reflexivity]. cbn [q_solution q_allow] in CO. rewrite QW in CO. destruct CO as [_ [N1 _]]. eapply subseq_NoDup; [exact S1|]. eapply NoDup_map_inv; exact N1.
      * assert (NC := data_nodup cx l q cs ins forced KE EX QS W FO ND EL ON). eapply subseq_NoDup; [exact S1|]. eapply subseq_NoDup; [exact SS|].
        destruct I as [I|[-> _]]; [|constructor]. apply selections_in in I. destruct I as [v [Iv I]]. apply LT in Iv. subst v. destruct (q_attempt q); [|subst out; exact NC]. destruct I as [combo [I ->]].
        apply iterate_sound in I. unfold complete_with. apply ListFacts.NoDup_app; [eapply subseq_NoDup; eauto|apply NoDup_filter, NC|]. intros c J1 J2. apply filter_In in J2. destruct J2 as [_ J2]. apply andb_true_iff in J2. destruct J2 as [_ J2]. apply negb_true_iff, instr_no in J2. apply J2, in_map, J1.
    + apply CA, OI. eapply subseq_in; [exact SS|]. eapply subseq_in; [exact S1|exact J].
  - intros [items [[NI PR] RE]]. set (s := dedup course_eqb (filter (fun c => memb course_eqb c items) cs)).
    assert (SC : subseq s cs) by (unfold s; eapply subseq_trans; [apply dedup_subseq|apply subseq_filter]).
    assert (PE : Permutation s items).
    { apply NoDup_Permutation; [apply dedup_NoDup, course_eqb_spec|exact NI|]. intro c. unfold s. rewrite (ListFacts.in_dedup course_eqb course_eqb_spec), filter_In, (memb_In course_eqb course_eqb_spec). split; [tauto|]. intro I. split; [apply CA, PR, I|exact I]. }
    assert (NS : NoDup (map c_clbid s)).
    { apply ids_nodup; [|eapply Permutation_NoDup; [symmetry; exact PE|exact NI]]. intros c d I J. apply ID; apply CA; eapply subseq_in; eauto. }
    assert (NSC : forall c, In c s -> (0 <= dval (c_credits c))%Q) by (intros c I; apply NN, CA; eapply subseq_in; eauto).
    assert (D : done a (of_kind a s)).
    { apply expand; [exact RI|eapply reaches_perm; [symmetry; exact PE|exact RE]|]. intros c I. apply (PR c). eapply Permutation_in; eauto. }
    assert (EN := done_enough l q a s IQ NSC D).
    assert (NCS : forall c, In c cs -> (0 <= dval (c_credits c))%Q) by (intros c I; apply NN, CA, I).
    assert (TR : tried q cs s) by (apply (enough_tried []); auto; apply credits_subseq; auto).
    (* the candidate that will do *)
    set (out := if q_attempt q then complete_with ins forced cs s else cs).
    assert (IO : In out (g_items (selections_of ord q cs ins forced))).
    { assert (SI := selections_in_conv ord q cs ins forced cs (proj2 (LT cs) eq_refl)). unfold out. destruct (q_attempt q); [apply SI; auto|apply SI; exact Logic.I]. }
    assert (IS : In (NQuery KSol (q_solution q (map ICourse out) ins forced)) (g_items (solutions ord cx (NQuery KRule q)))) by (apply SOL; eauto).
    destruct SEL as [[r [own [last [-> S]]]]|[_ [_ S]]]; [|rewrite S in IS; destruct IS]. exists r. split; [reflexivity|].
    destruct S as [pre s0 post r q0 t3 EI FU CAN CO|pre s0 post r q0 t3 all z0 zr zq zt N EI FU CAN P1 P2 E3 CZ]; [exact CO|exfalso].
    rewrite Forall_forall in FU. destruct (FU _ IS) as [r1 [q1 [t1 [[A _] NC]]]]. apply NC. cbn [audit] in A. apply bind_ok in A. destruct A as [[r' t2] [A A']]. injection A' as <- <-. cbn [status_of].
    assert (NO : forall c, In c out -> (0 <= dval (c_credits c))%Q) by (intros c J; apply NCS, (OUT out IO), J).
    destruct (audit_inserting cx l q a out ins forced [] r' t2 EX IQ NO A) as [its [ok [bad [CO [SS DD]]]]]. apply DD.
    assert (SI : subseq s its).
    { unfold collect_courses in CO. cbn [q_solution q_attempt q_record] in CO. unfold out in CO. destruct (q_attempt q) eqn:QT.
      - rewrite MC in CO. unfold complete_with in CO. apply claim_each_free in CO; [destruct CO as [more ->]; apply subseq_front|exact NS|intros c _ H; apply H; reflexivity].
      - destruct (q_record q); [apply bind_ok in CO; destruct CO as [[o t4] [_ CO]]|]; injection CO as <- _ _ _; exact SC. }
    refine (done_larger a _ _ AL _ (of_kind_sub a _ _ SI) D). intros c J. apply NO. eapply subseq_in; [exact SS|]. eapply of_kind_in; eauto.
Qed.
Print Assumptions inserted_classes_count_once.

(** With more insertions a query that is met stays so. *)
Theorem further_insertions_do_not_hurt :
  forall ord ord' cx cx' l l' q a t tt merge best t1 best' t1', QueryProps.keyed cx -> QueryProps.keyed cx' ->
  cx_exc cx = group_exceptions l -> cx_exc cx' = group_exceptions l' -> cx_multi cx = [] -> cx_multi cx' = [] ->
  incl l l' -> query_courses cx' q = query_courses cx q -> cx_transcript cx' = cx_transcript cx ->
  (forall k c, forced_by_clbid cx k = Ok c -> forced_by_clbid cx' k = Ok c) ->
  inserting_query l' q a -> proper_candidates cx' l' q -> counts_once cx l q a -> counts_once cx' l' q a ->
  find_best_solution ord cx t (NQuery KRule q) merge = Ok (best, t1) -> find_best_solution ord' cx' tt (NQuery KRule q) merge = Ok (best', t1') ->
  (exists r, best = Some r /\ complete (status_of r)) -> exists r, best' = Some r /\ complete (status_of r).
Proof.
  intros ord ord' cx cx' l l' q a t tt merge best t1 best' t1' KE KE' EX EX' MC MC' IN QC TR FB IQ PC CO CO' F F'.
  assert (IQ0 : inserting_query l q a) by (destruct IQ as (A & B & C & D & E & G & H & W & U); repeat (split; [assumption|]); intros x I; apply U, IN, I).
  assert (CA : forall c, QuerySpec.candidate cx l q c -> QuerySpec.candidate cx' l' q c).
  { intros c [[A B]|[x [k [f [I [P [A [N H]]]]]]]]; [left; split; [rewrite QC; exact A|exact B]|]. right. exists x, k, f. split; [apply IN, I|]. split; [exact P|]. split; [exact A|]. split; [exact N|].
    destruct H as [H|[H1 H2]]; [left; unfold find_by_clbid in *; rewrite TR; exact H|right; auto]. }
  assert (PC0 : proper_candidates cx l q) by (destruct PC as [ID NN]; split; [intros c d I J; apply ID; auto|intros c I; apply NN; auto]).
  rewrite (inserted_classes_count_once ord cx l q a t merge best t1 KE EX MC IQ0 PC0 CO F), (inserted_classes_count_once ord' cx' l' q a tt merge best' t1' KE' EX' MC' IQ PC CO' F').
  intros [items [[N PR] R]]. exists items. split; [|exact R]. split; [exact N|]. intros c I. destruct (PR c I) as [P1 P2]. auto.
Qed.
Print Assumptions further_insertions_do_not_hurt.

(** Credits may count twice. *)
Definition classes_never_count_twice : Prop :=
  forall ord cx l q a t merge best t', set_order ord -> QueryProps.keyed cx -> cx_exc cx = group_exceptions l -> cx_multi cx = [] ->
  inserting_query l q a -> proper_candidates cx l q ->
  find_best_solution ord cx t (NQuery KRule q) merge = Ok (best, t') ->
  (exists r, best = Some r /\ complete (status_of r)) -> exists items, accepted_or_inserted cx l q a items /\ reaches a items.

(** ** Samples *)
Local Open Scope string_scope.
Definition asks (k : akey) (n : Z) : query :=
  mkQuery ["$"; ".query"] false QCourses DtCourse [APlain (AssertionProps.plain k OGte n false)] [] (Some (CommonProofs.p_not "REG")) false true true false [] [] [] [] [] [].
Definition reads_with (l : list exc) (cs : list course) : ctx := limited_ctx (AreaProps.one_rule "concentration" (NQuery KRule (outside_reg 1)) []) (AreaProps.took cs) l cs.
Definition inserts (k : string) (forced : bool) : exc := mkExc ["$"; ".query"] (AInsert k forced).
Lemma asks_inserting l k n : (forall x, In x l -> ex_path x = ["$"; ".query"]) -> In k [KCourses; KSumCredits] -> (1 <= n)%Z -> inserting_query l (asks k n) (AssertionProps.plain k OGte n false).
Proof.
  intros P K H. split; [reflexivity|]. split; [reflexivity|]. split; [reflexivity|]. split; [reflexivity|].
  split; [intros w E c; injection E as <-; destruct (CommonProofs.decides_subject "REG" c) as [b [E _]]; eauto|]. split; [reflexivity|].
  assert (V : (dval (dec_of_Z n) == inject_Z n)%Q) by (unfold dval, dec_of_Z; cbn [dcoef dexp]; first [reflexivity|cbn; rewrite ?Z.mul_1_r; reflexivity]).
  split; [|split; [intros w E; discriminate E|intros x I E; rewrite (P x I) in E; discriminate E]].
  split; [reflexivity|]. split; [reflexivity|]. split; [reflexivity|]. split; [reflexivity|]. split; [cbn in K |- *; intuition|]. split.
  - intros E. split; [reflexivity|]. cbn [AssertionProps.plain as_expected]. rewrite V. change (inject_Z 0 < inject_Z n)%Q. rewrite <- Zlt_Qlt. lia.
  - intros _. exists n. split; [exact H|exact V].
Qed.
Definition two : list course := [a_class "100" "A"; a_class "300" "REG"].
Lemma two_proper l k n : proper_candidates (reads_with l two) l (asks k n).
Proof.
  assert (IN : forall c, QuerySpec.candidate (reads_with l two) l (asks k n) c -> In c two).
  { intros c [[A _]|[x [i [f [_ [_ [_ [_ H]]]]]]]]; [exact A|]. assert (G : forall c, find_by_clbid (reads_with l two) i = Some c -> In c two) by (intros d E; unfold find_by_clbid, lookup_clbid in E; apply find_some in E; apply in_rev, E).
    destruct H as [H|[_ H]]; [exact (G c H)|]. unfold forced_by_clbid in H. destruct (find_by_clbid _ i) as [d|] eqn:E; [injection H as <-; exact (G _ eq_refl)|].
    destruct (dget _ i) as [d|] eqn:E2; [|discriminate H]. injection H as <-. destruct (forced_sound l i d two [] ltac:(intros ? ? X; discriminate X) two ltac:(auto) E2) as [_ X]. exact X. }
  split; [intros c d I J E; apply IN in I, J; unfold two in I, J; repeat (destruct I as [<-|I]; [repeat (destruct J as [<-|J]; [first [reflexivity|discriminate E]|]); destruct J|]); destruct I|].
  intros c I. apply IN in I. unfold two in I. repeat (destruct I as [<-|I]; [vm_compute; discriminate|]). destruct I.
Qed.
Lemma reads_keyed l : QueryProps.keyed (reads_with l two).
Proof. intros k c E. apply (forced_sound l k c two [] ltac:(intros ? ? X; discriminate X) two ltac:(auto) E). Qed.
(** The class of REG does not match; inserted it is the second class. Inserting the matching class
    does not make two of it, unless credits are asked for and the insertion is forced. *)
Example insertion_example :
  map (fun x => outcome (find_best_solution same_order (reads_with (snd (fst x)) two) [] (NQuery KRule (asks (fst (fst x)) (snd x))) false))
    [(KCourses, [], 1%Z); (KCourses, [], 2%Z); (KCourses, [inserts "300" false], 2%Z); (KCourses, [inserts "300" true], 2%Z); (KCourses, [inserts "100" true], 2%Z);
     (KSumCredits, [inserts "100" false], 2%Z); (KSumCredits, [inserts "300" false], 2%Z); (KSumCredits, [inserts "100" true], 2%Z)]
  = [Some Done; Some NeedsMoreItems; Some Done; Some Done; Some NeedsMoreItems; Some NeedsMoreItems; Some Done; Some Done] /\
  (exists items, accepted_or_inserted (reads_with [inserts "300" true] two) [inserts "300" true] (asks KCourses 2) (AssertionProps.plain KCourses OGte 2 false) items /\ reaches (AssertionProps.plain KCourses OGte 2 false) items) /\
  ~ (exists items, accepted_or_inserted (reads_with [inserts "100" true] two) [inserts "100" true] (asks KCourses 2) (AssertionProps.plain KCourses OGte 2 false) items /\ reaches (AssertionProps.plain KCourses OGte 2 false) items).
Proof.
  assert (L : forall k f x, In x [inserts k f] -> ex_path x = ["$"; ".query"]) by (intros k f x [<-|[]]; reflexivity).
  split; [vm_compute; reflexivity|]. split.
  - assert (S : outcome (find_best_solution same_order (reads_with [inserts "300" true] two) [] (NQuery KRule (asks KCourses 2)) false) = Some Done) by (vm_compute; reflexivity).
    destruct (status_found _ _ S) as [r [t' [F ST]]].
    apply (inserted_classes_count_once same_order (reads_with [inserts "300" true] two) [inserts "300" true] (asks KCourses 2) _ [] false (Some r) t'); try exact F; try reflexivity;
      [apply reads_keyed|apply asks_inserting; [apply L|apply in_eq|lia]|apply two_proper|left; discriminate|]. exists r. split; [reflexivity|left; exact ST].
  - assert (S : outcome (find_best_solution same_order (reads_with [inserts "100" true] two) [] (NQuery KRule (asks KCourses 2)) false) = Some NeedsMoreItems) by (vm_compute; reflexivity).
    destruct (status_found _ _ S) as [r [t' [F ST]]]. intro H.
    apply (inserted_classes_count_once same_order (reads_with [inserts "100" true] two) [inserts "100" true] (asks KCourses 2) _ [] false (Some r) t') in H; try exact F; try reflexivity;
      [|apply reads_keyed|apply asks_inserting; [apply L|apply in_eq|lia]|apply two_proper|left; discriminate]. destruct H as [r0 [E C]]. injection E as <-. rewrite ST in C. destruct C as [X|X]; discriminate X.
Qed.
(** One class of one credit, matched and forced in, makes two credits. *)
Theorem classes_never_count_twice_refuted : ~ classes_never_count_twice.
Proof.
  intro H. set (l := [inserts "100" true]).
  assert (S : outcome (find_best_solution same_order (reads_with l two) [] (NQuery KRule (asks KSumCredits 2)) false) = Some Done) by (vm_compute; reflexivity).
  destruct (status_found _ _ S) as [r [t' [F ST]]].
  destruct (H same_order (reads_with l two) l (asks KSumCredits 2) (AssertionProps.plain KSumCredits OGte 2 false) [] false (Some r) t') as [items [[N PR] R]]; try exact F; try reflexivity.
  - exact same_set_order.
  - apply reads_keyed.
  - apply asks_inserting; [intros x [<-|[]]; reflexivity|right; apply in_eq|lia].
  - apply two_proper.
  - exists r. split; [reflexivity|left; exact ST].
  - assert (A : forall c, In c items -> c = a_class "100" "A").
    { intros c I. destruct (PR c I) as [[[A [_ P]]|[x [k [f [[<-|[]] [_ [E [_ G]]]]]]]] _].
      - destruct A as [<-|[<-|[]]]; [reflexivity|]. vm_compute in P. discriminate P.
      - injection E as <- <-. destruct G as [G|[_ G]]; vm_compute in G; injection G as <-; reflexivity. }
    assert (items = [] \/ items = [a_class "100" "A"]) as [-> | ->].
    { destruct items as [|c [|d items]]; [left; reflexivity|right; rewrite (A c); [reflexivity|apply in_eq]|]. exfalso. inversion N as [|? ? NI _]; subst. apply NI. rewrite (A c (or_introl eq_refl)), (A d (or_intror (or_introl eq_refl))). apply in_eq. }
    all: vm_compute in R; apply R; reflexivity.
Qed.
Print Assumptions classes_never_count_twice_refuted.
(** The same without force at a query that may share its classes. *)
Example sharing_example :
  let shared := mkQuery ["$"; ".query"] false QCourses DtCourse [APlain (AssertionProps.plain KSumCredits OGte 2 false)] [] (Some (CommonProofs.p_not "REG")) true true true false [] [] [] [] [] [] in
  map (fun l => outcome (find_best_solution same_order (reads_with l two) [] (NQuery KRule shared) false)) [[]; [inserts "100" false]] = [Some NeedsMoreItems; Some Done].
Proof. vm_compute. reflexivity. Qed.
