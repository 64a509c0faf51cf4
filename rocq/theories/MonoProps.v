(** Property theorems about trees of courses: the search is exact (C154), and one more class
    does not hurt (C155). *)
From Coq Require Import List ZArith QArith Bool String Lia Sorted Permutation.
From Verif Require Import Transcript Prelude Dec Status Course Claims Exceptions Op Context CondExpr Paths Predicate Limit Apply Assertion Query CourseRule Tree Solve Driver Area StudentLoad Run Loader AreaLoad LoaderProps CommonProps.
From Verif Require Import ListFacts LimitSpec LimitProps ClaimsSpec ClaimsProofs AssertionSpec PathsSpec PathsProofs PredicateProofs ExceptionsProofs EnumSpec QuerySpec CourseRuleSpec CourseRuleProps TreeSpec TreeProofs TreeStatusProps TreeSolSpec TreeSolProofs TreeSolProps TreeAskSpec TreeAskProps TreeAuditSpec TreeAuditProofs SolveSpec SolveProofs SolveProps AreaSpec AreaProps AreaLoadProps AreaEndProps EstimateProps PlanSpec PlanProofs PlanTop PlanProps MonoSpec MonoQuery MonoProofs MonoTop.
Import ListNotations.
Local Open Scope list_scope.

(** ** C154 *)

(** For a tree of courses and simple queries the search is exact: its result is complete if and only if there is a
    way to meet the rule with finished classes, none of them used twice. *)
Theorem the_search_is_exact :
  forall ord cx l n t merge best t', set_order ord -> cx_exc cx = group_exceptions l -> cx_multi cx = [] ->
  of_courses l n -> orderly n -> plain_rule cx l n -> no_debts cx n -> find_best_solution ord cx t n merge = Ok (best, t') ->
  ((exists r, best = Some r /\ complete (status_of r)) <-> exists ks, meets ord cx l n ks /\ NoDup ks).
Proof.
  intros ord cx l n t merge best t' SO EX MC OC OR PL DE F. assert (LI : listable ord cx l n) by (apply courses_listable; auto; apply OR). split.
  - intros [r [-> C]]. destruct (proj1 (find_best_exact ord cx t n merge (Some r)) (ex_intro _ t' F)) as [[x [own [last [E S]]]]|[E _]]; [injection E as <-|discriminate].
    assert (X : exists s t0, In s (g_items (solutions ord cx n)) /\ audit ord cx [] s = Ok (r, t0)).
    { destruct S as [pre s0 post r q t3 EI FU [CA _] CO|pre s0 post r q t3 all z0 zr zq zt N EI FU [CA _] P1 P2 E3 CZ]; exists s0, t3; (split; [rewrite EI; apply in_or_app; simpl; auto|exact CA]). }
    destruct X as [s [t0 [I A]]]. destruct (complete_is_a_plan ord cx l MC EX SO n OC OR DE LI s [] r t0 I A C) as [ks [ME [ND _]]]. eauto.
  - intros [ks [ME ND]]. eapply what_can_be_met_is_found; eauto.
Qed.
Print Assumptions the_search_is_exact.

(** ** the area *)
(** some solution of the area is complete *)
Definition passed (ord : list course -> list course) (nord : list node -> list node) (u : study) (st : student) (es : list exc) : Prop :=
  exists z v rest, In z (g_items (area_solutions ord nord u st es)) /\ area_audit ord u z = Ok (v, rest) /\ complete (area_status v).
(** an area whose top rule asks for all of its children, which are made of courses *)
Definition course_area (u : study) (es : list exc) (i : count_info) (items : list node) : Prop :=
  u_result u = NCount KRule i items /\ orderly (u_result u) /\ of_courses es (u_result u) /\ u_multi u = [] /\
  ~ waived_at es (n_path i) /\ n_count i = Z.of_nat (List.length items).
Lemma transcripts_out ord nord u st es z : forall lts zs b, for_transcripts ord nord u st es b lts zs -> In z zs ->
  exists lt, In lt lts /\ z_ctx z = limited_ctx u st es lt /\ In (z_sol z) (g_items (fst (top_solutions ord nord (limited_ctx u st es lt) [] (u_result u)))) /\
    g_exn (fst (top_solutions ord nord (limited_ctx u st es lt) [] (u_result u))) = None.
Proof.
  intros lts zs b F. induction F as [|t lt lts ys t' rest F1 F2 IH]; intro I; [destruct I|]. apply in_app_or in I. destruct I as [I|I].
  - destruct F1 as [G [M [CX _]]]. rewrite Forall_forall in CX. exists lt. split; [simpl; auto|]. split; [apply CX, I|]. split; [rewrite <- M; apply in_map; exact I|exact G].
  - destruct (IH I) as [lt' [J H]]. exists lt'. simpl. auto.
Qed.
(** Such an area that is not a major has a complete solution if and only if it can be passed. *)
Theorem passed_if_it_can_be :
  forall ord nord u st es i items, (forall x, Permutation (nord x) x) -> set_order ord -> u_kind u <> "major"%string -> course_area u es i items ->
  (forall lt, In lt (g_items (transcripts ord u st es)) -> fair (limited_ctx u st es lt) es items /\ no_debts (limited_ctx u st es lt) (u_result u)) ->
  g_exn (area_solutions ord nord u st es) = None ->
  (passed ord nord u st es <-> can_be_passed ord u st es).
Proof.
  intros ord nord u st es i items NO SO NM [UR [OR [OC [MC [W CNT]]]]] FA GE. split.
  - intros [z [v [rest [Iz [A C]]]]]. destruct (area_solutions_exact ord nord u st es GE) as [_ FT].
    destruct (transcripts_out ord nord u st es z _ _ _ FT Iz) as [lt [IL [EC [IS G]]]].
    exists i, items, lt. split; [exact UR|]. split; [exact OR|]. split; [exact IL|]. cbv zeta. split; [apply FA, IL|].
    assert (DE := proj2 (FA lt IL)). rewrite UR in DE. apply area_audit_exact in A. destruct A as [r [AU [_ [_ [[_ VR]|[K _]]]]]]; [|contradiction]. rewrite EC in AU. rewrite UR in IS, OR, OC, G. cbn [top_solutions] in IS, G.
    assert (CR : complete (status_of r)).
    { unfold area_status in C. rewrite VR in C. assert (SI : siblings items) by (apply (proj2 (proj2 OR) KRule i); constructor).
      destruct (top_listed ord nord (limited_ctx u st es lt) es KRule i items (z_sol z) NO eq_refl SI ltac:(lia) (proj1 (proj2 OR)) W G IS) as (out & ES & _).
      rewrite ES in AU. cbn [audit n_overridden] in AU. apply bind_ok in AU. destruct AU as [[rs t1] [_ AU]]. apply bind_ok in AU. destruct AU as [cls [_ AU]]. injection AU as <- <-. exact C. }
    refine (top_back ord nord (limited_ctx u st es lt) es i items NO SO eq_refl MC OR OC DE W CNT (proj1 (FA lt IL)) G (z_sol z) (z_claims z) r rest IS AU CR).
  - intro H. destruct (an_area_that_can_be_passed_has_a_solution ord nord u st es NO SO NM H GE) as [z [v [rest [I [A C]]]]]. exists z, v, rest. auto.
Qed.
Print Assumptions passed_if_it_can_be.

(** ** C155 *)

(** With more classes the same tree of courses is still found to be met. *)
Lemma plain_more cx cx' l n : more cx cx' -> plain_rule cx l n -> plain_rule cx' l n.
Proof.
  intros [_ [M _]] [H1 H2]. split; [|exact H2]. intros r C. destruct (H1 r C) as [F G]. split; [exact F|]. intros x k f I P A. destruct (G x k f I P A) as [c E]. exists c. apply M, E.
Qed.
Lemma no_debts_before cx cx' n : in_order cx cx' n -> no_debts cx' n -> no_debts cx n.
Proof. intros IO DE k q c P I. apply (DE k q c P). eapply subseq_in; [apply (proj1 (IO k q P))|exact I]. Qed.
Theorem more_classes_do_not_hurt :
  forall ord cx cx' l n t t' merge best best' t1 t1', set_order ord -> cx_exc cx = group_exceptions l -> cx_exc cx' = group_exceptions l -> cx_multi cx = [] -> cx_multi cx' = [] ->
  more cx cx' -> in_order cx cx' n -> no_debts cx' n -> of_courses l n -> orderly n -> plain_rule cx l n ->
  find_best_solution ord cx t n merge = Ok (best, t1) -> find_best_solution ord cx' t' n merge = Ok (best', t1') ->
  (exists r, best = Some r /\ complete (status_of r)) -> exists r, best' = Some r /\ complete (status_of r).
Proof.
  intros ord cx cx' l n t t' merge best best' t1 t1' SO EX EX' MC MC' M IO DE' OC OR PL F F' H. assert (DE := no_debts_before _ _ _ IO DE').
  apply (the_search_is_exact ord cx l n t merge best t1 SO EX MC OC OR PL DE F) in H. destruct H as [ks [ME ND]].
  apply (the_search_is_exact ord cx' l n t' merge best' t1' SO EX' MC' OC OR (plain_more _ _ _ _ M PL) DE' F'). exists ks. split; [|exact ND].
  apply (meets_more ord cx cx'); auto. apply OR.
Qed.
Print Assumptions more_classes_do_not_hurt.

(** the second student has taken all that the first one has, and no two of their classes have
    the same id *)
Definition more_classes (st st' : student) : Prop :=
  (forall c, In c (t_courses st) -> In c (t_courses st')) /\
  (forall c d, In c (t_courses st') -> In d (t_courses st') -> c_clbid c = c_clbid d -> c = d).
Lemma forced_sound es k c : forall cs d, (forall k c, dget d k = Some c -> c_clbid c = k /\ In c cs) -> forall l, (forall x, In x l -> In x cs) ->
  dget (fold_left (fun d c => if smem (c_clbid c) (forced_clbids es) then dset d (c_clbid c) c else d) l d) k = Some c -> c_clbid c = k /\ In c cs.
Proof.
  intros cs d H l. revert d H. induction l as [|x l IH]; intros d H IN E; cbn [fold_left] in E; [apply H; exact E|].
  refine (IH _ _ _ E); [|intros; apply IN; simpl; auto]. intros k' c' D. destruct (smem _ _); [|apply H; exact D].
  destruct (String.eqb_spec (c_clbid x) k') as [<-|N]; [rewrite dget_dset_same in D; injection D as <-; split; [reflexivity|apply IN; simpl; auto]|].
  rewrite PlanProofs.dget_dset_other in D by congruence. apply H; exact D.
Qed.
Lemma more_limited u st st' es : more_classes st st' -> more (limited_ctx u st es (t_courses st)) (limited_ctx u st' es (t_courses st')).
Proof.
  intros [IN ID].
  assert (LK : forall k c, lookup_clbid (t_courses st) k = Some c -> lookup_clbid (t_courses st') k = Some c).
  { intros k c H. unfold lookup_clbid in *. apply find_some in H. destruct H as [I E]. apply in_rev in I. apply String.eqb_eq in E.
    destruct (find (fun c0 => String.eqb (c_clbid c0) k) (rev (t_courses st'))) as [d|] eqn:F.
    - apply find_some in F. destruct F as [J E']. apply in_rev in J. apply String.eqb_eq in E'. f_equal. apply ID; auto. congruence.
    - assert (X := find_none _ _ F c (proj1 (in_rev _ _) (IN c I))). cbn in X. rewrite E, String.eqb_refl in X. discriminate. }
  split; [exact IN|]. split; [exact LK|]. intros k c H. unfold forced_by_clbid, find_by_clbid, limited_ctx, with_transcript in *. cbn [cx_transcript cx_forced] in *.
  destruct (lookup_clbid (t_courses st) k) as [d|] eqn:E; [injection H as <-; rewrite (LK _ _ E); reflexivity|].
  destruct (dget (forced_courses es (t_courses st)) k) as [d|] eqn:D; [|discriminate]. exfalso. unfold forced_courses in D.
  destruct (forced_sound es k d (t_courses st) [] ltac:(intros ? ? X; discriminate X) (t_courses st) (fun x H => H) D) as [E1 I].
  unfold lookup_clbid in E. assert (X := find_none _ _ E d (proj1 (in_rev _ _) I)). cbn in X. rewrite E1, String.eqb_refl in X. discriminate.
Qed.
(** the limits of the queries are apart among the classes they read *)
Definition clear_queries (cx : ctx) (n : node) : Prop := forall k q, part_of n (NQuery k q) -> q_limit q = [] \/ clear_limits (q_limit q) (query_courses cx q).
(** If the further classes come in between or at the end of the transcript, the queries read it
    in its order. *)
Lemma longer_in_order u st st' es n : subseq (t_courses st) (t_courses st') -> subseq (t_failed st) (t_failed st') ->
  clear_queries (limited_ctx u st' es (t_courses st')) n -> in_order (limited_ctx u st es (t_courses st)) (limited_ctx u st' es (t_courses st')) n.
Proof. intros S1 S2 CQ k q P. split; [unfold query_courses; destruct (q_failed_too q); assumption|]. destruct (CQ k q P); auto. Qed.
(** An area of courses and simple queries without limits of its own that is not a major stays passed when
    more classes are taken. *)
Theorem more_classes_do_not_hurt_an_area :
  forall ord nord u st st' es i items, (forall x, Permutation (nord x) x) -> set_order ord -> u_kind u <> "major"%string -> course_area u es i items -> u_limit u = [] ->
  more_classes st st' -> in_order (limited_ctx u st es (t_courses st)) (limited_ctx u st' es (t_courses st')) (u_result u) -> no_debts (limited_ctx u st' es (t_courses st')) (u_result u) ->
  fair (limited_ctx u st es (t_courses st)) es items -> fair (limited_ctx u st' es (t_courses st')) es items ->
  g_exn (area_solutions ord nord u st es) = None -> g_exn (area_solutions ord nord u st' es) = None ->
  passed ord nord u st es -> passed ord nord u st' es.
Proof.
  intros ord nord u st st' es i items NO SO NM CA NL MO IO DE' FA FA' GE GE' P. assert (DE := no_debts_before _ _ _ IO DE').
  assert (T : forall s, g_items (transcripts ord u s es) = [t_courses s]) by (intro s; unfold transcripts; rewrite NL; reflexivity).
  assert (P1 : can_be_passed ord u st es).
  { apply (passed_if_it_can_be ord nord u st es i items NO SO NM CA); auto. intros lt I. rewrite T in I. destruct I as [<-|[]]. split; [exact FA|exact DE]. }
  apply (passed_if_it_can_be ord nord u st' es i items NO SO NM CA); [|exact GE'|].
  { intros lt I. rewrite T in I. destruct I as [<-|[]]. split; [exact FA'|exact DE']. }
  destruct CA as [UR [OR [OC [MC [W CNT]]]]]. destruct P1 as [i0 [items0 [lt [UR0 [_ [IL [_ AM]]]]]]]. rewrite UR in UR0. injection UR0 as <- <-. rewrite T in IL. destruct IL as [<-|[]].
  exists i, items, (t_courses st'). split; [exact UR|]. split; [exact OR|]. split; [rewrite T; simpl; auto|]. cbv zeta. split; [exact FA'|].
  assert (M := more_limited u st st' es MO). rewrite UR in OR, OC, IO, DE'. destruct AM as [_ [NA [_ [NE [a [ME ND]]]]]]. split; [exact W|]. split; [exact NA|]. split; [exact CNT|]. split; [exact NE|].
  exists a. split; [|exact ND]. intros c I. destruct (ME c I) as [PR [_ MT]]. assert (OCc := of_courses_item _ _ _ _ _ OC I). assert (IOc := in_order_item _ _ _ _ _ _ IO I). assert (DEc := no_debts_item _ _ _ _ _ DE' I). assert (Y := proj1 (orderly_item _ _ _ _ OR I)).
  split; [eapply promising_more; eauto|]. split; [apply courses_listable; auto; apply FA', I|]. apply (meets_more ord (limited_ctx u st es (t_courses st))); auto.
Qed.
Print Assumptions more_classes_do_not_hurt_an_area.

(** ** Samples *)
Lemma same_set_order : set_order same_order.
Proof. intro s. apply Permutation_refl. Qed.

(** a check of the conditions that can be computed, for trees without conditionals *)
Definition plain_check (x : node) : bool :=
  match kind_of x with KRule => true | _ => false end && match status_of x with Empty => true | _ => false end &&
  match x with
  | NCourse _ r => negb (r_optional r) && negb (r_inserted r) && negb (r_from_claimed r) && match r_year r with None => true | Some _ => false end
  | NCount _ i l => match n_audits i with [] => true | _ => false end && (1 <=? n_count i)%Z
  | NReq _ i o => negb (e_audited i) && match e_disjoint i with None => true | _ => false end && match o with Some _ => true | None => false end
  | _ => false
  end.
Lemma check_part n x : all_parts plain_check n = true -> part_of n x -> plain_check x = true.
Proof. intros H P. eapply all_parts_in; eauto. Qed.
Ltac split_check H := unfold plain_check in H; repeat (apply andb_prop in H; destruct H as [H ?]).
Lemma checked n : all_parts plain_check n = true -> of_courses [] n /\ rule_tree n /\ years_have_terms n /\ unaudited n /\ always_disjoint n = false.
Proof.
  intro C. assert (PT := fun x => check_part n x C).
  assert (RT : rule_tree n) by (intros x P; apply PT in P; split_check P; destruct (kind_of x); [reflexivity|discriminate|discriminate]).
  split; [|split; [exact RT|split; [|split]]].
  - intros x P. apply PT in P. split_check P. split; [|destruct (status_of x); try discriminate; reflexivity].
    destruct x; cbn [plain_part]; try discriminate; repeat match goal with H : (_ && _)%bool = true |- _ => apply andb_prop in H; destruct H end.
    + split; apply negb_true_iff; assumption.
    + split; [destruct (n_audits i); [reflexivity|discriminate]|lia].
    + split; [apply negb_true_iff; assumption|destruct result; [discriminate|discriminate]].
  - intros r [[k P]|[k [i [k' P]]]]; apply PT in P; split_check P; [|discriminate]. repeat match goal with H : (_ && _)%bool = true |- _ => apply andb_prop in H; destruct H end.
    intro Y. destruct (r_year r); [discriminate|destruct (Y eq_refl)].
  - intros x P. split; [rewrite (RT x P); discriminate|]. intros k i r ->. apply PT in P. split_check P. discriminate.
  - clear RT PT. induction n as [k x|k q|k i items IH|k i o IH|k i bt f IHt IHf|k i c] using node_induction; try reflexivity; cbn [all_parts] in C; apply andb_prop in C; destruct C as [C1 C2]; split_check C1; try discriminate.
    destruct k; try discriminate. cbn [always_disjoint]. repeat match goal with H : (_ && _)%bool = true |- _ => apply andb_prop in H; destruct H end. destruct (e_disjoint i); [discriminate|]. destruct o as [x|]; [|reflexivity]. apply IH; auto.
Qed.
(** without exceptions a rule claims only what is on the transcript *)
Lemma no_queries n : all_parts plain_check n = true -> forall k q, ~ part_of n (NQuery k q).
Proof. intros C k q P. apply (check_part n) in P; [|exact C]. split_check P. discriminate. Qed.
Lemma checked_order cx cx' n : all_parts plain_check n = true -> in_order cx cx' n /\ no_debts cx' n.
Proof. intro C. split; [intros k q P|intros k q c P]; exfalso; exact (no_queries n C k q P). Qed.
Lemma matching_taken cx n x : of_courses [] n -> (forall k q, ~ part_of n (NQuery k q)) -> matching cx [] n x -> exists c, x = ICourse c /\ In c (cx_transcript cx).
Proof.
  intros OC NQ M. induction M as [k r c H|k q x H|k i items y x I M IH|k i y x M IH|k i t f y x IF M IH|k i k' r c H].
  - exists c. split; [reflexivity|]. destruct H as [[e [k' [f [[] _]]]]|[_ [F _]]]. destruct F as [[k' [_ [_ F]]]|[_ [I _]]]; [|exact I].
    unfold find_by_clbid, lookup_clbid in F. apply find_some in F. apply in_rev, F.
  - exfalso. exact (NQ k q (pt_self _)).
  - apply IH; [eapply of_courses_item; eauto|]. intros k' q P. apply (NQ k' q). eapply pt_count; eauto.
  - apply IH; [eapply of_courses_req; eauto|]. intros k' q P. apply (NQ k' q). apply pt_req. exact P.
  - apply IH; [eapply of_courses_cond; eauto|]. intros k' q P. apply (NQ k' q). destruct IF as [_|y' _ ->]; [apply pt_true|apply pt_false]; exact P.
  - destruct (OC _ (pt_self _)) as [[] _].
Qed.
Lemma checked_fair cx items : cx_exc cx = group_exceptions [] -> forallb (all_parts plain_check) items = true ->
  (forall c d, In c (cx_transcript cx) -> In d (cx_transcript cx) -> c_clbid c = c_clbid d -> c = d) -> fair cx [] items.
Proof.
  intros EX C ID. assert (CK := fun c I => checked c (proj1 (forallb_forall _ _) C c I)). split; [|split].
  - intros c I. split; [apply (CK c I)|]. split.
    + intros r R. split; [|intros x k f []]. assert (P0 := proj1 (forallb_forall _ _) C c I).
      destruct R as [[k P]|[k [i [k' P]]]]; apply (check_part c) in P; auto; split_check P; [|discriminate]. repeat match goal with H : (_ && _)%bool = true |- _ => apply andb_prop in H; destruct H end. apply negb_true_iff; assumption.
    + intros k q P. assert (P0 := proj1 (forallb_forall _ _) C c I). apply (check_part c) in P; auto. split_check P. discriminate.
  - intros c d [I _] _ _ D. destruct (CK c I) as [_ [_ [_ [_ H]]]]. congruence.
  - intros c d cs ds x y Ic Id Mc Md Ix Iy E. destruct (CK c Ic) as [O1 [_ [Y1 _]]]. destruct (CK d Id) as [O2 [_ [Y2 _]]].
    apply (matches_exact cx [] c cs EX Y1 Mc) in Ix. apply (matches_exact cx [] d ds EX Y2 Md) in Iy.
    destruct (matching_taken cx c _ O1 (no_queries c (proj1 (forallb_forall _ _) C c Ic)) Ix) as [x' [Ex Jx]]. destruct (matching_taken cx d _ O2 (no_queries d (proj1 (forallb_forall _ _) C d Id)) Iy) as [y' [Ey Jy]]. injection Ex as <-. injection Ey as <-. auto.
Qed.

(** All of: A 1 or B 1, C 1, D 1. C 1 was taken S/U, B 1 and D 1 for a grade; then A 1 is taken
    S/U. *)
Open Scope string_scope.
Definition pick_area (kind : string) : aspec :=
  mkAspec (Some "Sample") (Some kind) (Some "B.A.") (Some "100") [] (Some (d_all [d_any [d_course "A 1"; d_course "B 1"]; d_course "C 1"; d_course "D 1"])) None None [] false.
Definition a_by_su : course := CommonProps.taken "1" "A" CommonProps.full GA GoSU false.
Definition picked_five : list course := [CommonProps.taken "2" "B" CommonProps.full GA GoGrade false; CommonProps.taken "3" "C" CommonProps.full GA GoSU false; big "4" "D"; big "5" "F"; big "6" "G"].
Definition student_five : student := enrolled [pointer AkMajor "100"] picked_five.
Definition student_six : student := enrolled [pointer AkMajor "100"] (a_by_su :: picked_five).
Lemma six_classes : more_classes student_five student_six.
Proof.
  split; [intros c I; right; exact I|].
  intros c d I J E. cbn [t_courses student_six enrolled picked_five In] in I, J.
  repeat (destruct I as [<-|I]; [repeat (destruct J as [<-|J]; [first [reflexivity|discriminate E]|]); destruct J|]). destruct I.
Qed.
Definition no_queries_in (u : study) : Prop := forall cx cx', in_order cx cx' (u_result u) /\ no_debts cx' (u_result u).
Lemma pick_hypotheses kind : kind = "major" \/ kind = "concentration" ->
  exists u i items, load_area sample_const [] student_five [] false (pick_area kind) = Ok u /\ load_area sample_const [] student_six [] false (pick_area kind) = Ok u /\
    u_kind u = kind /\ course_area u [] i items /\ u_limit u = [] /\ no_queries_in u /\
    fair (limited_ctx u student_five [] (t_courses student_five)) [] items /\ fair (limited_ctx u student_six [] (t_courses student_six)) [] items /\
    g_exn (area_solutions same keep u student_five []) = None /\ g_exn (area_solutions same keep u student_six []) = None.
Proof.
  intro K. destruct (load_area sample_const [] student_five [] false (pick_area kind)) as [u|] eqn:L; [|destruct K as [-> | ->]; vm_compute in L; discriminate].
  assert (L6 : load_area sample_const [] student_six [] false (pick_area kind) = Ok u) by (destruct K as [-> | ->]; vm_compute in L; injection L as <-; vm_compute; reflexivity).
  assert (X : exists i items, u_result u = NCount KRule i items /\ u_kind u = kind /\ u_limit u = [] /\ u_multi u = [] /\ n_count i = Z.of_nat (List.length items) /\ all_parts plain_check (u_result u) = true /\
    (forall k i items, part_of (u_result u) (NCount k i items) -> siblings items) /\
    g_exn (area_solutions same keep u student_five []) = None /\ g_exn (area_solutions same keep u student_six []) = None).
  { destruct K as [-> | ->]; vm_compute in L; injection L as <-; eexists _, _; (split; [reflexivity|]; split; [reflexivity|]; split; [reflexivity|]; split; [reflexivity|]; split; [reflexivity|]; split; [vm_compute; reflexivity|]; split; [|split; vm_compute; reflexivity]);
      intros k i items P; cbn [u_result] in P; parts; (split; [repeat constructor; cbn; intuition discriminate|repeat (apply Forall_cons || apply Forall_nil); repeat first [left; exists 0%nat; vm_compute; reflexivity|left; exists 1%nat; vm_compute; reflexivity|left; exists 2%nat; vm_compute; reflexivity|right; intros t D; discriminate]]). }
  destruct X as [i [items [UR [UK [UL [UM [CNT [C [SI [G5 G6]]]]]]]]]]. exists u, i, items. split; [reflexivity|]. split; [exact L6|]. split; [exact UK|].
  destruct (checked _ C) as [OC [RT [Y [UN _]]]].
  assert (CI : forallb (all_parts plain_check) items = true) by (rewrite UR in C; cbn [all_parts] in C; apply andb_prop in C; apply C).
  split; [split; [exact UR|]; split; [split; [exact Y|split; [exact RT|exact SI]]|]; split; [exact OC|]; split; [exact UM|]; split; [apply no_waiver|exact CNT]|].
  split; [exact UL|]. split; [intros cx cx'; apply checked_order, C|]. destruct six_classes as [IN ID]. split; [apply checked_fair; [reflexivity|exact CI|]; intros c d I J; apply ID; apply IN; assumption|].
  split; [apply checked_fair; [reflexivity|exact CI|exact ID]|]. auto.
Qed.
Lemma found_complete ord nord u st es :
  existsb (fun z => match area_audit ord u z with Ok (v, _) => inS (area_status v) WAIVED_AND_DONE | Err _ => false end) (g_items (area_solutions ord nord u st es)) = true -> passed ord nord u st es.
Proof. intro H. apply existsb_exists in H. destruct H as [z [I H]]. destruct (area_audit ord u z) as [[v t]|] eqn:A; [|discriminate]. exists z, v, t. split; [exact I|]. split; [exact A|]. apply complete_iff. exact H. Qed.
(** the concentration is passed with and without A 1, and both searches are exact *)
Example more_classes_example :
  statuses (pick_area "concentration") student_five [] = [Some (Done, [Done; Done; Done])] /\
  statuses (pick_area "concentration") student_six [] = [Some (Done, [Done; Done; Done])] /\
  exists u i items, u_kind u <> "major" /\ course_area u [] i items /\ u_limit u = [] /\ more_classes student_five student_six /\
    in_order (limited_ctx u student_five [] (t_courses student_five)) (limited_ctx u student_six [] (t_courses student_six)) (u_result u) /\ no_debts (limited_ctx u student_six [] (t_courses student_six)) (u_result u) /\
    fair (limited_ctx u student_five [] (t_courses student_five)) [] items /\ fair (limited_ctx u student_six [] (t_courses student_six)) [] items /\
    g_exn (area_solutions same keep u student_five []) = None /\ g_exn (area_solutions same keep u student_six []) = None /\
    passed same keep u student_five [].
Proof.
  split; [vm_compute; reflexivity|]. split; [vm_compute; reflexivity|]. destruct (pick_hypotheses "concentration" (or_intror eq_refl)) as [u [i [items [L [_ [K [CA [UL [NQ [F5 [F6 [G5 G6]]]]]]]]]]]].
  exists u, i, items. split; [rewrite K; discriminate|]. split; [exact CA|]. split; [exact UL|]. split; [exact six_classes|]. split; [apply NQ|]. split; [apply (NQ (limited_ctx u student_five [] (t_courses student_five)))|]. split; [exact F5|]. split; [exact F6|]. split; [exact G5|]. split; [exact G6|].
  apply found_complete. vm_compute in L. injection L as <-. vm_compute. reflexivity.
Qed.

(** A tree that meets the hypotheses of [the_search_is_exact] and [more_classes_do_not_hurt]. With
    A 1 and C 1 only the result is not complete, so there is no way to meet the rule; with B 1 as
    well it is. *)
Definition lacks_b : ctx := limited_ctx (one_rule "concentration" clash []) (took [mk_simple "100" "A" "1"; mk_simple "300" "C" "1"]) [] [mk_simple "100" "A" "1"; mk_simple "300" "C" "1"].
Example search_example :
  of_courses [] clash /\ orderly clash /\ plain_rule clash_ctx [] clash /\ plain_rule lacks_b [] clash /\ more lacks_b clash_ctx /\
  map (fun cx => match find_best_solution same_order cx [] clash false with Ok (Some r, _) => Some (status_of r) | _ => None end) [lacks_b; clash_ctx] = [Some NeedsMoreItems; Some Done] /\
  (forall ks, NoDup ks -> ~ meets same_order lacks_b [] clash ks).
Proof.
  assert (C : all_parts plain_check clash = true) by (vm_compute; reflexivity). destruct (checked _ C) as [OC _].
  assert (PL : forall cx, plain_rule cx [] clash).
  { intro cx. split; [|intros k q P; apply (check_part clash) in P; auto; split_check P; discriminate]. intros r R. split; [|intros x k f []].
    destruct R as [[k P]|[k [i [k' P]]]]; apply (check_part clash) in P; auto; split_check P; [|discriminate]. repeat match goal with H : (_ && _)%bool = true |- _ => apply andb_prop in H; destruct H end. apply negb_true_iff; assumption. }
  assert (S1 : match find_best_solution same_order lacks_b [] clash false with Ok (Some r, _) => Some (status_of r) | _ => None end = Some NeedsMoreItems) by (vm_compute; reflexivity).
  assert (S2 : match find_best_solution same_order clash_ctx [] clash false with Ok (Some r, _) => Some (status_of r) | _ => None end = Some Done) by (vm_compute; reflexivity).
  split; [exact OC|]. split; [exact clash_orderly|]. split; [apply PL|]. split; [apply PL|]. split; [|split].
  - apply (more_limited (one_rule "concentration" clash []) (took [mk_simple "100" "A" "1"; mk_simple "300" "C" "1"]) (took AreaProps.three) []). split.
    + intros c [<-|[<-|[]]]; vm_compute; auto.
    + intros c d I J E. cbn [t_courses took AreaProps.three In] in I, J.
      repeat (destruct I as [<-|I]; [repeat (destruct J as [<-|J]; [first [reflexivity|discriminate E]|]); destruct J|]). destruct I.
  - cbn [map]. rewrite S1, S2. reflexivity.
  - intros ks ND ME. destruct (find_best_solution same_order lacks_b [] clash false) as [[best t']|] eqn:F; [|discriminate].
    destruct (proj2 (the_search_is_exact same_order lacks_b [] clash [] false best t' same_set_order eq_refl eq_refl OC clash_orderly (PL _) (proj2 (checked_order lacks_b lacks_b clash C)) F) (ex_intro _ ks (conj ME ND))) as [r [-> CO]].
    injection S1 as S1. rewrite S1 in CO. destruct CO; discriminate.
Qed.

(** For majors it is not so: what the children use is chosen before the common block is looked
    at. With A 1 there are two classes taken S/U among those used, although B 1 would do. *)
Definition more_classes_never_hurt : Prop :=
  forall ord nord u st st' es i items, (forall x, Permutation (nord x) x) -> set_order ord -> course_area u es i items -> u_limit u = [] ->
  more_classes st st' -> in_order (limited_ctx u st es (t_courses st)) (limited_ctx u st' es (t_courses st')) (u_result u) -> no_debts (limited_ctx u st' es (t_courses st')) (u_result u) ->
  fair (limited_ctx u st es (t_courses st)) es items -> fair (limited_ctx u st' es (t_courses st')) es items ->
  g_exn (area_solutions ord nord u st es) = None -> g_exn (area_solutions ord nord u st' es) = None ->
  passed ord nord u st es -> passed ord nord u st' es.
Theorem more_classes_never_hurt_refuted :
  ~ more_classes_never_hurt /\
  statuses (pick_area "major") student_five [] = [Some (Done, [Done; Done; Done; Done])] /\
  statuses (pick_area "major") student_six [] = [Some (FailedInvariant, [Done; Done; Done; FailedInvariant])].
Proof.
  split; [|split; vm_compute; reflexivity]. intro H. destruct (pick_hypotheses "major" (or_introl eq_refl)) as [u [i [items [L [_ [K [CA [UL [NQ [F5 [F6 [G5 G6]]]]]]]]]]]].
  destruct (H same keep u student_five student_six [] i items (fun x => Permutation_refl x) (fun x => Permutation_refl x) CA UL six_classes (proj1 (NQ _ _)) (proj2 (NQ (limited_ctx u student_five [] (t_courses student_five)) _)) F5 F6 G5 G6) as [z [v [rest [I [A C]]]]].
  - apply found_complete. vm_compute in L. injection L as <-. vm_compute. reflexivity.
  - assert (X : forallb (fun z => match area_audit same u z with Ok (v, _) => negb (inS (area_status v) WAIVED_AND_DONE) | Err _ => false end) (g_items (area_solutions same keep u student_six [])) = true)
      by (vm_compute in L; injection L as <-; vm_compute; reflexivity).
    eapply forallb_forall in X; [|exact I]. rewrite A in X. apply complete_iff in C. rewrite C in X. discriminate.
Qed.
Print Assumptions more_classes_never_hurt_refuted.
