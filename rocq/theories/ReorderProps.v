(** Property theorems about the order in which exceptions are listed (C184). *)
From Coq Require Import List ZArith QArith Bool Ascii String Lia Permutation.
From Verif Require Import Transcript Prelude Dec Status Course Claims Exceptions Op Context CondExpr Paths Predicate Limit LimitLoad Apply Assertion Query CourseRule Tree Solve Driver Area StudentLoad Run Loader AreaLoad.
From Verif Require Import ListFacts ExceptionsProofs LoaderSpec LoaderProofs LoaderProps TreeSpec TreeSolSpec TreeSolProps AreaLoadSpec AreaLoadProofs AreaLoadProps CommonProps MonoProps MonoExcProps AreaEndProps FrameSpec FrameProofs FrameProps GoneSpec GoneProofs GoneProps.
Import ListNotations.
Local Open Scope string_scope.
Local Open Scope list_scope.

(** the exception is at or beneath the common requirements *)
Definition for_common (x : exc) : Prop := above ["$"; "%Common Requirements"] (ex_path x).
(** the same exceptions in another order: those with the same path keep their order, and so do
    those for the common requirements *)
Inductive reordered : list exc -> list exc -> Prop :=
| ro_same l : reordered l l
| ro_swap a x y b : ex_path x <> ex_path y -> ~ (for_common x /\ for_common y) -> reordered (a ++ x :: y :: b) (a ++ y :: x :: b)
| ro_then l m k : reordered l m -> reordered m k -> reordered l k.

(** ** Lookups *)
Lemma reordered_perm l m : reordered l m -> Permutation l m.
Proof. induction 1 as [l|a x y b _ _|l m k _ IH _ IH']; [reflexivity|apply Permutation_app_head; apply perm_swap|etransitivity; eauto]. Qed.
Lemma reordered_filter f l m : reordered l m -> (forall x y, ex_path x <> ex_path y -> ~ (for_common x /\ for_common y) -> f x = false \/ f y = false) -> filter f l = filter f m.
Proof.
  intros R F. induction R as [l|a x y b N C|l m k _ IH _ IH']; [reflexivity| |congruence]. rewrite !filter_app. f_equal. cbn [filter]. destruct (F x y N C) as [E|E]; rewrite E; [reflexivity|]. destruct (f x); reflexivity.
Qed.
Lemma reordered_at l m p : reordered l m -> exc_at (group_exceptions l) p = exc_at (group_exceptions m) p.
Proof.
  intro R. destruct (groups_ok l) as (_ & A & _), (groups_ok m) as (_ & A' & _). rewrite A, A'. apply reordered_filter; [exact R|]. intros x y N _.
  destruct (path_eqb (ex_path x) p) eqn:E; [|auto]. destruct (path_eqb (ex_path y) p) eqn:E'; [|auto]. apply path_eqb_iff in E, E'. congruence.
Qed.
Lemma reordered_beneath l m p : reordered l m -> has_exception_beneath (group_exceptions l) p = has_exception_beneath (group_exceptions m) p.
Proof.
  intro R. assert (P := reordered_perm _ _ R). apply eq_true_iff_eq. rewrite !beneath_iff. split; intros [e0 [r [I E]]]; exists e0, r; (split; [|exact E]); [eapply Permutation_in; [exact P|exact I]|eapply Permutation_in; [symmetry; exact P|exact I]].
Qed.
Definition under_path (p : path) (d : exc_dict) : exc_dict := filter (fun g => prefix_eqb p (fst g)) d.
Lemma under_add p d x : under_path p (xadd d x) = if prefix_eqb p (ex_path x) then xadd (under_path p d) x else under_path p d.
Proof.
  unfold under_path. induction d as [|[q l] d IH]; cbn [xadd filter fst]; [destruct (prefix_eqb p (ex_path x)); reflexivity|]. destruct (path_eqb (ex_path x) q) eqn:E; cbn [filter fst].
  - apply path_eqb_iff in E. subst q. destruct (prefix_eqb p (ex_path x)); [cbn [xadd]; rewrite (proj2 (path_eqb_iff _ _) eq_refl)|]; reflexivity.
  - rewrite IH. destruct (prefix_eqb p q), (prefix_eqb p (ex_path x)); cbn [xadd]; rewrite ?E; reflexivity.
Qed.
Lemma under_groups p l : under_path p (group_exceptions l) = group_exceptions (filter (fun x => prefix_eqb p (ex_path x)) l).
Proof.
  unfold group_exceptions. change (@nil (path * list exc)) with (under_path p []) at 2. generalize (@nil (path * list exc)). induction l as [|x l IH]; intro d; [reflexivity|]. cbn [fold_left filter]. rewrite IH, under_add. destruct (prefix_eqb p (ex_path x)); reflexivity.
Qed.
Lemma inserts_under d p : get_inserts_beneath d p = if has_exception_beneath d p then flat_map (fun g => filter is_insert (snd g)) (under_path p d) else [].
Proof.
  unfold get_inserts_beneath. destruct (has_exception_beneath d p); [|reflexivity]. unfold under_path. induction d as [|[q l] d IH]; [reflexivity|]. cbn [flat_map filter fst snd]. destruct (prefix_eqb p q); cbn [flat_map snd]; rewrite IH; reflexivity.
Qed.
Lemma reordered_inserts l m p : of_common p -> reordered l m -> get_inserts_beneath (group_exceptions l) p = get_inserts_beneath (group_exceptions m) p.
Proof.
  intros [r ->] R. rewrite !inserts_under, (reordered_beneath _ _ _ R), !under_groups. rewrite (reordered_filter (fun x => prefix_eqb ("$" :: "%Common Requirements" :: r) (ex_path x)) l m R); [reflexivity|].
  intros x y _ N. destruct (prefix_eqb _ (ex_path x)) eqn:E; [|auto]. destruct (prefix_eqb _ (ex_path y)) eqn:E'; [|auto]. destruct N. apply prefix_above in E as [t E], E' as [t' E'].
  split; [exists (r ++ t)|exists (r ++ t')]; [rewrite E|rewrite E']; reflexivity.
Qed.
Lemma reordered_forced l m k : reordered l m -> In k (forced_clbids l) <-> In k (forced_clbids m).
Proof.
  intro R. assert (P := reordered_perm _ _ R). unfold forced_clbids. rewrite !in_flat_map. split; intros [x [I J]]; exists x; (split; [|exact J]); [eapply Permutation_in; [exact P|exact I]|eapply Permutation_in; [symmetry; exact P|exact I]].
Qed.
Lemma reordered_blocks l m p : reordered l m -> blocks_at l p = blocks_at m p.
Proof.
  intro R. induction R as [l|a x y b N C|l m k _ IH _ IH']; [reflexivity| |congruence]. unfold blocks_at. rewrite !flat_map_app. f_equal. cbn [flat_map]. rewrite !app_assoc. f_equal.
  destruct (ex_act x); try (symmetry; apply app_nil_r); try reflexivity; destruct (ex_act y); try (apply app_nil_r); try reflexivity.
  destruct (list_eq_dec string_dec (ex_path x) p), (list_eq_dec string_dec (ex_path y) p); try reflexivity. congruence.
Qed.

(** ** C184 *)

(** The same rules are loaded in whatever order exceptions for different parts are listed, *)
Theorem order_of_exceptions_leaves_the_rules_alone :
  forall c tm st es es' all_emphases s, reordered es es' -> load_area c tm st es all_emphases s = load_area c tm st es' all_emphases s.
Proof.
  intros c tm st es es' all s R. unfold load_area. cbv zeta.
  assert (AT : forall p, True -> exc_at (cx_exc (load_ctx st es)) p = exc_at (cx_exc (load_ctx st es')) p) by (intros p _; apply reordered_at, R).
  assert (EXP : forall k, has_waive_for_expression (cx_exc (load_ctx st es)) k = has_waive_for_expression (cx_exc (load_ctx st es')) k) by (intro k; unfold has_waive_for_expression; rewrite (AT _ Logic.I); reflexivity).
  assert (OB : forall b, ok_body (fun _ => True) b) by (intros b n _; exact Logic.I).
  destruct (mapr (check_emphasis c tm st) (ar_emphases s)); cbn [bind]; [|reflexivity].
  rewrite (top_same (fun _ => True) (fun _ => True) (fun _ _ _ _ => Logic.I) (fun _ _ _ _ => Logic.I) (load_ctx st es) (load_ctx st es') c tm (fun d => eq_refl) AT EXP); [|exact Logic.I|intros y _ n _; exact Logic.I|intros k b _; split; [exact Logic.I|apply OB]|intros x _; split; [intro; exact Logic.I|apply OB]].
  destruct (load_top _ c tm _ _ _) as [t|]; cbn [bind]; [|reflexivity].
  rewrite (required_same (fun _ => True) (load_ctx st es) (load_ctx st es') (fun d => eq_refl) AT) by (intros; exact Logic.I). destruct (required_of _ t) as [cs|]; cbn [bind]; [|reflexivity].
  rewrite (limits_same (load_ctx st es) (load_ctx st es') c (fun d => eq_refl) EXP). destruct (load_limits _ c _); cbn [bind]; [|reflexivity]. destruct (ar_bad s); [reflexivity|].
  rewrite (prepare_same (fun _ => True) (fun _ => True) (fun _ _ _ _ => Logic.I) (fun _ _ _ _ => Logic.I) (load_ctx st es) (load_ctx st es') c tm (fun d => eq_refl) AT EXP); [|intro; exact Logic.I|intro; exact Logic.I].
  destruct (prepare_common _ _ _ _ _ _ _); cbn [bind]; [|reflexivity]. rewrite !result_kept, (keep_out_ext _ (blocks_at es) (blocks_at es')) by (intro p; apply reordered_blocks, R). reflexivity.
Qed.
Print Assumptions order_of_exceptions_leaves_the_rules_alone.
(** and the same is tried and found. *)
Theorem order_of_exceptions_changes_nothing :
  forall c tm st es es' all_emphases s ord nord u, reordered es es' -> (forall l, Permutation (nord l) l) ->
  load_area c tm st es all_emphases s = Ok u ->
  load_area c tm st es' all_emphases s = Ok u /\ same_solutions ord nord u st es es'.
Proof.
  intros c tm st es es' all s ord nord u R NO L. split; [rewrite <- (order_of_exceptions_leaves_the_rules_alone c tm st es es' all s R); exact L|].
  destruct (loaded_areas_are_decided _ _ _ _ _ _ _ L) as [DR DC]. destruct (loaded_parts _ _ _ _ _ _ _ L) as [_ C].
  assert (AT : forall p, exc_at (group_exceptions es) p = exc_at (group_exceptions es') p) by (intro p; apply reordered_at, R).
  assert (BE : forall p, has_exception_beneath (group_exceptions es) p = has_exception_beneath (group_exceptions es') p) by (intro p; apply reordered_beneath, R).
  assert (RC : forall n, decided n -> rcov (fun p => exc_at (group_exceptions es) p = exc_at (group_exceptions es') p) n) by (intros n D y a Y I; split; [exact (D y a Y I)|intros v V; apply AT]).
  assert (H := area_solutions_same ord nord NO u st es es' (fun k => reordered_forced _ _ k R) (conj (fun p _ => AT p) (fun p _ => BE p)) (RC _ DR)).
  assert (AUD : forall z, In z (g_items (area_solutions ord nord u st es)) -> area_audit ord u (other es' z) = let! (v, t) := area_audit ord u z in Ok (mkAres (v_area v) (swap (group_exceptions es') (v_ctx v)) (v_result v), t)).
  { intros z I. apply (audit_same ord nord u st es es' (RC _ DR)); [intros n N p P; split; [apply AT|apply BE]|intros n N; apply RC, DC, N| |exact I].
    intros n N. apply reordered_inserts; [|exact R]. destruct (C n N) as [p0 [OC [_ [t [E _]]]]]. rewrite E. apply common_more, OC. }
  unfold same_solutions. rewrite H. cbn [gmap g_exn g_items]. split; [reflexivity|].
  revert AUD. induction (g_items (area_solutions ord nord u st es)) as [|z l IH]; intro AUD; cbn [map]; constructor; [|apply IH; intros y I; apply AUD; right; exact I].
  split; [reflexivity|]. split; [reflexivity|]. rewrite (AUD z (in_eq _ _)). unfold same_audit. destruct (area_audit ord u z) as [[v t]|]; cbn [bind]; [|reflexivity]. repeat split; reflexivity.
Qed.
Print Assumptions order_of_exceptions_changes_nothing.

(** Two waivers for different requirements may be listed in either order; *)
Example either_order_example :
  reordered [waive_at "Core"; waive_at "Other"] [waive_at "Other"; waive_at "Core"] /\ (exists u, load_area sample_const [] both_taken [waive_at "Core"; waive_at "Other"] false two_rules = Ok u) /\
  statuses two_rules both_taken [waive_at "Core"; waive_at "Other"] = statuses two_rules both_taken [waive_at "Other"; waive_at "Core"].
Proof. split; [|split; [eexists; vm_compute; reflexivity|vm_compute; reflexivity]]. apply (ro_swap [] _ _ []); [discriminate|]. intros [[r E] _]. discriminate E. Qed.
(** two values for one assertion may not: the first one counts. *)
Definition order_of_exceptions_never_matters : Prop :=
  forall c tm st es es' all_emphases s ord nord u, Permutation es es' -> (forall l, Permutation (nord l) l) ->
  load_area c tm st es all_emphases s = Ok u ->
  load_area c tm st es' all_emphases s = Ok u /\ same_solutions ord nord u st es es'.
Definition one_query : aspec := mkAspec (Some "Sample") (Some "concentration") (Some "B.A.") (Some "100") [] (Some (d_all [AreaEndProps.any_course])) None None [] false.
Definition ask_for (n : Z) : exc := mkExc ["$"; ".count"; "[0]"; ".query"; ".assertions"; "[0]"; ".assert"] (AValue (mkDec n 0)).
Theorem order_of_exceptions_never_matters_refuted : ~ order_of_exceptions_never_matters.
Proof.
  intro H. destruct (load_area sample_const [] both_taken [ask_for 1; ask_for 5] false one_query) as [u|] eqn:L; [|vm_compute in L; discriminate L].
  destruct (H sample_const [] both_taken _ [ask_for 5; ask_for 1] false one_query TreeSolProps.same_order (fun l => l) u (perm_swap _ _ []) (fun l => Permutation_refl l) L) as [L' _].
  rewrite <- L in L'. vm_compute in L'. discriminate L'.
Qed.
Print Assumptions order_of_exceptions_never_matters_refuted.
Example first_value_counts : statuses one_query both_taken [ask_for 1; ask_for 5] = [Some (Done, [Done])] /\ statuses one_query both_taken [ask_for 5; ask_for 1] = [Some (NeedsMoreItems, [NeedsMoreItems])].
Proof. vm_compute. auto. Qed.
