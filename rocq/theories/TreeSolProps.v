(** Property theorems about the solutions of requirement trees (C35, C39, C40, C43, C60). *)
From Coq Require Import List ZArith QArith Bool String Lia Sorted Permutation.
From Verif Require Import Prelude Dec Status Course Claims Exceptions Op Context CondExpr Paths Predicate Limit Apply Assertion Query CourseRule Tree LazyRun.
From Verif Require Import ListFacts LimitSpec LimitProps AssertionSpec AssertionProofs PathsSpec PathsProofs ExceptionsProofs EnumSpec EnumProofs QuerySpec QueryProofs QueryProps CourseRuleSpec CourseRuleProofs CourseRuleProps TreeSpec TreeProofs TreeStatusProps TreeSolSpec TreeSolProofs.
Import ListNotations.
Local Open Scope string_scope.
Local Open Scope list_scope.

(** ** Sample rules *)
Definition rule (name : string) : node := NCourse KRule (leaf name false None).
Definition rules (count : Z) (at_most : bool) (items : list node) : node :=
  NCount KRule (mkCount ["$"; ".count"] false count at_most []) items.
Definition req_rule (name : string) (n : option node) : node :=
  NReq KRule (mkReq ["$"; ".count"; ("%" ++ name)%string] false name false false true None) n.
Definition when (b : option bool) (t : node) (f : option node) : node :=
  NCond KRule (mkCond ["$"; ".count"; "%R"; ".cond"] false (EFun FHasCourse "A 1" b)) t f.
Definition waive (p : path) : exc := mkExc p (AOverride Waived).
Definition same_order (l : list course) : list course := l.
Definition taken : list course := [mk_simple "100" "A" "1"; mk_simple "200" "B" "1"].
Definition named (n : string) : node := NCourse KRule
  (mkCrule ["$"; ".count"; ("*" ++ n)%string] false (Some n) None None None None None None None None None None None
     false false false false false false [] None None).
Fixpoint show (n : node) : list (path * option string) :=
  match n with
  | NCourse KSol r => [(r_path r, match r_matched r with Some c => Some (c_clbid c) | None => None end)]
  | NCourse _ r => [(r_path r, None)]
  | NCount _ _ items => flat_map show items
  | _ => []
  end.

(** ** C39, C60 *)

(** The solutions of a requirement tree, exactly, one level at a time. Waived: one solution,
    overridden. Otherwise: for a count, the selections of enough children with potential,
    each replaced by one of its solutions; for a conditional, the solutions of the branch
    its condition selects; for a requirement, the solutions of its result. *)
Theorem solutions_exact :
  forall ord cx l n s, cx_exc cx = group_exceptions l ->
  (forall k i items, n = NCount k i items -> siblings items /\ (0 <= n_count i)%Z) ->
  g_exn (solutions ord cx n) = None ->
  (In s (g_items (solutions ord cx n)) <-> solution_of ord cx l n s).
Proof.
  intros ord cx l n s EX SB N. unfold solution_of, if_waived. destruct n as [k r|k q|k i items|k i o|k i t f|k i c].
  - cbn [solutions gmap g_items]. rewrite in_map_iff. split; intros [x H]; exists x; intuition congruence.
  - cbn [solutions gmap g_items]. rewrite in_map_iff. split; intros [x H]; exists x; intuition congruence.
  - destruct (SB _ _ _ eq_refl) as [SI C0]. rewrite solutions_count in *. destruct (waived cx (n_path i)) eqn:W.
    + unfold count_solutions. rewrite W. apply (waived_ok cx l _ EX) in W. cbn [gret g_items In]. unfold count_solution. intuition.
    + destruct (count_solutions_ok ord cx i items s SI C0 W N) as [IFF _]. rewrite IFF. apply (waived_no cx l _ EX) in W. intuition.
  - cbn [solutions] in *. destruct (waived cx (e_path i)) eqn:W.
    + apply (waived_ok cx l _ EX) in W. cbn [gret g_items In]. unfold req_solution. intuition.
    + apply (waived_no cx l _ EX) in W. destruct o as [x|].
      * cbn [gmap g_items]. rewrite in_map_iff. split.
        -- intros [y [<- I]]. right. split; auto. exists (Some y). split; [reflexivity|]. right. eauto.
        -- intros [[H _]|[_ [o' [-> [[D _]|[x' [y [E [-> I]]]]]]]]]; [contradiction|discriminate|]. injection E as <-. exists y. auto.
      * cbn [gret g_items In]. split.
        -- intros [<-|[]]. right. split; auto. exists None. split; [reflexivity|]. auto.
        -- intros [[H _]|[_ [o' [-> [[_ ->]|[x' [y [E _]]]]]]]]; [contradiction|auto|discriminate].
  - cbn [solutions]. destruct (e_result (d_cond i)) as [[|]|] eqn:E.
    + cbn [gmap g_items]. rewrite in_map_iff. split.
      * intros [y [<- I]]. left. split; auto. exists y. auto.
      * intros [[_ [y [I ->]]]|[D _]]; [|discriminate]. exists y. auto.
    + destruct f as [x|]; cbn [gmap g_items gnil].
      * rewrite in_map_iff. split.
        -- intros [y [<- I]]. right. split; auto. exists x, y. auto.
        -- intros [[D _]|[_ [x' [y [F [I ->]]]]]]; [discriminate|]. injection F as <-. exists y. auto.
      * split; [intros []|]. intros [[D _]|[_ [x' [y [F _]]]]]; discriminate.
    + split; [intros []|]. intros [[D _]|[D _]]; discriminate.
  - cbn [solutions] in *. unfold prof_solutions in *. destruct (waived cx (f_path i)) eqn:W.
    + apply (waived_ok cx l _ EX) in W. cbn [gret g_items In]. unfold prof_solution. intuition.
    + apply (waived_no cx l _ EX) in W. destruct c as [[k' r]|].
      * destruct (c_solutions cx r) as [[|x rest] e] eqn:C; cbn [gnext] in *; [destruct e; discriminate|]. cbn [gret g_items In]. split.
        -- intros [<-|[]]. right. split; auto. eexists. split; [reflexivity|]. right. exists k', r, x, rest. rewrite C. auto.
        -- intros [[H _]|[_ [c' [-> [[D _]|[k2 [r2 [x2 [rest2 [E [-> F]]]]]]]]]]]; [contradiction|discriminate|]. injection E as <- <-. rewrite C in F. cbn [g_items] in F. injection F as <- <-. auto.
      * cbn [gret g_items In]. split.
        -- intros [<-|[]]. right. split; auto. eexists. split; [reflexivity|]. auto.
        -- intros [[H _]|[_ [c' [-> [[_ ->]|[k2 [r2 [x2 [rest2 [E _]]]]]]]]]]; [contradiction|auto|discriminate].
Qed.
Print Assumptions solutions_exact.
Example solutions_example :
  let cx := c_ctx taken [] in let n := rules 1 false [named "A 1"; named "B 1"; named "C 1"] in
  g_exn (solutions same_order cx n) = None /\
  map show (g_items (solutions same_order cx n)) =
    [[(["$"; ".count"; "*A 1"], Some "100"); (["$"; ".count"; "*B 1"], None); (["$"; ".count"; "*C 1"], None)];
     [(["$"; ".count"; "*A 1"], None); (["$"; ".count"; "*B 1"], Some "200"); (["$"; ".count"; "*C 1"], None)];
     [(["$"; ".count"; "*A 1"], Some "100"); (["$"; ".count"; "*B 1"], Some "200"); (["$"; ".count"; "*C 1"], None)]].
Proof. vm_compute. auto. Qed.
Example siblings_example : siblings [named "A 1"; named "B 1"; named "C 1"].
Proof.
  split.
  - repeat constructor; cbn; intuition discriminate.
  - repeat (apply Forall_cons || apply Forall_nil); right; intros t D; discriminate.
Qed.

(** In a solution of a count rule each child appears exactly once, in the order of the paths;
    exactly the chosen children are solved, and they are at least the requested number when
    so many have potential (exactly that number with "at most"), and all of those with
    potential when there are fewer. *)
Theorem count_solution_lists_every_child_once :
  forall ord cx l k i items s, cx_exc cx = group_exceptions l -> siblings items -> (0 <= n_count i)%Z ->
  Forall (fun c => kind_of c = KRule) items -> ~ waived_at l (n_path i) ->
  g_exn (solutions ord cx (NCount k i items)) = None -> In s (g_items (solutions ord cx (NCount k i items))) ->
  exists out solved usable,
    s = NCount KSol (mkCount (n_path i) false (n_count i) (n_at_most i) (n_audits i)) out /\
    Permutation (map path_of out) (map path_of items) /\ NoDup (map path_of out) /\
    StronglySorted (fun a b => before (path_of a) (path_of b)) out /\
    tally (fun x => kind_of x = KSol) out solved /\ tally (fun c => potential cx c = Ok true) items usable /\
    (solved <= usable)%nat /\
    ((n_count i <= Z.of_nat usable)%Z -> (n_count i <= Z.of_nat solved)%Z /\ (n_at_most i = true -> Z.of_nat solved = n_count i)) /\
    ((Z.of_nat usable < n_count i)%Z -> solved = usable) /\
    (forall x, In x out -> exists c, In c items /\ path_of c = path_of x /\ (x = c \/ In x (g_items (solutions ord cx c)))).
Proof.
  intros ord cx l k i items s EX SB C0 KR W N I.
  apply (solutions_exact ord cx l) in I; auto; [|intros ? ? ? E; injection E as <- <- <-; auto].
  destruct I as [[H _]|[_ [chosen [out [n [NC [CH [TL [F [[m [FL [P S]]] ->]]]]]]]]]]; [contradiction|].
  exists out, (List.length chosen), n. split; [reflexivity|]. assert (PM : map path_of m = map path_of items) by (eapply stands_paths; eauto).
  assert (PO : Permutation (map path_of out) (map path_of items)) by (rewrite <- PM; apply Permutation_map; symmetry; exact P).
  split; [exact PO|]. split; [eapply Permutation_NoDup; [symmetry; exact PO|apply SB]|]. split; [exact S|].
  split; [|split; [exact TL|]].
  - apply (tally_perm _ m out); [exact P|].
    assert (INC : forall c, In c chosen -> In c items) by (intros c I; apply CH; exact I).
    eapply solved_tally; eauto. apply SB.
  - unfold fits in F. split; [lia|]. split; [intro; destruct F as [[F1 [F2 F3]]|[F1 F2]]; [auto|lia]|]. split; [lia|].
    intros x I. apply (Permutation_in _ (Permutation_sym P)) in I. clear - FL I. induction FL as [|c y t r ST FL IH]; [destruct I|]. destruct I as [<-|I].
    + exists c. split; [simpl; auto|]. split; [symmetry; eapply stand_path; eauto|]. destruct ST as [[_ J]|[_ ->]]; auto.
    + destruct (IH I) as [d [J R]]. exists d. split; [simpl; auto|exact R].
Qed.
Print Assumptions count_solution_lists_every_child_once.
Example count_solution_example :
  let cx := c_ctx taken [] in let n := rules 3 false [named "A 1"; named "B 1"; named "C 1"] in
  map show (g_items (solutions same_order cx n)) =
    [[(["$"; ".count"; "*A 1"], Some "100"); (["$"; ".count"; "*B 1"], Some "200"); (["$"; ".count"; "*C 1"], None)]].
Proof. vm_compute. reflexivity. Qed.

(** ** C35: a waiver replaces the choice *)

(** A waived count, requirement or proficiency has exactly one solution, marked as
    overridden, with the parts untouched; its audit changes no claim and gives a node that is
    complete and has full rank. *)
Theorem waived_node_has_one_solution :
  forall ord cx l n, cx_exc cx = group_exceptions l -> waived_at l (path_of n) ->
  (match n with NCount _ _ _ | NReq _ _ _ | NProf _ _ _ => True | _ => False end) ->
  exists s, solutions ord cx n = gret [s] /\ overridden s = true /\ path_of s = path_of n /\ kind_of s = KSol /\
    forall t, exists r, audit ord cx t s = Ok (r, t) /\ complete (status_of r) /\ rank_of r = Ok (1%Q, 1%Q) /\ path_of r = path_of n.
Proof.
  intros ord cx l n EX W C. apply (waived_ok cx l _ EX) in W.
  destruct n as [| |k i items|k i o| |k i c]; try contradiction; cbn [path_of] in W.
  - exists (count_solution i items true). rewrite solutions_count. unfold count_solutions. rewrite W. split; [reflexivity|]. split; [reflexivity|]. split; [reflexivity|].
    split; [reflexivity|]. intro t. eexists. split; [reflexivity|]. cbn. unfold complete. auto.
  - exists (req_solution i o true). cbn [solutions]. rewrite W. split; [reflexivity|]. split; [reflexivity|]. split; [reflexivity|].
    split; [reflexivity|]. intro t. eexists. split; [reflexivity|]. split; [|split; reflexivity].
    cbn. unfold req_status. cbn. unfold complete. destruct (_ || _)%bool; auto.
  - exists (prof_solution i c true). cbn [solutions]. unfold prof_solutions. rewrite W. split; [reflexivity|]. split; [reflexivity|]. split; [reflexivity|].
    split; [reflexivity|]. intro t. eexists. split; [reflexivity|]. cbn. unfold complete. auto.
Qed.
Print Assumptions waived_node_has_one_solution.
Example waived_solution_example :
  let cx := c_ctx taken [waive ["$"; ".count"]] in
  solutions same_order cx (rules 2 false [named "A 1"; named "C 1"]) =
    gret [NCount KSol (mkCount ["$"; ".count"] true 2 false []) [named "A 1"; named "C 1"]].
Proof. vm_compute. reflexivity. Qed.

(** ** C40 *)

(** When listing the solutions raises nothing, there is none exactly for the barren rules:
    conditionals whose condition is not settled or selects a missing branch, and what
    directly wraps them. *)
Theorem barren_rules_have_no_solution :
  forall ord cx l n, cx_exc cx = group_exceptions l -> g_exn (solutions ord cx n) = None ->
  (g_items (solutions ord cx n) = [] <-> barren l n).
Proof.
  intros ord cx l n EX. induction n as [k r|k q|k i items IH|k i o IH|k i t f IHt IHf|k i c] using node_induction; intro N.
  - split; [|intro B; inversion B]. intro H. exfalso. cbn [solutions gmap g_items g_exn] in *. apply map_eq_nil in H.
    assert (Y := course_rule_yields_or_raises cx l r EX). rewrite N in Y. contradiction.
  - split; [|intro B; inversion B]. intro H. exfalso. cbn [solutions gmap g_items g_exn] in *. apply map_eq_nil in H.
    eapply query_always_yields; eauto.
  - split; [|intro B; inversion B]. intro H. exfalso. rewrite solutions_count in *. destruct (waived cx (n_path i)) eqn:W.
    + unfold count_solutions in H. rewrite W in H. discriminate.
    + eapply count_run_some; eauto.
  - cbn [solutions] in *. destruct (waived cx (e_path i)) eqn:W.
    + apply (waived_ok cx l _ EX) in W. split; [discriminate|]. intro B. inversion B; subst. contradiction.
    + apply (waived_no cx l _ EX) in W. destruct o as [x|]; [|split; [discriminate|intro B; inversion B]].
      cbn [gmap g_items g_exn] in *. assert (J := IH x eq_refl N). split.
      * intro H. apply map_eq_nil in H. constructor; auto. apply J. exact H.
      * intro B. inversion B; subst. rewrite (proj2 J); auto.
  - cbn [solutions] in *. destruct (e_result (d_cond i)) as [[|]|] eqn:E.
    + cbn [gmap g_items g_exn] in *. assert (J := IHt N). split.
      * intro H. apply map_eq_nil in H. eapply ba_cond; [apply if_true; exact E|]. apply J. exact H.
      * intro B. rewrite (proj2 J); [reflexivity|]. inversion B as [? ? ? ? NO|? ? ? ? x F B'|]; subst; [elim (NO t); apply if_true; exact E|]. inversion F; subst; [exact B'|congruence].
    + destruct f as [x|].
      * cbn [gmap g_items g_exn] in *. assert (J := IHf x eq_refl N). split.
        -- intro H. apply map_eq_nil in H. eapply ba_cond; [eapply if_false; [exact E|reflexivity]|]. apply J. exact H.
        -- intro B. rewrite (proj2 J); [reflexivity|]. inversion B as [? ? ? ? NO|? ? ? ? y F B'|]; subst; [elim (NO x); eapply if_false; eauto|]. inversion F; subst; congruence.
      * split; [|reflexivity]. intros _. apply ba_none. intros x F. inversion F; congruence.
    + split; [|reflexivity]. intros _. apply ba_none. intros x F. inversion F; congruence.
  - split; [|intro B; inversion B]. intro H. exfalso. cbn [solutions] in *. unfold prof_solutions in *. destruct (waived _ _); [discriminate|].
    destruct c as [[k' r]|]; [|discriminate]. destruct (gnext _); discriminate.
Qed.
Print Assumptions barren_rules_have_no_solution.
Example barren_example :
  let n := when (Some false) (named "A 1") None in
  barren [] n /\ g_exn (solutions same_order (c_ctx taken []) n) = None /\ ~ barren [] (rules 1 false [n]).
Proof.
  split; [|split; [reflexivity|intro B; inversion B]]. apply ba_none. intros x F. inversion F; discriminate.
Qed.

(** Listing the solutions raises nothing if the leaves raise nothing, every question about
    potential is answered and no child with potential is barren. *)
Theorem listable_rules_raise_nothing :
  forall ord cx l n, cx_exc cx = group_exceptions l -> listable ord cx l n -> g_exn (solutions ord cx n) = None.
Proof.
  intros ord cx l n EX. induction n as [k r|k q|k i items IH|k i o IH|k i t f IHt IHf|k i c] using node_induction; intro L.
  - inversion L; subst. cbn. assumption.
  - inversion L; subst. cbn. assumption.
  - rewrite solutions_count. unfold count_solutions. destruct (waived cx (n_path i)) eqn:W; [reflexivity|]. apply (waived_no cx l _ EX) in W.
    inversion L as [| |? ? ? W'|? ? ? _ C0 CH| | | | | |]; subst; [contradiction|].
    apply count_run_listable; auto. intros c I P. destruct (CH c I) as [H|[_ [H B]]]; [congruence|]. assert (N := IH c I H). split; auto.
    intro E. apply B. apply (barren_rules_have_no_solution ord cx l c EX N). exact E.
    intros c I. destruct (CH c I) as [H|[H _]]; eauto.
  - cbn [solutions]. destruct (waived cx (e_path i)) eqn:W; [reflexivity|]. apply (waived_no cx l _ EX) in W.
    destruct o as [x|]; [|reflexivity]. cbn. apply IH; auto. inversion L; subst; [contradiction|assumption].
  - inversion L as [| | | | | | |? ? ? ? F| |]; subst. cbn [solutions]. destruct (e_result (d_cond i)) as [[|]|] eqn:E; [|destruct f as [x|]; [|reflexivity]|reflexivity]; cbn.
    + apply IHt, F, if_true, E.
    + apply IHf; auto. apply F. eapply if_false; eauto.
  - cbn [solutions]. unfold prof_solutions. destruct (waived cx (f_path i)) eqn:W; [reflexivity|]. apply (waived_no cx l _ EX) in W.
    destruct c as [[k' r]|]; [|reflexivity]. inversion L as [| | | | | | | |? ? ? F|? ? ? F]; subst; [|contradiction].
    assert (H := F k' r eq_refl). destruct (c_solutions cx r) as [[|x rest] e]; [contradiction H; reflexivity|]. reflexivity.
Qed.
Print Assumptions listable_rules_raise_nothing.
Corollary listable_rules_yield :
  forall ord cx l n, cx_exc cx = group_exceptions l -> listable ord cx l n -> ~ barren l n ->
  g_exn (solutions ord cx n) = None /\ g_items (solutions ord cx n) <> [].
Proof.
  intros ord cx l n EX L B. assert (N := listable_rules_raise_nothing ord cx l n EX L). split; auto. intro E. apply B.
  apply (barren_rules_have_no_solution ord cx l n EX N). exact E.
Qed.
Print Assumptions listable_rules_yield.
Example listable_example :
  listable same_order (c_ctx taken []) [] (rules 1 false [named "A 1"; when (Some false) (named "B 1") None; named "C 1"]).
Proof.
  apply li_count; [intro W; apply W; intros x []|cbn; lia|]. intros c I. destruct I as [<-|[<-|[<-|[]]]].
  - right. split; [reflexivity|]. split; [apply li_course; reflexivity|intro B; inversion B].
  - left. reflexivity.
  - left. reflexivity.
Qed.

(** "Every rule yields at least one solution" is false: a conditional that selects a missing
    branch yields none, and when a requirement wraps it and there is an exception beneath the
    requirement, the requirement is said to have potential and the count above it raises. *)
Definition every_rule_yields : Prop :=
  forall ord cx n, rule_tree n -> g_exn (solutions ord cx n) = None /\ g_items (solutions ord cx n) <> [].
Definition stuck : node := rules 1 false [req_rule "R" (Some (when (Some false) (named "A 1") None))].
Definition stuck_exc : exc := mkExc ["$"; ".count"; "%R"; ".cond"; "/t"; "*A 1"] (AInsert "100" false).
Theorem every_rule_yields_refuted :
  ~ every_rule_yields /\ solutions same_order (c_ctx taken [stuck_exc]) stuck = gfail RuntimeErr.
Proof.
  split; [|vm_compute; reflexivity]. intro H. destruct (H same_order (c_ctx taken [stuck_exc]) stuck) as [N _]; [|vm_compute in N; discriminate].
  intros x P. unfold stuck, rules in P. inversion P as [|? ? ? y z I P1| | |]; subst; [reflexivity|]. destruct I as [<-|[]].
  inversion P1 as [| |? ? y z P2| |]; subst; [reflexivity|]. inversion P2 as [| | |? ? ? ? y P3|]; subst; [reflexivity|]. inversion P3; subst; reflexivity.
Qed.
Print Assumptions every_rule_yields_refuted.

(** ** C43 *)

(** Every solved part of a solution is a solution of some part of the rule: nothing is
    made up on the way. *)
Theorem solved_parts_come_from_the_rule :
  forall ord cx n s x, rule_tree n -> In s (g_items (solutions ord cx n)) -> part_of s x -> kind_of x = KSol ->
  exists m, part_of n m /\ In x (g_items (solutions ord cx m)).
Proof. intros ord cx n s x RT I P K. eapply parts_from; eauto. Qed.
Print Assumptions solved_parts_come_from_the_rule.

(** After blocking a course at a path, no solution of the tree offers it at that path. *)
Theorem blocked_course_not_offered_in_tree :
  forall ord cx l n p k s, set_order ord -> keyed cx -> cx_exc cx = group_exceptions l ->
  rule_tree (block p k n) -> In s (g_items (solutions ord cx (block p k n))) ->
  (forall kd r c, (forall kd' r', part_of n (NCourse kd' r') -> year_has_term r') ->
     part_of s (NCourse kd r) -> kd = KSol -> r_path r = p -> r_matched r = Some c -> c_clbid c <> k) /\
  (forall kd q out, (forall kd' q', part_of n (NQuery kd' q') -> coherent (q_limit q') /\ q_overridden q' = false) ->
     part_of s (NQuery kd q) -> kd = KSol -> q_path q = p -> q_source q = QCourses -> q_output q = map ICourse out -> ~ In k (map c_clbid out)).
Proof.
  intros ord cx l n p k s SO KE EX RT I. split.
  - intros kd r c Y P -> E M. destruct (parts_from ord cx _ RT s _ I P eq_refl) as [m [Pm Im]]. apply part_block in Pm. destruct Pm as [m0 [P0 ->]].
    assert (PO := proj1 (solutions_keep _ _ _ _ Im)). destruct m0 as [kd' r0|? ?|? i items|? i o|? i t f|? i c0].
    + cbn [block solutions gmap g_items] in Im. apply in_map_iff in Im. destruct Im as [r1 [E1 Im]]. injection E1 as ->.
      assert (PR : r_path r0 = p) by (cbn in PO; rewrite <- E, PO; unfold c_block; destruct (path_eqb _ _); reflexivity). rewrite <- PR in Im.
      eapply blocked_course_not_offered_by_course_rule; eauto.
    + exfalso. cbn [block solutions gmap g_items] in Im. apply in_map_iff in Im. destruct Im as [? [D _]]. discriminate.
    + exfalso. apply (solutions_class_not_course ord cx) in Im. exact Im.
    + exfalso. apply (solutions_class_not_course ord cx) in Im. exact Im.
    + exfalso. apply (solutions_class_not_course ord cx) in Im. exact Im.
    + exfalso. apply (solutions_class_not_course ord cx) in Im. exact Im.
  - intros kd q out Y P -> E QS M. destruct (parts_from ord cx _ RT s _ I P eq_refl) as [m [Pm Im]]. apply part_block in Pm. destruct Pm as [m0 [P0 ->]].
    assert (PO := proj1 (solutions_keep _ _ _ _ Im)). destruct m0 as [? ?|kd' q0|? i items|? i o|? i t f|? i c0].
    + exfalso. cbn [block solutions gmap g_items] in Im. apply in_map_iff in Im. destruct Im as [? [D _]]. discriminate.
    + cbn [block solutions gmap g_items] in Im. apply in_map_iff in Im. destruct Im as [q1 [E1 Im]]. injection E1 as ->.
      assert (PR : p = q_path q0) by (cbn in PO; rewrite <- E, PO; unfold q_block; destruct (path_eqb _ _); reflexivity).
      destruct (Y _ _ P0) as [CO OV].
      assert (QS0 : q_source q0 = QCourses) by (apply q_solutions_source in Im; rewrite Im in QS; unfold q_block in QS; destruct (path_eqb _ _); exact QS).
      eapply blocked_course_not_offered_by_query; eauto.
    + exfalso. apply (solutions_class_not_query ord cx) in Im. exact Im.
    + exfalso. apply (solutions_class_not_query ord cx) in Im. exact Im.
    + exfalso. apply (solutions_class_not_query ord cx) in Im. exact Im.
    + exfalso. apply (solutions_class_not_query ord cx) in Im. exact Im.
Qed.
Print Assumptions blocked_course_not_offered_in_tree.
Example blocked_example :
  let cx := c_ctx taken [] in let n := rules 1 true [named "A 1"; named "B 1"] in
  map show (g_items (solutions same_order cx (block ["$"; ".count"; "*A 1"] "100" n))) =
    [[(["$"; ".count"; "*A 1"], None); (["$"; ".count"; "*B 1"], None)];
     [(["$"; ".count"; "*A 1"], None); (["$"; ".count"; "*B 1"], Some "200")]].
Proof. vm_compute. reflexivity. Qed.

(** A block at a path where no course or query rule sits changes nothing at all. *)
Theorem block_elsewhere_leaves_tree :
  forall p k n, (forall x, part_of n x -> match x with NCourse _ _ | NQuery _ _ => path_of x <> p | _ => True end) -> block p k n = n.
Proof.
  intros p k n. induction n as [kd r|kd q|kd i items IH|kd i o IH|kd i t f IHt IHf|kd i c] using node_induction; intro H; cbn [block].
  - rewrite block_elsewhere_leaves_course_rule; [reflexivity|]. apply not_eq_sym. exact (H _ (pt_self _)).
  - rewrite block_elsewhere_leaves_query; [reflexivity|]. apply not_eq_sym. exact (H _ (pt_self _)).
  - f_equal. rewrite <- (map_id items) at 2. apply map_ext_in. intros x I. apply IH; auto. intros y P. apply H. eapply pt_count; eauto.
  - destruct o as [x|]; [|reflexivity]. rewrite (IH x eq_refl); [reflexivity|]. intros y P. apply H. apply pt_req; auto.
  - rewrite IHt by (intros y P; apply H; apply pt_true; auto). destruct f as [x|]; [|reflexivity]. rewrite (IHf x eq_refl); [reflexivity|].
    intros y P. apply H. apply pt_false; auto.
  - reflexivity.
Qed.
Print Assumptions block_elsewhere_leaves_tree.

(** The course beneath a proficiency cannot be blocked. *)
Definition blocked_everywhere : Prop :=
  forall ord cx kd i kd' r k s i' x c, In s (g_items (solutions ord cx (block (r_path r) k (NProf kd i (Some (kd', r)))))) ->
  s = NProf KSol i' (Some (KSol, x)) -> r_matched x = Some c -> c_clbid c <> k.
Theorem blocked_everywhere_refuted : ~ blocked_everywhere.
Proof.
  intro H. set (r := leaf "A 1" false None).
  refine (H same_order (c_ctx taken []) KRule (mkProfInfo ["$"] false "guitar" Empty) KRule r "100" _ _ _ _ (or_introl eq_refl) eq_refl eq_refl eq_refl).
Qed.
Print Assumptions blocked_everywhere_refuted.
