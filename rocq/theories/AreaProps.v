(** Property theorems about auditing an area of study (C49, C50, C61, C87, C88). *)
From Coq Require Import List ZArith QArith Bool String Lia Sorted Permutation.
From Verif Require Import Prelude Dec Status Course Claims Exceptions Op Context CondExpr Paths Predicate Limit Apply Assertion Query CourseRule Tree Solve Transcript Driver Area.
From Verif Require Import ListFacts LimitProps ClaimsSpec ClaimsProofs ClaimsProps AssertionSpec AssertionProofs PredicateProofs QuerySpec QueryProofs QueryProps CourseRuleSpec CourseRuleProofs CourseRuleProps TreeSpec TreeProofs TreeStatusProps TreeSolSpec TreeSolProofs TreeSolProps TreeAuditSpec TreeAuditProofs TreeAuditProps SolveSpec SolveProofs SolveSafe SolveProps TranscriptProps LimitProofs AreaSpec AreaProofs.
Import ListNotations.
Local Open Scope string_scope.
Local Open Scope list_scope.

(** ** Sample areas *)
Definition one_rule (kind : string) (n : node) (common : list node) : study := mkStudy "X" kind (Some "B.A.") None "100" [] n [] common.
Definition took (cs : list course) : student := mkStudent cs cs [] [] [] no_proficiencies.
Definition all_of (items : list node) : node := rules (Z.of_nat (List.length items)) false items.

(** ** The solutions of an area *)

(** They are the solutions of the top rule for each limited transcript in turn. *)
Theorem area_solutions_exact :
  forall ord nord u st es, g_exn (area_solutions ord nord u st es) = None ->
  g_exn (transcripts ord u st es) = None /\
  for_transcripts ord nord u st es [] (g_items (transcripts ord u st es)) (g_items (area_solutions ord nord u st es)).
Proof. intros ord nord u st es H. apply from_ok in H. exact H. Qed.
Print Assumptions area_solutions_exact.
(** Also when something is raised, what was found before is a solution for a limited transcript. *)
Theorem area_solution_origin :
  forall ord nord u st es z, In z (g_items (area_solutions ord nord u st es)) ->
  exists lt t, In lt (g_items (transcripts ord u st es)) /\ z_ctx z = limited_ctx u st es lt /\
    In (z_sol z) (g_items (fst (top_solutions ord nord (z_ctx z) [] (u_result u)))) /\
    (z_claims z = [] \/ z_claims z = snd (top_solutions ord nord (z_ctx z) t (u_result u))).
Proof. intros ord nord u st es z I. eapply from_origin. exact I. Qed.
Print Assumptions area_solution_origin.
(** The context: the limited transcript is looked at, all courses and failed ones are at hand,
    and a course is forced in exactly if an exception says so. *)
Theorem area_context :
  forall u st es lt,
  let cx := limited_ctx u st es lt in
  cx_transcript cx = lt /\ cx_excluded cx = t_courses st /\ cx_failed cx = t_failed st /\ cx_exc cx = group_exceptions es /\
  cx_multi cx = u_multi u /\ cx_areas cx = t_areas st /\ cx_perf cx = t_perf st /\ cx_att cx = t_slips st /\ cx_prof cx = t_prof st /\
  (forall k c, dget (cx_forced cx) k = Some c <->
     (exists e, In e es /\ ex_act e = AInsert k true) /\ exists pre post, t_courses st = pre ++ c :: post /\ c_clbid c = k /\ forall d, In d post -> c_clbid d <> k).
Proof.
  intros u st es lt cx. do 9 (split; [reflexivity|]).
  assert (FC : forall k, smem k (forced_clbids es) = true <-> exists e, In e es /\ ex_act e = AInsert k true).
  { intro k. unfold smem. rewrite existsb_exists. unfold forced_clbids. split.
    - intros [x [I E]]. apply String.eqb_eq in E. subst x. apply in_flat_map in I. destruct I as [e [I J]]. exists e. split; auto.
      destruct (ex_act e) as [k' [|]| | | | |]; simpl in J; try contradiction. destruct J as [<-|[]]. reflexivity.
    - intros [e [I E]]. exists k. split; [|apply String.eqb_refl]. apply in_flat_map. exists e. split; auto. rewrite E. simpl. auto. }
  intros k c. change (cx_forced cx) with (forced_courses es (t_courses st)). unfold forced_courses. rewrite <- FC. clear FC.
  induction (t_courses st) as [|x l IH] using rev_ind.
  - cbn. split; [discriminate|]. intros [_ [pre [post [E _]]]]. destruct pre; discriminate.
  - rewrite fold_left_app. cbn [fold_left].
    assert (OTHER : c_clbid x <> k -> (dget (fold_left (fun d c => if smem (c_clbid c) (forced_clbids es) then dset d (c_clbid c) c else d) l []) k = Some c <->
      smem k (forced_clbids es) = true /\ exists pre post, l ++ [x] = pre ++ c :: post /\ c_clbid c = k /\ forall d, In d post -> c_clbid d <> k)).
    { intro N. rewrite IH. split; intros [A [pre [post [E [B D]]]]]; (split; [exact A|]).
      - exists pre, (post ++ [x]). rewrite E, <- app_assoc. split; [reflexivity|]. split; auto. intros d I. apply in_app_iff in I. destruct I as [I|[<-|[]]]; auto.
      - destruct post as [|y post] using rev_ind; [apply app_inj_tail in E; destruct E; congruence|clear IHpost].
        change (c :: post ++ [y]) with ((c :: post) ++ [y]) in E. rewrite app_assoc in E. apply app_inj_tail in E. destruct E as [-> ->]. exists pre, post. split; auto. split; auto.
        intros d I. apply D. apply in_or_app. auto. }
    destruct (String.eqb_spec (c_clbid x) k) as [E|N].
    + rewrite E. destruct (smem k (forced_clbids es)) eqn:S.
      * rewrite dget_dset_same. split.
        -- intro H. injection H as <-. split; auto. exists l, []. auto.
        -- intros [_ [pre [post [EL [B D]]]]]. f_equal. destruct post as [|y post] using rev_ind; [apply app_inj_tail in EL; tauto|clear IHpost].
           change (c :: post ++ [y]) with ((c :: post) ++ [y]) in EL. rewrite app_assoc in EL. apply app_inj_tail in EL. destruct EL as [_ <-]. exfalso. apply (D x); auto. apply in_or_app; simpl; auto.
      * rewrite IH. split; intros [A _]; discriminate.
    + rewrite <- (OTHER N). destruct (smem (c_clbid x) (forced_clbids es)); [|reflexivity]. rewrite dget_dset_other by congruence. reflexivity.
Qed.
Print Assumptions area_context.
(** two solutions; the child that stands apart was solved with the first and shows its claims
    to that one only *)
Definition three : list course := [mk_simple "100" "A" "1"; mk_simple "200" "B" "1"; mk_simple "300" "C" "1"].
Definition clash : node := all_of [child "%x" (one_of ["A 1"; "B 1"]); child "%y" (named "A 1"); child "%z" (named "C 1")].
Example solutions_example :
  let g := area_solutions same_order keep (one_rule "concentration" clash []) (took three) [] in
  map (fun z => (map fst (z_claims z), map snd (picked (z_sol z)))) (g_items g) =
    [(["300"], [Some "100"; None; Some "100"; Some "300"]); ([], [None; Some "200"; Some "100"; Some "300"])] /\ g_exn g = None.
Proof. vm_compute. auto. Qed.

(** ** C50 *)

(** However asking for solutions and auditing them are interleaved, the next solution is the
    next one of [area_solutions], and auditing a solution for the first time gives what
    [area_audit] gives for it: neither depends on the audits done so far. *)
Theorem audits_do_not_interfere :
  forall ord nord u st es acts,
  let all := area_solutions ord nord u st es in
  let w := after ord nord u st es acts in
  snd (act ord nord u st es w ANext) =
    match nth_error (g_items all) (asked acts) with
    | Some z => SawNext (Some (z_ctx z, z_sol z)) None
    | None => SawNext None (if Nat.eqb (asked acts) (List.length (g_items all)) then g_exn all else None)
    end /\
  (forall k junk, (forall j, ~ In (AAudit k j) acts) ->
     snd (act ord nord u st es w (AAudit k junk)) =
       match nth_error (firstn (asked acts) (g_items all)) k with
       | Some z => SawAudit (match area_audit ord u z with Ok (v, _) => Ok v | Err e => Err e end)
       | None => SawNothing
       end).
Proof.
  intros ord nord u st es acts all w. destruct (given_count ord nord u st es acts) as [GL GO]. fold w all in GL, GO. assert (V := inv_after ord nord u st es acts). fold w in V. split.
  - assert (X := inv_next ord nord u st es _ _ V). destruct (act ord nord u st es w ANext) as [w' s]. destruct X as [_ X]. fold all in X. cbn [snd].
    assert (END : forall e, w_given w' = w_given w /\ List.length (w_given w) = List.length (g_items all) /\ w_gen w' = Over /\ (w_gen w = Over /\ e = None \/ w_gen w <> Over /\ e = g_exn all) ->
      SawNext None e = match nth_error (g_items all) (asked acts) with Some z => SawNext (Some (z_ctx z, z_sol z)) None | None => SawNext None (if Nat.eqb (asked acts) (List.length (g_items all)) then g_exn all else None) end).
    { intros e [_ [L [_ D]]]. assert (LE : (List.length (g_items all) <= asked acts)%nat) by lia. rewrite (proj2 (nth_error_None _ _) LE). destruct (Nat.eqb_spec (asked acts) (List.length (g_items all))) as [E|N].
      - destruct D as [[O _]|[_ ->]]; [apply GO in O; lia|reflexivity].
      - destruct D as [[_ ->]|[O _]]; [reflexivity|]. exfalso. apply O, GO. lia. }
    destruct s as [[[cx n]|] [e|]| |]; try contradiction; [|apply (END (Some e)); exact X|apply (END None); exact X].
    destruct X as [_ [NV [z [E [-> ->]]]]].
    assert (L : (List.length (w_given w) < List.length (g_items all))%nat) by (apply nth_error_Some; congruence).
    assert (EA : asked acts = List.length (w_given w)) by lia. rewrite EA, E. reflexivity.
  - intros k junk NA. assert (X := inv_audit ord nord u st es _ _ k junk V). destruct (act ord nord u st es w (AAudit k junk)) as [w' s]. destruct X as [_ [_ [_ X]]]. fold all in X. cbn [snd].
    assert (LF : List.length (firstn (asked acts) (g_items all)) = List.length (w_given w)) by (rewrite firstn_length; lia).
    destruct (nth_error (w_given w) k) as [p|] eqn:E.
    + destruct (X NA) as [z [Ez ->]]. assert (L : (k < List.length (w_given w))%nat) by (apply nth_error_Some; congruence).
      rewrite <- (firstn_skipn (asked acts) (g_items all)), nth_error_app1 in Ez by lia. rewrite Ez. reflexivity.
    + apply nth_error_None in E. rewrite (proj2 (nth_error_None _ _)); [exact X|lia].
Qed.
Print Assumptions audits_do_not_interfere.
Definition status_in (u : study) (z : area_solution) : option status :=
  match area_audit same_order u z with Ok (v, _) => Some (area_status v) | Err _ => None end.
(** a solution audited late, after the others, or between requests *)
Example interleaving_example :
  let u := one_rule "concentration" clash [] in
  let see l a := snd (act same_order keep u (took three) [] (after same_order keep u (took three) [] l) a) in
  let show x := match x with SawAudit (Ok v) => Some (who (v_result v)) | _ => None end in
  show (see [ANext] (AAudit 0 [])) = show (see [ANext; ANext; AAudit 1 []; ANext] (AAudit 0 [])) /\
  show (see [ANext; ANext] (AAudit 1 [])) = show (see [ANext; AAudit 0 []; ANext; ANext] (AAudit 1 [])) /\
  show (see [ANext; ANext] (AAudit 1 [])) =
    Some [("200", ["$"; ".count"; "*B 1"]); ("100", ["$"; ".count"; "*A 1"]); ("300", ["$"; ".count"; "*C 1"])] /\
  see [ANext] (AAudit 1 []) = SawNothing /\ see [ANext; ANext] ANext = SawNext None None.
Proof. vm_compute. auto. Qed.

(** ** C87 *)
Definition judged_from_the_same_claims : Prop :=
  forall ord nord u st es z1 z2,
  In z1 (g_items (area_solutions ord nord u st es)) -> In z2 (g_items (area_solutions ord nord u st es)) ->
  z_ctx z1 = z_ctx z2 -> z_claims z1 = z_claims z2.
(** courses claimed already, audited before anything else in the area *)
Definition claimed_first : node := NReq KRule (mkReq ["$"; ".count"; "%a"] false "a" false false true None) (Some (NQuery KRule
  (mkQuery ["$"; ".count"; "%a"; ".query"] false QClaimed DtCourse
    [APlain (mkAs ["$"; ".count"; "%a"; ".query"; ".assertions"; "[0]"] Empty DtCourse None KCourses OGte (mkDec 1 0) None [] false None None false true false None None None None)]
    [] None true false false false [] [] [] [] [] []))).
Definition unequal : study := one_rule "concentration"
  (all_of [claimed_first; child "%x" (one_of ["A 1"; "B 1"]); child "%y" (one_of ["B 1"; "D 1"]); child "%z" (named "C 1")]) [].
Definition half_way : list course := [a_now; mk_simple "200" "B" "1"; mk_simple "300" "C" "1"; mk_simple "400" "D" "1"].
(** Only the first solution of a transcript sees the claims of the children solved apart. In
    the witness the last solution is complete on the first one's terms, but the area is
    reported as still under way. *)
Theorem judged_from_the_same_claims_refuted :
  ~ judged_from_the_same_claims /\
  (let zs := g_items (area_solutions same_order keep unequal (took half_way) []) in
   map (status_in unequal) zs = [Some PendingCurrent; Some NeedsMoreItems; Some NeedsMoreItems; Some NeedsMoreItems] /\
   match zs with
   | [z1; _; _; z4] => z_ctx z4 = z_ctx z1 /\ map fst (z_claims z1) = ["300"] /\ z_claims z4 = [] /\
       status_in unequal (mkAsol (z_ctx z4) (z_claims z1) (z_sol z4)) = Some Done
   | _ => False
   end).
Proof.
  split; [|vm_compute; auto 8]. intro H.
  assert (E : exists z1 z2 rest, g_items (area_solutions same_order keep unequal (took half_way) []) = z1 :: z2 :: rest /\ z_ctx z1 = z_ctx z2 /\ z_claims z1 <> z_claims z2).
  { eexists _, _, _. split; [vm_compute; reflexivity|]. split; [reflexivity|discriminate]. }
  destruct E as [z1 [z2 [rest [E [C N]]]]]. apply N. apply (H same_order keep unequal (took half_way) [] z1 z2); auto; rewrite E; simpl; auto.
Qed.
Print Assumptions judged_from_the_same_claims_refuted.
(** If the children of the top rule are not solved apart, all start from nothing. *)
Theorem judged_from_the_same_claims_partial :
  forall ord nord u st es, (forall cx, snd (top_solutions ord nord cx [] (u_result u)) = []) ->
  forall z, In z (g_items (area_solutions ord nord u st es)) -> z_claims z = [].
Proof.
  intros ord nord u st es H. unfold area_solutions. generalize (g_exn (transcripts ord u st es)) as e. induction (g_items (transcripts ord u st es)) as [|lt lts IH]; intros e z I; cbn [solutions_from] in I; [destruct I|].
  assert (T := H (limited_ctx u st es lt)). destruct (top_solutions ord nord (limited_ctx u st es lt) [] (u_result u)) as [g t1]. cbn in T. subst t1.
  destruct g as [[|s ss] [x|]]; [destruct I|eauto| |]; unfold gapp in I; cbn [g_exn g_items] in I; destruct I as [<-|I]; auto.
  - apply in_map_iff in I. destruct I as [y [<- _]]. reflexivity.
  - apply in_app_iff in I. destruct I as [I|I]; [apply in_map_iff in I; destruct I as [y [<- _]]; reflexivity|eauto].
Qed.
Print Assumptions judged_from_the_same_claims_partial.
Example same_claims_example :
  (forall cx, snd (top_solutions same_order keep cx [] (child "%x" (one_of ["A 1"; "B 1"]))) = []) /\
  List.length (g_items (area_solutions same_order keep (one_rule "concentration" (child "%x" (one_of ["A 1"; "B 1"])) []) (took three) [])) = 2%nat.
Proof. split; [reflexivity|vm_compute; reflexivity]. Qed.

(** ** Auditing a solution *)

(** [r] is the best result of the rule in the context, on an empty table *)
Definition best_in (ord : list course -> list course) (cx : ctx) (rule r : node) : Prop :=
  exists own last, selected ord cx (solutions ord cx rule) r own last.
Lemma best_or_fail_ok ord cx n r : best_or_fail ord cx n = Ok r <-> best_in ord cx n r.
Proof.
  unfold best_or_fail, best_in. assert (X := find_best_exact ord cx [] n false (Some r)). split.
  - intro H. destruct (find_best_solution ord cx [] n false) as [[[b|] t]|] eqn:F; cbn in H; try discriminate. injection H as ->.
    destruct (proj1 X (ex_intro _ t eq_refl)) as [[r' [own [z [E S]]]]|[E _]]; [injection E as <-; eauto|discriminate].
  - intros [own [z S]]. destruct (proj2 X) as [t F]; [left; exists r, own, z; auto|]. rewrite F. reflexivity.
Qed.
(** the context of the first two common rules: the courses claimed in the result make up the
    transcript, and those inserted below the first rule are at hand to be forced in *)
Definition claimed_courses_ctx (cx : ctx) (result first : node) (ccx : ctx) : Prop :=
  exists lt forced, ccx = with_transcript cx lt forced [] [] /\
    matched_courses result lt /\
    (forall k c, dget forced k = Some c -> c_clbid c = k /\ exists e, In e (get_inserts_beneath (cx_exc cx) (path_of first)) /\ forced_by_clbid cx (exc_clbid e) = Ok c) /\
    (forall e, In e (get_inserts_beneath (cx_exc cx) (path_of first)) -> exists c, forced_by_clbid cx (exc_clbid e) = Ok c /\ dget forced (c_clbid c) <> None).
(** the common block: the first two rules over the claimed courses, the third over all courses
    of the student; without a third rule, or if it raises IndexError, there are two parts *)
Theorem common_block_exact :
  forall ord u cx result common, set_order ord -> audit_common ord u cx result = Ok common ->
  exists r0 r1 more ccx a b o,
    u_common u = r0 :: r1 :: more /\ claimed_courses_ctx cx result r0 ccx /\ best_in ord ccx r0 a /\ best_in ord ccx r1 b /\
    (let wcx := with_transcript cx (cx_excluded cx) [] [] [] in
     match more with
     | [] => o = []
     | r2 :: _ => (exists x, o = [x] /\ best_in ord wcx r2 x) \/ (o = [] /\ raised ord wcx (solutions ord wcx r2) IndexErr)
     end) /\
    common = NReq KRes (mkReq ["$"; "%Common Requirements"] false ("Common " ++ degree_name (u_degree u) ++ " Major Requirements") false false false None)
      (Some (NCount KRes (mkCount ["$"; "%Common Requirements"; ".count"] false (2 + Z.of_nat (List.length o)) false []) (a :: b :: o))).
Proof.
  intros ord u cx result common SO H. unfold audit_common in H. destruct (u_common u) as [|r0 l]; [discriminate|]. cbn [nth_rule nth_error bind] in H.
  destruct (common_exceptions cx (path_of r0)) as [forced|] eqn:CE; cbn [bind] in H; [|discriminate].
  destruct (best_or_fail ord (claimed_ctx ord cx result forced) r0) as [a|] eqn:A; cbn [bind] in H; [|discriminate].
  destruct l as [|r1 more]; [discriminate|]. cbn [nth_rule nth_error bind] in H. destruct (best_or_fail ord (claimed_ctx ord cx result forced) r1) as [b|] eqn:B; cbn [bind] in H; [|discriminate].
  match type of H with bind ?x _ = _ => destruct x as [o|] eqn:O; cbn [bind] in H; [|discriminate] end. injection H as <-.
  exists r0, r1, more, (claimed_ctx ord cx result forced), a, b, o. apply best_or_fail_ok in A, B. split; [reflexivity|]. split; [|split; [exact A|split; [exact B|split]]].
  - exists (ord (matched_of (claims_of result))), forced. split; [reflexivity|]. split; [apply matched_items_courses; exact SO|].
    unfold common_exceptions in CE. destruct (mapr _ _) as [cs|] eqn:M; cbn [bind] in CE; [|discriminate]. injection CE as <-. apply mapr_ok in M. destruct (fold_dset cs []) as [D1 [D2 _]]. split.
    + intros k c G. destruct (D1 k c G) as [[I E]|E]; [|discriminate]. split; auto. destruct (F2_in_r _ _ _ _ M I) as [e [J K]]. exists e. auto.
    + intros e I. destruct (F2_in_l _ _ _ _ M I) as [c [J K]]. exists c. auto.
  - cbv zeta. destruct more as [|r2 more]; cbn [nth_rule nth_error bind] in O; [congruence|]. fold (whole_ctx cx).
    destruct (best_or_fail ord (whole_ctx cx) r2) as [x|e] eqn:X.
    + left. exists x. split; [congruence|]. apply best_or_fail_ok. exact X.
    + right. destruct e; try discriminate. split; [congruence|]. unfold best_or_fail in X. destruct (find_best_solution ord (whole_ctx cx) [] r2 false) as [[[y|] t]|e] eqn:F; cbn in X; try discriminate.
      injection X as ->. apply find_best_raises in F. destruct F as [F|[F _]]; [exact F|discriminate].
  - unfold common_result. do 4 f_equal. cbn [List.length]. rewrite !Nat2Z.inj_succ. lia.
Qed.
Print Assumptions common_block_exact.

(** Auditing a solution: its tree is audited on the claims it comes with. The result of a
    major must be a count; the common block is added as one more child that counts. *)
Theorem area_audit_exact :
  forall ord u z v t', area_audit ord u z = Ok (v, t') <->
  exists r, audit ord (z_ctx z) (z_claims z) (z_sol z) = Ok (r, t') /\
    v_area v = u /\ v_ctx v = z_ctx z /\
    ((u_kind u <> "major" /\ v_result v = r) \/
     (u_kind u = "major" /\ exists k i items common, r = NCount k i items /\ audit_common ord u (z_ctx z) r = Ok common /\
        v_result v = NCount k (mkCount (n_path i) (n_overridden i) (n_count i + 1) (n_at_most i) (n_audits i)) (items ++ [common]))).
Proof.
  intros ord u z [a cx res] t'. unfold area_audit. destruct (audit ord (z_ctx z) (z_claims z) (z_sol z)) as [[r t1]|] eqn:A; cbn [bind]; [|split; [discriminate|intros [r [X _]]; discriminate]].
  cbn [v_area v_ctx v_result]. destruct (String.eqb_spec (u_kind u) "major") as [M|M].
  - destruct (audit_common ord u (z_ctx z) r) as [c|] eqn:C; cbn [bind].
    + split.
      * intro H. destruct r as [| |k i items| | |]; try discriminate. injection H as <- <- <- <-. exists (NCount k i items). split; [reflexivity|]. split; auto. split; auto. right. split; auto. exists k, i, items, c. auto.
      * intros [r' [X [-> [-> [[N _]|[_ [k [i [items [common [E [C' ->]]]]]]]]]]]]; [contradiction|]. injection X as <- <-. subst r. rewrite C in C'. injection C' as <-. reflexivity.
    + split; [discriminate|]. intros [r' [X [_ [_ [[N _]|[_ [k [i [items [common [E [C' _]]]]]]]]]]]]; [contradiction|]. injection X as <- <-. congruence.
  - split.
    + intro H. injection H as <- <- <- <-. exists r. auto 6.
    + intros [r' [X [-> [-> [[_ ->]|[N _]]]]]]; [congruence|contradiction].
Qed.
Print Assumptions area_audit_exact.

(** ** C49 *)
Lemma audit_each_length f : forall l t rs t', audit_each f t l = Ok (rs, t') -> List.length rs = List.length l.
Proof.
  induction l as [|x l IH]; intros t rs t' H; cbn [audit_each] in H; [injection H as <- <-; reflexivity|].
  match type of H with bind ?x _ = _ => destruct x as [[y t1]|]; cbn [bind] in H; [|discriminate] end.
  destruct (audit_each f t1 l) as [[ys t2]|] eqn:E; cbn [bind] in H; [|discriminate]. injection H as <- <-. cbn. f_equal. eauto.
Qed.
Lemma subseq_length_eq {A} (s l : list A) : subseq s l -> List.length s = List.length l -> s = l.
Proof.
  induction 1 as [|x s l S IH|x s l S IH]; intro E; cbn in *; [reflexivity|f_equal; apply IH; lia|]. apply subseq_length in S. lia.
Qed.
(** If the top rule requires all its children and is not waived, a major passes only if its
    common block passes (and is complete only if that is). *)
Theorem major_needs_common :
  forall ord u z v t' k i items,
  area_audit ord u z = Ok (v, t') -> u_kind u = "major" ->
  z_sol z = NCount k i items -> n_overridden i = false -> (Z.of_nat (List.length items) <= n_count i)%Z ->
  exists r common results, audit ord (z_ctx z) (z_claims z) (z_sol z) = Ok (r, t') /\ audit_common ord u (z_ctx z) r = Ok common /\
    (exists k' i', v_result v = NCount k' i' (results ++ [common])) /\ List.length results = List.length items /\
    (passing (area_status v) -> forall x, In x (results ++ [common]) -> passing (status_of x)) /\
    (complete (area_status v) -> forall x, In x (results ++ [common]) -> complete (status_of x)).
Proof.
  intros ord u z v t' k i items A M ZS O L. apply area_audit_exact in A. destruct A as [r [A [VA [VC [[N _]|[_ [k' [i' [results [common [-> [C VR]]]]]]]]]]]]; [contradiction|].
  exists (NCount k' i' results), common, results. rewrite VR. split; [exact A|]. split; [exact C|]. split; [eauto|].
  rewrite ZS in A. cbn [audit] in A. rewrite O in A. destruct (audit_each (audit ord (z_ctx z)) (z_claims z) items) as [[rs t1]|] eqn:AE; cbn [bind] in A; [|discriminate].
  match type of A with bind ?x _ = _ => destruct x as [cls|]; cbn [bind] in A; [|discriminate] end. injection A as <- <- <- <-. assert (LE := audit_each_length _ _ _ _ _ AE).
  split; [exact LE|]. unfold area_status. rewrite VR. cbn [node_waived overridden n_overridden].
  set (i2 := mkCount _ _ _ _ _). set (all := rs ++ [common]). assert (X := count_passes_only_with_enough KRes i2 all eq_refl).
  assert (P : passing (status_of (NCount KRes i2 all)) -> forall x, In x all -> passing (status_of x)).
  { intro P. destruct (proj1 X P) as [[chosen [SUB [LC F]]] _]. assert (E : chosen = all).
    { apply subseq_length_eq; [exact SUB|]. assert (LS := subseq_length _ _ SUB). unfold i2 in LC. cbn [n_count] in LC. unfold all in *. rewrite app_length in *. cbn in *. lia. }
    subst chosen. exact F. }
  split; [exact P|]. intros CP x J. apply (proj1 (proj2 X CP) x J). apply P; [left; exact CP|exact J].
Qed.
Print Assumptions major_needs_common.
(** a common rule: a course that must be among those claimed, or among all *)
Definition need (n : string) : node := NReq KRule (mkReq ["$"; "%Common Requirements"; ".count"; "[0]"] false n false false true None) (Some (named n)).
Example major_example :
  let z l := match g_items (area_solutions same_order keep (one_rule "major" (all_of [named "A 1"]) (map need l)) (took three) []) with z :: _ => Some z | [] => None end in
  let st l := match z l with Some z => status_in (one_rule "major" (all_of [named "A 1"]) (map need l)) z | None => None end in
  st ["A 1"; "A 1"; "B 1"] = Some Done /\ st ["A 1"; "A 1"] = Some Done /\
  st ["B 1"; "A 1"; "B 1"] = Some NeedsMoreItems /\ st ["A 1"; "A 1"; "Z 1"] = Some NeedsMoreItems /\ st ["A 1"] = None.
Proof. vm_compute. auto 6. Qed.
(** ** C88 *)
Definition majors_meet_the_common_block : Prop :=
  forall ord u z v t' k i results common, area_audit ord u z = Ok (v, t') -> u_kind u = "major" ->
  v_result v = NCount k i (results ++ [common]) -> n_overridden i = false -> passing (area_status v) -> passing (status_of common).
Definition lenient : study := one_rule "major" (rules 1 false [named "A 1"; named "B 1"]) (map need ["Z 1"; "Z 2"; "Z 3"]).
(** A major whose top rule asks for fewer children than it has can pass without. *)
Theorem majors_meet_the_common_block_refuted :
  ~ majors_meet_the_common_block /\
  map (fun z => match area_audit same_order lenient z with
                | Ok (v, _) => match v_result v with NCount _ i l => Some (area_status v, n_count i, map status_of l) | _ => None end
                | Err _ => None end)
      (g_items (area_solutions same_order keep lenient (took three) [])) = [Some (Done, 2%Z, [Done; Done; Empty])].
Proof.
  split; [|vm_compute; reflexivity]. intro H.
  assert (E : exists z v t' k i a b common, area_audit same_order lenient z = Ok (v, t') /\ v_result v = NCount k i ([a; b] ++ [common]) /\
    n_overridden i = false /\ area_status v = Done /\ status_of common = Empty).
  { destruct (g_items (area_solutions same_order keep lenient (took three) [])) as [|z zs] eqn:G; [vm_compute in G; discriminate|].
    exists z. vm_compute in G. injection G as <- _. do 7 eexists. split; [vm_compute; reflexivity|]. split; [reflexivity|]. vm_compute. auto. }
  destruct E as [z [v [t' [k [i [a [b [common [A [VR [O [SD SE]]]]]]]]]]]].
  assert (X := H same_order lenient z v t' k i [a; b] common A eq_refl VR O). rewrite SD, SE in X.
  destruct (X (or_introl (or_introl eq_refl))) as [[Y|Y]|[Y|Y]]; discriminate.
Qed.
Print Assumptions majors_meet_the_common_block_refuted.

(** ** C61 *)

(** The claims map: the successful claims of the tree, sorted by course and time, grouped by
    class id in the order of first appearance. *)
Theorem keyed_claims_exact :
  forall v, exists sorted,
  sorted_claims (filter (fun cl => negb (cl_failed cl)) (claims_of (v_result v))) sorted /\
  firsts (map (fun cl => c_clbid (cl_course cl)) sorted) (map fst (keyed_claims v)) /\
  NoDup (map fst (keyed_claims v)) /\
  forall k ps, dget (keyed_claims v) k = Some ps <->
    ps <> [] /\ ps = map cl_by (filter (fun cl => String.eqb (c_clbid (cl_course cl)) k) sorted).
Proof.
  intro v. unfold keyed_claims, area_claims. set (l := filter _ _). exists (isort claim_leb l). destruct (by_clbid_ok (isort claim_leb l)) as [N [F G]].
  assert (MF : forall d : list (string * list claim), map fst (map (fun kv => (fst kv, map cl_by (snd kv))) d) = map fst d) by (intro d; rewrite map_map; reflexivity).
  split; [apply sorted_claims_ok|]. rewrite MF. split; [exact F|]. split; [exact N|].
  assert (DG : forall (d : list (string * list claim)) k, dget (map (fun kv => (fst kv, map cl_by (snd kv))) d) k = option_map (map cl_by) (dget d k)).
  { induction d as [|[k' x] d IH]; intro k; cbn; [reflexivity|]. destruct (String.eqb k k'); [reflexivity|apply IH]. }
  intros k ps. rewrite DG, G. destruct (filter _ (isort claim_leb l)) as [|x xs]; cbn [option_map map].
  - split; [discriminate|]. intros [A B]. contradiction.
  - split; [intro H; injection H as <-; split; [discriminate|reflexivity]|]. intros [_ ->]. reflexivity.
Qed.
Print Assumptions keyed_claims_exact.
(** So each class id is listed with exactly the paths of its successful claims. *)
Theorem keyed_claims_lose_nothing :
  forall v k,
  (In k (map fst (keyed_claims v)) <-> exists cl, claimed_in false (v_result v) cl /\ cl_failed cl = false /\ c_clbid (cl_course cl) = k) /\
  (forall ps, dget (keyed_claims v) k = Some ps -> Permutation ps (map cl_by (claims_on v k))) /\
  (forall ps, dget (keyed_claims v) k = Some ps -> (forall a b, In a (claims_on v k) -> In b (claims_on v k) -> cl_course a = cl_course b) ->
     ps = map cl_by (claims_on v k)).
Proof.
  intros v k. destruct (keyed_claims_exact v) as [sorted [[P [S ST]] [F [N G]]]].
  assert (FF : forall l : list claim, filter (fun cl => String.eqb (c_clbid (cl_course cl)) k) (filter (fun cl => negb (cl_failed cl)) l) = filter (fun cl => negb (cl_failed cl) && String.eqb (c_clbid (cl_course cl)) k) l).
  { induction l as [|x l IH]; [reflexivity|]. cbn. destruct (cl_failed x); cbn; [exact IH|]. rewrite IH. reflexivity. }
  assert (PK : Permutation (filter (fun cl => String.eqb (c_clbid (cl_course cl)) k) sorted) (claims_on v k)).
  { unfold claims_on. rewrite <- FF. clear - P. induction P; cbn; try (destruct (_ =? _)); auto; [|eapply perm_trans; eauto]. destruct (_ =? _); auto. apply perm_swap. }
  split; [|split].
  - assert (FI : forall x, In x (map fst (keyed_claims v)) <-> In x (map (fun cl => c_clbid (cl_course cl)) sorted)).
    { clear - F. induction F; intro y; rewrite ?in_app_iff; [reflexivity|rewrite IHF; reflexivity|]. rewrite IHF. cbn. split; [auto|]. intros [?|[<-|[]]]; auto. }
    rewrite FI, in_map_iff. split.
    + intros [cl [E I]]. exists cl. apply (Permutation_in _ P) in I. apply filter_In in I. destruct I as [I K]. apply negb_true_iff in K. split; [apply claims_exact; exact I|]. auto.
    + intros [cl [I [K E]]]. exists cl. split; auto. eapply Permutation_in; [symmetry; exact P|]. apply filter_In. split; [apply claims_exact; exact I|]. rewrite K. reflexivity.
  - intros ps H. apply G in H. destruct H as [_ ->]. apply Permutation_map. exact PK.
  - intros ps H SAME. apply G in H. destruct H as [NE ->]. f_equal.
    destruct (claims_on v k) as [|c0 cs] eqn:C; [apply Permutation_sym, Permutation_nil in PK; rewrite PK in NE; contradiction|]. rewrite <- C in *.
    (* the claims with the key of [c0], then those of the class *)
    assert (KD : forall a b : list key, {a = b} + {a <> b}) by (decide equality; decide equality; [apply string_dec|apply Z.eq_dec]).
    pose (p := fun l => if KD l (listing_key c0) then true else false).
    assert (PP : forall a b, p a = true -> p b = true -> a = b) by (intros a b; unfold p; destruct (KD a (listing_key c0)), (KD b (listing_key c0)); congruence).
    specialize (ST p PP). set (good := filter (fun cl => negb (cl_failed cl)) (claims_of (v_result v))) in *.
    assert (REF : forall l, (forall cl, In cl l -> c_clbid (cl_course cl) = k -> In cl (claims_on v k)) ->
       filter (fun cl => String.eqb (c_clbid (cl_course cl)) k) (filter (fun cl => p (listing_key cl)) l) = filter (fun cl => String.eqb (c_clbid (cl_course cl)) k) l).
    { induction l as [|x l IH]; intro H; [reflexivity|]. cbn. assert (IH' := IH (fun cl I => H cl (or_intror I))).
      destruct (String.eqb_spec (c_clbid (cl_course x)) k) as [E|E].
      - assert (J := H x (or_introl eq_refl) E). assert (PX : p (listing_key x) = true).
        { unfold p. destruct (KD (listing_key x) (listing_key c0)) as [|NE']; [reflexivity|]. exfalso. apply NE'. unfold listing_key. rewrite (SAME x c0 J); [reflexivity|]. rewrite C. simpl. auto. }
        rewrite PX. cbn. rewrite E, String.eqb_refl. f_equal. exact IH'.
      - destruct (p (listing_key x)); cbn; [|exact IH']. apply String.eqb_neq in E. rewrite E. exact IH'. }
    rewrite <- (REF sorted), ST, (REF good).
    + unfold good. rewrite FF. reflexivity.
    + intros cl I E. unfold claims_on. rewrite <- FF. fold good. apply filter_In. split; [exact I|]. rewrite E. apply String.eqb_refl.
    + intros cl I E. unfold claims_on. rewrite <- FF. fold good. apply filter_In. split; [eapply Permutation_in; [exact P|exact I]|]. rewrite E. apply String.eqb_refl.
Qed.
Print Assumptions keyed_claims_lose_nothing.
Example keyed_example :
  let u := one_rule "concentration" (all_of [named "B 1"; child "%y" (named "A 1"); child "%z" (named "Z 1")]) [] in
  map (fun z => match area_audit same_order u z with Ok (v, _) => Some (keyed_claims v) | Err _ => None end)
      (g_items (area_solutions same_order keep u (took three) [])) =
    [Some [("100", [["$"; ".count"; "*A 1"]]); ("200", [["$"; ".count"; "*B 1"]])]].
Proof. vm_compute. reflexivity. Qed.

(** ** C89: the status and the average of an area *)

(** The status is that of the tree, except that a waived tree counts as waived. *)
Theorem area_status_exact :
  forall v s, area_status v = s <->
  (node_waived (v_result v) = true /\ s = Waived) \/ (node_waived (v_result v) = false /\ has_status (v_result v) s).
Proof.
  intros v s. unfold area_status. destruct (node_waived (v_result v)).
  - split; [intros <-; auto|]. intros [[_ ->]|[E _]]; [reflexivity|discriminate].
  - rewrite tree_status_exact. split; [auto|]. intros [[E _]|[_ E]]; [discriminate|exact E].
Qed.
Print Assumptions area_status_exact.
(** The average of a degree is over all the student's courses, also the failed ones; that of
    any other area over the distinct courses successfully claimed by requirements that count
    towards the average. *)
Theorem area_gpa_exact :
  forall v, (u_kind (v_area v) = "degree" -> area_gpa v = grade_point_average (cx_failed (v_ctx v))) /\
  (u_kind (v_area v) <> "degree" -> forall cs, NoDup cs ->
     (forall c, In c cs <-> exists cl, claimed_in true (v_result v) cl /\ cl_failed cl = false /\ cl_course cl = c) ->
     area_gpa v = grade_point_average cs).
Proof.
  intro v. unfold area_gpa. split; intro K.
  - rewrite K. reflexivity.
  - apply String.eqb_neq in K. rewrite K. intros cs N H. apply gpa_depends_on_counted_courses_only. apply perm_filter. apply NoDup_Permutation; [apply dedup_NoDup, course_eqb_spec|exact N|].
    intro c. rewrite H. unfold matched_of, area_gpa_claims. rewrite (in_dedup course_eqb course_eqb_spec), in_map_iff. split.
    + intros [cl [E I]]. apply filter_In in I. destruct I as [I J]. apply negb_true_iff in J. exists cl. split; [apply claims_exact; exact I|]. auto.
    + intros [cl [I [J E]]]. exists cl. split; auto. apply filter_In. split; [apply claims_exact; exact I|]. rewrite J. reflexivity.
Qed.
Print Assumptions area_gpa_exact.
Definition f_grade : course := {| c_clbid := "900"; c_attributes := []; c_credits := mkDec 100 (-2); c_crsid := ""; c_course_type := CtSemester; c_gereqs := [];
  c_gpa_points := mkDec 0 (-2); c_grade_code := GF; c_grade_option := GoGrade; c_grade_points := mkDec 0 (-2); c_institution := "STOLAF"; c_in_gpa := true;
  c_in_progress := false; c_ip_this_term := false; c_ip_in_future := false; c_incomplete := false; c_repeat := false; c_stolaf := true; c_lab := false; c_covid := false;
  c_level := 100; c_name := ""; c_number := "1"; c_schedid := None; c_section := None; c_sub_type := StNormal; c_subject := "F"; c_su_grade := None; c_term := "1";
  c_transcript_code := TcEmpty; c_year := 2000; c_yearterm := "20001"; c_identity := "F 1"; c_chbi := None |}.
Example area_results_example :
  let u kind := one_rule kind (all_of [named "A 1"; child "%y" (named "B 1")]) [] in
  let show kind := map (fun z => match area_audit same_order (u kind) z with Ok (v, _) => Some (area_status v, area_gpa v) | Err _ => None end)
      (g_items (area_solutions same_order keep (u kind) (mkStudent three (f_grade :: three) [] [] [] no_proficiencies) [])) in
  show "degree" = [Some (Done, mkDec 225 (-2))] /\ show "concentration" = [Some (Done, mkDec 300 (-2))].
Proof. vm_compute. auto. Qed.
