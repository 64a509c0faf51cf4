(** Proofs about ways to meet a requirement. *)
From Coq Require Import List ZArith QArith Bool String Lia Sorted Permutation.
From Verif Require Import Prelude Dec Status Course Claims Exceptions Op Context CondExpr Paths Predicate Limit Apply Assertion Query CourseRule Tree LazyRun.
From Verif Require Import ListFacts LimitSpec LimitProps AssertionSpec AssertionProofs PathsSpec PathsProofs ExceptionsProofs EnumSpec EnumProofs QuerySpec QueryProofs QueryProps CourseRuleSpec CourseRuleProofs CourseRuleProps TreeSpec TreeProofs TreeStatusProps TreeSolSpec TreeSolProofs TreeSolProps TreeAskSpec TreeAskProps SolveProofs PlanSpec.
Import ListNotations.
Local Open Scope list_scope.

(** ** claims of classes that are free *)
Lemma dget_dset_other {V} (d : list (string * V)) k k' v : k <> k' -> dget (dset d k v) k' = dget d k'.
Proof.
  intro N. induction d as [|[a b] d IH]; cbn.
  - destruct (String.eqb k' k) eqn:E; [apply String.eqb_eq in E; congruence|reflexivity].
  - destruct (String.eqb k a) eqn:E.
    + apply String.eqb_eq in E. subst a. cbn. destruct (String.eqb k' k) eqn:E'; [apply String.eqb_eq in E'; congruence|reflexivity].
    + cbn. destruct (String.eqb k' a); auto.
Qed.
Lemma free_claim mc t c p sh : unclaimed t (uses_up sh (c_clbid c)) ->
  exists t', make_claim mc t c p sh = Ok (mkClaim c p false, t') /\ forall k, ~ In k (uses_up sh (c_clbid c)) -> dget t' k = dget t k.
Proof.
  intro F. unfold make_claim. destruct sh; [eauto|]. cbn in F. rewrite (F _ (or_introl eq_refl)). eexists. split; [reflexivity|].
  intros k N. unfold record_claim. cbn [cl_course]. rewrite (F _ (or_introl eq_refl)). apply dget_dset_other. cbn in N. tauto.
Qed.
Lemma unclaimed_app t a b : unclaimed t (a ++ b) <-> unclaimed t a /\ unclaimed t b.
Proof. unfold unclaimed. split; [intro H; split; intros k I; apply H, in_or_app; auto|intros [H1 H2] k I; apply in_app_or in I; destruct I; auto]. Qed.
Lemma unclaimed_nil k : unclaimed [] k.
Proof. intros x _. reflexivity. Qed.

(** ** course solutions *)
Definition finished_by (s : crule) : Prop :=
  r_overridden s = true \/ exists c, r_matched s = Some c /\ (c_in_progress c = false \/ r_inserted s = true).
Lemma course_runs mc t s : r_from_claimed s = false -> unclaimed t (takes s) ->
  exists r t', c_audit mc t s = Ok (r, t') /\ (finished_by s -> complete (c_status KRes r)) /\ (forall k, ~ In k (takes s) -> dget t' k = dget t k) /\
  (forall k, In k (takes s) -> exists cl, In cl (c_claims KRes r) /\ c_clbid (cl_course cl) = k).
Proof.
  intros FC F. unfold c_audit. unfold takes in *. destruct (r_overridden s) eqn:O.
  { eexists _, _. split; [reflexivity|]. split; [|split; [auto|intros ? []]]. intros _. right. apply course_result_status_exact. apply cs_excused. split; [intros [cl [H _]]; discriminate H|right; reflexivity]. }
  destruct (r_matched s) as [c|] eqn:M.
  2:{ eexists _, _. split; [reflexivity|]. split; [|split; [auto|intros ? []]]. intros [H|[c [H _]]]; congruence. }
  rewrite FC. cbn [andb]. destruct (free_claim mc t c (r_path s) (r_forced s || r_allow s) F) as [t' [E K]]. rewrite E. cbn [bind].
  eexists _, _. split; [reflexivity|]. split; [|split; [exact K|intros k I; exists (mkClaim c (r_path s) false); split; [simpl; auto|unfold uses_up in I; destruct (_ || _)%bool; [destruct I|destruct I as [<-|[]]; reflexivity]]]].
  intros [H|[d [H PR]]]; [congruence|]. rewrite M in H. injection H as <-. destruct PR as [P|P].
  - destruct (r_inserted s) eqn:I.
    + right. apply course_result_status_exact. apply cs_excused. split; [intros [cl [H1 H2]]; injection H1 as <-; discriminate|left; exact I].
    + left. apply course_result_status_exact. apply (cs_done _ c); [|eexists; split; [reflexivity|auto]|exact P].
      intros [_ [H|H]]; cbn in H; congruence.
  - right. apply course_result_status_exact. apply cs_excused. split; [intros [cl [H1 H2]]; injection H1 as <-; discriminate|left; exact P].
Qed.
Lemma solved_not_from_claimed cx r s : In s (g_items (c_solutions cx r)) -> r_from_claimed s = false.
Proof.
  intro I. rewrite c_solutions_form in I. assert (NO : forall c i f o, r_from_claimed (c_solution r c i f o) = false) by reflexivity.
  destruct (r_auto_waived r || _)%bool; [destruct I as [<-|[]]; apply NO|].
  assert (J : In s (g_items (offered cx r)) \/ s = c_solution r None false false false).
  { destruct (offered cx r) as [[|] [|]]; cbn [g_items gret In] in *; intuition. }
  destruct J as [J| ->]; [|apply NO]. unfold offered, gapp in J.
  assert (J' : In s (g_items (c_inserts cx r (get_inserts (cx_exc cx) (r_path r)))) \/
    In s (map (fun c => c_solution r (Some c) false false false) (filter (fun c => negb (c_skips r c)) (g_items (find_courses cx r))))).
  { destruct (g_exn (c_inserts _ _ _)); [auto|]. cbn [g_items] in J. rewrite in_app_iff in J. exact J. }
  destruct J' as [J'|J'].
  - apply inserts_items in J'. destruct J' as [x [c [_ [_ [_ ->]]]]]. apply NO.
  - apply in_map_iff in J'. destruct J' as [c [<- _]]. apply NO.
Qed.

(** ** query solutions *)
Lemma claims_free mc q : forall cs t ks, ks = (if q_allow q then [] else map c_clbid cs) -> NoDup ks -> unclaimed t ks ->
  exists ok t', claim_each mc t q cs = Ok (cs, ok, [], t') /\ (forall k, ~ In k ks -> dget t' k = dget t k) /\
  (forall k, In k ks -> exists cl, In cl ok /\ c_clbid (cl_course cl) = k).
Proof.
  induction cs as [|c cs IH]; intros t ks -> ND F; [eexists _, _; split; [reflexivity|split; [auto|destruct (q_allow q); intros ? []]]|]. cbn [claim_each].
  set (sh := (q_allow q || instr (c_clbid c) (q_forced q))%bool).
  assert (SUB : forall k, In k (uses_up sh (c_clbid c)) -> In k (if q_allow q then [] else map c_clbid (c :: cs))).
  { intros k. unfold sh. destruct (q_allow q); [intros []|]. cbn [orb]. destruct (instr _ _); [intros []|]. cbn. tauto. }
  destruct (free_claim mc t c (q_path q) sh) as [t1 [E K]]; [intros k I; apply F, SUB, I|]. rewrite E. cbn [bind].
  destruct (IH t1 _ eq_refl) as [ok [t2 [E2 [K2 U2]]]].
  - destruct (q_allow q); [constructor|]. inversion ND; assumption.
  - intros k I. rewrite K.
    + apply F. destruct (q_allow q); [destruct I|]. right. exact I.
    + intro J. unfold sh in J. destruct (q_allow q); [destruct I|]. cbn [orb] in J. destruct (instr _ _); [destruct J|]. cbn in J. destruct J as [<-|[]].
      cbn in ND. inversion ND; contradiction.
  - rewrite E2. cbn [bind cl_failed]. eexists _, _. split; [reflexivity|]. split.
    + intros k N. rewrite K2, K; auto. intro I. apply N. destruct (q_allow q); [destruct I|]. right. exact I.
    + intros k I. destruct (q_allow q); [destruct I|]. destruct I as [<-|I]; [eexists; split; [left; reflexivity|reflexivity]|]. destruct (U2 k I) as [cl [J <-]]. exists cl. simpl. auto.
Qed.
Lemma as_courses_all cs : mapr as_course (map ICourse cs) = Ok cs.
Proof. induction cs as [|c cs IH]; [reflexivity|]. cbn [map mapr as_course bind]. rewrite IH. reflexivity. Qed.
Lemma query_complete q asserts ok bad : (forall a, In a asserts -> complete (any_status a)) -> complete (q_status (q_result q false asserts ok bad)).
Proof.
  intro C. assert (V := proj1 (query_status_is_conjunction (q_result q false asserts ok bad) _ eq_refl) eq_refl). cbn [q_asserts q_result] in V.
  assert (NO : forall s, In s (map any_status asserts) -> complete s) by (intros s I; apply in_map_iff in I; destruct I as [a [<- I]]; auto).
  unfold complete in *. destruct (q_status _); cbn in V; auto; exfalso.
  - destruct V as [_ [[x [I N]] _]]. apply N. left. left. exact (NO x I).
  - exact V.
  - destruct V as [_ [[_ I]|[I _]]]; destruct (NO _ I); discriminate.
  - destruct V as [_ I]. destruct (NO _ I); discriminate.
  - destruct V as [_ I]. destruct (NO _ I); discriminate.
Qed.

(** ** counts *)
Lemma tally_imp {A} (P R : A -> Prop) l : (forall x, In x l -> (P x <-> R x)) -> forall n, tally P l n -> tally R l n.
Proof. intros H n T. induction T; [constructor|apply t_yes|apply t_no]; try (apply IHT; intros; apply H; simpl; auto); [apply H; simpl; auto|]. intro X. apply H0, H; simpl; auto. Qed.
Lemma tally_at_least {A} (P R : A -> Prop) l : (forall x, In x l -> P x -> R x) -> forall n m, tally P l n -> tally R l m -> (n <= m)%nat.
Proof.
  intros H n m T. revert m. induction T as [|x l n Px T IH|x l n Px T IH]; intros m U; inversion U; subst; try lia.
  - apply le_n_S, IH; auto. intros; apply H; simpl; auto.
  - exfalso. apply H2, H; simpl; auto.
  - apply Nat.le_le_succ_r, IH; auto. intros; apply H; simpl; auto.
  - apply IH; auto. intros; apply H; simpl; auto.
Qed.
Lemma tally_map {A B} (f : A -> B) (P : B -> Prop) l n : tally P (map f l) n <-> tally (fun x => P (f x)) l n.
Proof.
  revert n. induction l as [|x l IH]; intro n; cbn; split; intro T; inversion T; subst; try constructor; auto; apply IH; auto.
Qed.
Lemma tally_pos {A} (P : A -> Prop) l n : tally P l n -> (1 <= n)%nat -> exists x, In x l /\ P x.
Proof. induction 1 as [|x l n Px T IH|x l n Px T IH]; intro H; [lia|exists x; simpl; auto|]. destruct (IH H) as [y [I Q]]. exists y. simpl. auto. Qed.
Lemma count_complete k i items m : n_overridden i = false -> n_audits i = [] ->
  (forall x, In x items -> settled (status_of x)) -> tally (fun x => complete (status_of x)) items m -> (n_count i <= Z.of_nat m)%Z -> (1 <= m)%nat ->
  complete (status_of (NCount k i items)).
Proof.
  intros O A ST T C M. assert (V := proj1 (count_status_exact k i items _ O) eq_refl). rewrite A in V. cbn [map] in V.
  assert (PC : forall s, In s (map status_of items) -> settled s) by (intros s I; apply in_map_iff in I; destruct I as [x [<- I]]; auto).
  unfold complete in *. destruct (status_of (NCount k i items)); cbn in V; auto; exfalso.
  - destruct V as [_ [_ V]]. destruct (tally_pos _ _ _ T M) as [x [I CX]]. destruct (V _ (in_map status_of _ _ I)), CX; congruence.
  - exact V.
  - destruct V as [_ [[n [TN L]]|[x [[] _]]]]. assert (m <= n)%nat; [|lia]. apply (tally_map status_of) in TN.
    refine (tally_at_least _ _ items _ _ _ T TN). intros x I CX. left. exact CX.
  - destruct V as [_ [_ [I|[]]]]. destruct (PC _ I) as [_ H]. destruct H; [right; right; reflexivity|discriminate|discriminate].
  - destruct V as [_ [_ [I|[]]]]. destruct (PC _ I) as [_ H]. destruct H; [right; left; reflexivity|discriminate|discriminate].
  - destruct V as [I|[]]. destruct (PC _ I) as [H _]. congruence.
Qed.
Lemma nodup_parts {A} (a b : list A) : NoDup (a ++ b) -> NoDup a /\ NoDup b /\ forall x, In x a -> ~ In x b.
Proof.
  induction a as [|x a IH]; cbn; intro N; [split; [constructor|split; [exact N|intros x []]]|]. inversion N as [|? ? H1 H2]; subst. destruct (IH H2) as [X [Y Z]].
  split; [constructor; auto; intro I; apply H1, in_or_app; auto|]. split; [exact Y|]. intros y [<-|I] J; [apply H1, in_or_app; auto|exact (Z y I J)].
Qed.

Section Runs.
  Variable ord : list course -> list course.
  Variables (cx : ctx) (l : list exc).

  (** the result uses the class *)
  Definition used (r : node) (k : string) : Prop := exists cl, In cl (claims_of r) /\ c_clbid (cl_course cl) = k.
  (** audited where its classes are free, the solution is complete and touches no other class *)
  Definition runs (s : node) (ks : list string) : Prop :=
    forall t, unclaimed t ks -> exists r t', audit ord cx t s = Ok (r, t') /\ complete (status_of r) /\
      (forall k, ~ In k ks -> dget t' k = dget t k) /\ (forall k, In k ks -> used r k).
  (** what stands in the solution of a count: a solved child, or one that was left alone *)
  Definition ready (x : node) (ks : list string) : Prop :=
    (kind_of x = KSol /\ runs x ks) \/ (kind_of x <> KSol /\ settled (status_of x) /\ ks = []).
  Lemma complete_settled s : complete s -> settled s.
  Proof. intro C. split; [destruct C; congruence|auto]. Qed.
  Lemma each_runs : forall out kss, Forall2 ready out kss -> NoDup (List.concat kss) -> forall t, unclaimed t (List.concat kss) ->
    exists rs t', audit_each (audit ord cx) t out = Ok (rs, t') /\ (forall k, ~ In k (List.concat kss) -> dget t' k = dget t k) /\
      (forall k, In k (List.concat kss) -> exists y, In y rs /\ used y k) /\
      (forall y, In y rs -> settled (status_of y)) /\
      forall m, tally (fun x => kind_of x = KSol \/ complete (status_of x)) out m -> tally (fun y => complete (status_of y)) rs m.
  Proof.
    induction 1 as [|x ks out kss R F IH]; intros ND t U.
    { eexists _, _. split; [reflexivity|]. split; [auto|]. split; [intros k []|]. split; [intros y []|]. intros m T. inversion T; constructor. }
    cbn [List.concat] in *. apply unclaimed_app in U. destruct U as [U1 U2]. apply nodup_parts in ND. destruct ND as [N1 [N2 N3]]. cbn [audit_each].
    destruct R as [[K R]|[K [ST ->]]].
    - destruct (R t U1) as [r [t1 [A [C [O US]]]]]. rewrite K, A. cbn [bind]. destruct (IH N2 t1) as [rs [t2 [E [O2 [V2 [S2 T2]]]]]].
      { intros k I. rewrite O; [apply U2, I|]. intro J. exact (N3 k J I). }
      rewrite E. cbn [bind]. eexists _, _. split; [reflexivity|]. split.
      { intros k N. rewrite in_app_iff in N. rewrite O2, O by tauto. reflexivity. }
      split. { intros k I. apply in_app_or in I. destruct I as [I|I]; [exists r; simpl; auto|]. destruct (V2 k I) as [y [J V]]. exists y. simpl. auto. }
      split; [intros y [<-|I]; [apply complete_settled, C|auto]|].
      intros m T. inversion T; subst; [apply t_yes; auto|tauto].
    - assert (E0 : match kind_of x with KSol => audit ord cx t x | _ => Ok (x, t) end = Ok (x, t)) by (destruct (kind_of x); congruence).
      rewrite E0. cbn [bind]. destruct (IH N2 t U2) as [rs [t2 [E [O2 [V2 [S2 T2]]]]]]. rewrite E. cbn [bind]. eexists _, _. split; [reflexivity|].
      split; [exact O2|]. split; [intros k I; destruct (V2 k I) as [y [J V]]; exists y; simpl; auto|]. split; [intros y [<-|I]; auto|]. intros m T. inversion T; subst; [apply t_yes; [tauto|auto]|apply t_no; [tauto|auto]].
  Qed.
End Runs.

Lemma orderly_item k i items c : orderly (NCount k i items) -> In c items -> orderly c.
Proof.
  intros [Y [R S]] I. split; [|split].
  - intros r C. apply Y. destruct C as [[k' P]|[k' [i' [k'' P]]]]; [left; exists k'|right; exists k', i', k'']; (eapply pt_count; [exact I|exact P]).
  - intros x P. apply R. eapply pt_count; eauto.
  - intros k' i' items' P. eapply S. eapply pt_count; eauto.
Qed.
Lemma orderly_req k i x : orderly (NReq k i (Some x)) -> orderly x.
Proof.
  intros [Y [R S]]. split; [|split].
  - intros r C. apply Y. destruct C as [[k' P]|[k' [i' [k'' P]]]]; [left; exists k'|right; exists k', i', k'']; apply pt_req; exact P.
  - intros y P. apply R. apply pt_req; auto.
  - intros k' i' items' P. eapply S. apply pt_req; eauto.
Qed.
Lemma orderly_cond k i t f x : orderly (NCond k i t f) -> in_force i t f x -> orderly x.
Proof.
  intros [Y [R S]] I. assert (PT : forall y, part_of x y -> part_of (NCond k i t f) y) by (intros y P; destruct I as [_|x _ ->]; [apply pt_true|apply pt_false]; exact P).
  split; [|split].
  - intros r C. apply Y. destruct C as [[k' P]|[k' [i' [k'' P]]]]; [left; exists k'|right; exists k', i', k'']; auto.
  - intros y P. apply R. auto.
  - intros k' i' items' P. eapply S. eauto.
Qed.
Lemma flat_pick {A B} (p : A -> bool) (a : A -> list B) items : List.concat (map (fun c => if p c then a c else []) items) = flat_map a (filter p items).
Proof. induction items as [|x items IH]; cbn; [reflexivity|]. destruct (p x); cbn; rewrite IH; reflexivity. Qed.

Lemma perm_concat {A} (l m : list (list A)) : Permutation l m -> Permutation (List.concat l) (List.concat m).
Proof.
  induction 1; cbn; auto; [apply Permutation_app_head; auto| |eapply perm_trans; eauto]. rewrite !app_assoc. apply Permutation_app_tail, Permutation_app_comm.
Qed.
Lemma Forall2_weaken {A B} (P R : A -> B -> Prop) l m : (forall x y, In x l -> P x y -> R x y) -> Forall2 P l m -> Forall2 R l m.
Proof. intros H F. induction F; constructor; [apply H; simpl; auto|apply IHF; intros; apply H; simpl; auto]. Qed.

Section Offered.
  Variable ord : list course -> list course.
  Variables (cx : ctx) (l : list exc).
  Hypothesis EX : cx_exc cx = group_exceptions l.

  (** choosing a solution for each chosen child *)
  Lemma choose_each (chosen : node -> bool) (a : node -> list string) items :
    (forall c, In c items -> kind_of c = KRule) ->
    (forall c, In c items -> chosen c = true -> exists s, In s (g_items (solutions ord cx c)) /\ runs ord cx s (a c)) ->
    (forall c, In c items -> chosen c = false -> settled (status_of c)) ->
    exists m, Forall2 (fun c x => (chosen c = true /\ In x (g_items (solutions ord cx c))) \/ (chosen c = false /\ x = c)) items m /\
      Forall2 (ready ord cx) m (map (fun c => if chosen c then a c else []) items) /\
      forall n, tally (fun c => chosen c = true \/ complete (status_of c)) items n ->
                tally (fun x => kind_of x = KSol \/ complete (status_of x)) m n.
  Proof.
    induction items as [|c items IH]; intros KR S U.
    { exists []. split; [constructor|]. split; [constructor|]. intros n T. inversion T; constructor. }
    destruct IH as [m [F1 [F2 F3]]]; try (intros; first [apply KR|apply S|apply U]; simpl; auto; fail).
    destruct (chosen c) eqn:E.
    - destruct (S c (or_introl eq_refl) E) as [s [I R]]. exists (s :: m). split; [constructor; auto|]. cbn [map]. rewrite E.
      assert (K := proj2 (solutions_keep _ _ _ _ I)). split; [constructor; auto; left; auto|].
      intros n T. inversion T; subst; [apply t_yes; auto|]. tauto.
    - exists (c :: m). split; [constructor; auto|]. cbn [map]. rewrite E. assert (K := KR c (or_introl eq_refl)).
      split; [constructor; auto; right; split; [congruence|split; [apply U; simpl; auto|reflexivity]]|].
      intros n T. inversion T; subst; [apply t_yes; [|auto]|apply t_no; [|auto]]; intuition congruence.
  Qed.

  Lemma plan_is_offered n ks : meets ord cx l n ks -> listable ord cx l n -> orderly n -> NoDup ks ->
    exists s, In s (g_items (solutions ord cx n)) /\ runs ord cx s ks.
  Proof.
    induction 1 as [k r c AW W FI AC FP|k r c forced AW W IN|k r W|k q out QS QO QA MS NE AC|k q cs ins forced v QS QO QA QF IV NE AC
      |k q data N1 N2 QO QF AC|k i items W|k i items chosen a n m W NA PR ME IH ST TN FT TM CM M1|k i o W|k i x ks W NAU ME IH|k i t f x ks IF ME IH
      |k i c W|k i W PS|k i k' r x rest s W PS FS OK]; intros LI OR ND.
    - assert (Y : year_has_term r) by (apply (proj1 OR); left; exists k; constructor). inversion LI as [? ? N| | | | | | | | |]; subst.
      set (s := c_solution r (Some c) false false false). assert (I : In s (g_items (c_solutions cx r))).
      { apply (course_solutions_exact cx l r EX Y N). right. split; [intros [H|H]; [congruence|contradiction]|]. right. left. exists c.
        split; [exact FI|]. split; [exact AC|]. split; [apply solves_form|]. cbn. rewrite orb_false_r. auto. }
      exists (NCourse KSol s). split; [cbn [solutions gmap g_items]; apply in_map; exact I|]. intros t U.
      destruct (course_runs (cx_multi cx) t s eq_refl U) as [x [t' [A [D [O V]]]]]. cbn [audit]. rewrite A. cbn [bind]. eexists _, _. split; [reflexivity|].
      split; [|split; [exact O|exact V]]. apply D. right. exists c. auto.
    - assert (Y : year_has_term r) by (apply (proj1 OR); left; exists k; constructor). inversion LI as [? ? N| | | | | | | | |]; subst.
      set (s := c_solution r (Some c) true forced false). assert (I : In s (g_items (c_solutions cx r))).
      { apply (course_solutions_exact cx l r EX Y N). right. split; [intros [H|H]; [congruence|contradiction]|]. left. exists c, forced.
        split; [exact IN|]. split; [apply solves_form|]. cbn. rewrite orb_true_r. auto. }
      exists (NCourse KSol s). split; [cbn [solutions gmap g_items]; apply in_map; exact I|]. intros t U.
      destruct (course_runs (cx_multi cx) t s eq_refl U) as [x [t' [A [D [O V]]]]]. cbn [audit]. rewrite A. cbn [bind]. eexists _, _. split; [reflexivity|].
      split; [|split; [exact O|exact V]]. apply D. right. exists c. split; [reflexivity|]. right. cbn. apply orb_true_r.
    - assert (Y : year_has_term r) by (apply (proj1 OR); left; exists k; constructor). inversion LI as [? ? N| | | | | | | | |]; subst.
      set (s := c_solution r None false false true). assert (I : In s (g_items (c_solutions cx r))).
      { apply (course_solutions_exact cx l r EX Y N). left. split; [exact W|]. split; [apply solves_form|]. cbn. rewrite orb_false_r. auto. }
      exists (NCourse KSol s). split; [cbn [solutions gmap g_items]; apply in_map; exact I|]. intros t U.
      destruct (course_runs (cx_multi cx) t s eq_refl U) as [x [t' [A [D [O V]]]]]. cbn [audit]. rewrite A. cbn [bind]. eexists _, _. split; [reflexivity|].
      split; [|split; [exact O|exact V]]. apply D. left. reflexivity.
    - destruct MS as [DE [cs [ins [forced [v [combo [QF [IV [TR CO]]]]]]]]].
      destruct (tried_selections_are_offered ord cx l q cs ins forced v combo out EX QS QO QA DE QF IV TR CO) as [s [I OF]].
      destruct OF as (OUT & PA & OV & SO & AS & _ & _ & AL & AT & _).
      exists (NQuery KSol s). split; [cbn [solutions gmap g_items]; apply in_map; exact I|]. intros t U.
      destruct (claims_free (cx_multi cx) s out t _ eq_refl) as [ok [t' [CE [O V]]]]; [rewrite AL; exact ND|rewrite AL; exact U|]. rewrite AL in O, V.
      destruct AC as [asserts [MA CP]]. cbn [audit]. unfold q_audit. rewrite OV, QO, SO, QS, OUT, as_courses_all. cbn [bind]. unfold collect_courses. rewrite AT, QA, CE. cbn [bind qsource_eqb andb].
      destruct out as [|c0 out']; [congruence|]. cbn [map andb]. change (ICourse c0 :: map ICourse out') with (map ICourse (c0 :: out')). rewrite AS, MA. cbn [bind].
      eexists _, _. split; [reflexivity|]. split; [|split; [exact O|exact V]]. cbn [status_of]. apply query_complete. exact CP.
    - destruct (unclaiming_query_offers_everything ord cx l q cs ins forced EX QS QO QA QF) as [H _]. destruct (H v IV) as [s [I OF]].
      destruct OF as (OUT & PA & OV & SO & AS & _ & _ & AL & AT & _).
      exists (NQuery KSol s). split; [cbn [solutions gmap g_items]; apply in_map; exact I|]. intros t U.
      destruct AC as [asserts [MA CP]]. cbn [audit]. unfold q_audit. rewrite OV, QO, SO, QS, OUT, as_courses_all. cbn [bind].
      assert (CC : collect_courses (cx_multi cx) t s v = Ok (v, if q_record s then map (fun c => mkClaim c (q_path s) false) v else [], [], t)).
      { unfold collect_courses. rewrite AT, QA. destruct (q_record s); [rewrite claim_all_runs|]; reflexivity. }
      rewrite CC. cbn [bind qsource_eqb andb]. destruct v as [|c0 v']; [congruence|]. cbn [map andb].
      change (ICourse c0 :: map ICourse v') with (map ICourse (c0 :: v')). rewrite AS, MA. cbn [bind].
      eexists _, _. split; [reflexivity|]. split; [|split; [auto|intros k' []]]. cbn [status_of]. apply query_complete. exact CP.
    - assert (S : q_solutions ord cx q = gret [q_solution q data [] []]) by (unfold q_solutions; rewrite QO, QF; destruct (q_source q); congruence).
      exists (NQuery KSol (q_solution q data [] [])). split; [cbn [solutions]; rewrite S; simpl; auto|]. intros t U. destruct AC as [asserts [MA CP]].
      cbn [audit]. unfold q_audit. cbn [q_solution q_overridden q_source q_asserts q_output]. rewrite QO. destruct (q_source q) eqn:QS; try congruence; cbn [bind qsource_eqb andb]; rewrite MA; cbn [bind];
        (eexists _, _; split; [reflexivity|]; split; [|split; [auto|intros k' []]]; cbn [status_of]; apply query_complete; exact CP).
    - destruct (waived_node_has_one_solution ord cx l (NCount k i items) EX W Logic.I) as [s [E [_ [_ [_ A]]]]]. exists s. rewrite E. split; [simpl; auto|].
      intros t U. destruct (A t) as [r [AU [C _]]]. exists r, t. split; [exact AU|]. split; [exact C|]. split; [auto|intros ? []].
    - inversion LI as [| |? ? ? W'|? ? ? _ C0 CH| | | | | |]; subst; [contradiction|].
      assert (SI : siblings items) by (apply (proj2 (proj2 OR) k i); constructor).
      assert (NOEX := listable_rules_raise_nothing ord cx l (NCount k i items) EX LI).
      assert (PE : forall c, In c items -> (potential cx c = Ok true <-> promising cx l c)).
      { intros c I. assert (Y := proj1 (orderly_item _ _ _ _ OR I)). destruct (CH c I) as [H|[H _]]; rewrite H; rewrite <- (potential_exact cx l c _ EX Y H); split; congruence. }
      assert (NDa : NoDup (List.concat (map (fun c => if chosen c then a c else []) items))) by (rewrite flat_pick; exact ND).
      assert (SOL : forall c, In c items -> chosen c = true -> exists s, In s (g_items (solutions ord cx c)) /\ runs ord cx s (a c)).
      { intros c I E. apply IH; auto.
        - destruct (CH c I) as [H|[_ [H _]]]; [|exact H]. assert (PT := proj2 (PE c I) (PR c I E)). congruence.
        - eapply orderly_item; eauto.
        - clear -ND I E. induction items as [|x items IHl]; [destruct I|]. cbn [filter] in ND. destruct I as [->|I].
          + rewrite E in ND. cbn in ND. apply nodup_parts in ND. apply ND.
          + apply IHl; auto. destruct (chosen x); auto. cbn in ND. apply nodup_parts in ND. apply ND. }
      assert (KR : forall c, In c items -> kind_of c = KRule) by (intros c I; apply (proj1 (proj2 OR)); eapply pt_count; [exact I|constructor]).
      destruct (choose_each chosen a items KR SOL ST) as [sols [F1 [F2 F3]]].
      set (out := sort_by_path path_of sols).
      assert (PM : Permutation sols out) by (symmetry; apply perm_sort).
      assert (CC : count_choice ord cx i items (NCount KSol (mkCount (n_path i) false (n_count i) (n_at_most i) (n_audits i)) out)).
      { exists (filter chosen items), out, n. split; [apply NoDup_filter; apply (NoDup_map_inv path_of), SI|].
        split; [intros c I; apply filter_In in I; destruct I as [I E]; split; [exact I|apply PE; auto]|].
        split; [refine (tally_imp _ _ items _ n TN); intros c I; symmetry; auto|]. split; [exact FT|]. split; [|reflexivity].
        assert (FS : Forall2 (stands ord cx (filter chosen items)) items sols).
        { refine (Forall2_weaken _ _ _ _ _ F1). intros c x I [[E IS]|[E ->]].
          - left. split; [apply filter_In; auto|exact IS].
          - right. split; [|reflexivity]. intro J. apply filter_In in J. destruct J; congruence. }
        exists sols. split; [exact FS|split; [exact PM|]].
        assert (E := stands_paths _ _ _ _ _ FS). apply (sort_by_path_lemma path_of sols sols); [|rewrite E; apply SI|reflexivity].
        apply Forall_map. rewrite E. apply Forall_map, SI. }
      exists (NCount KSol (mkCount (n_path i) false (n_count i) (n_at_most i) (n_audits i)) out). split.
      + apply (solutions_exact ord cx l _ _ EX); [intros ? ? ? H; injection H as <- <- <-; auto|exact NOEX|]. cbn [solution_of]. right. auto.
      + destruct (perm_forall2 _ _ _ PM _ F2) as [kss [F4 PK]]. intros t U.
        assert (PCC : Permutation (flat_map a (filter chosen items)) (List.concat kss)).
        { rewrite <- flat_pick. apply perm_concat. exact PK. }
        destruct (each_runs ord cx out kss F4) with (t := t) as [rs [t' [E [O [V [SS TT]]]]]].
        { eapply Permutation_NoDup; [exact PCC|exact ND]. }
        { intros x J. apply U. eapply Permutation_in; [symmetry; exact PCC|exact J]. }
        cbn [audit n_overridden n_audits]. rewrite E, NA. cbn [bind mapr]. eexists _, _. split; [reflexivity|]. split.
        * apply (count_complete _ _ _ m); cbn; auto. apply TT. eapply tally_perm; [exact PM|]. apply F3. exact TM.
        * split; [intros x NI; apply O; intro J; apply NI; eapply Permutation_in; [symmetry; exact PCC|exact J]|].
          intros x J. destruct (V x) as [y [Iy [cl [J1 J2]]]]; [eapply Permutation_in; [exact PCC|exact J]|]. exists cl. split; [|exact J2]. cbn [claims_of]. apply in_flat_map. eauto.
    - destruct (waived_node_has_one_solution ord cx l (NReq k i o) EX W Logic.I) as [s [E [_ [_ [_ A]]]]]. exists s. rewrite E. split; [simpl; auto|].
      intros t U. destruct (A t) as [r [AU [C _]]]. exists r, t. split; [exact AU|]. split; [exact C|]. split; [auto|intros ? []].
    - inversion LI; subst; [contradiction|]. destruct IH as [s [I R]]; auto; [eapply orderly_req; eauto|].
      exists (req_solution i (Some s) false). split.
      + cbn [solutions]. rewrite (proj2 (waived_no cx l _ EX) W). cbn [gmap g_items]. apply in_map_iff. eauto.
      + intros t U. destruct (R t U) as [r [t' [A [C [O V]]]]]. cbn [req_solution audit e_overridden]. rewrite (proj2 (solutions_keep _ _ _ _ I)), A. cbn [bind].
        eexists _, _. split; [reflexivity|]. split; [|split; [exact O|]]. { cbn [status_of]. unfold req_status. cbn. rewrite NAU. exact C. }
        intros k' J. destruct (V k' J) as [cl H']. exists cl. cbn [claims_of]. cbn. rewrite NAU. exact H'.
    - inversion LI as [| | | | | | |? ? ? ? F| |]; subst. destruct IH as [s [I R]]; auto; [eapply orderly_cond; eauto|]. destruct IF as [E|x E ->].
      + exists (NCond KSol i s f). split; [cbn [solutions]; rewrite E; cbn [gmap g_items]; apply in_map_iff; eauto|].
        intros u U. destruct (R u U) as [r [t' [A [C [O V]]]]]. cbn [audit]. rewrite E, (proj2 (solutions_keep _ _ _ _ I)), A. cbn [bind].
        eexists _, _. split; [reflexivity|]. split; [|split; [exact O|]]. { cbn [status_of]. rewrite E. exact C. }
        intros k' J. destruct (V k' J) as [cl H']. exists cl. cbn [claims_of]. rewrite E. exact H'.
      + exists (NCond KSol i t (Some s)). split; [cbn [solutions]; rewrite E; cbn [gmap g_items]; apply in_map_iff; eauto|].
        intros u U. destruct (R u U) as [r [t' [A [C [O V]]]]]. cbn [audit]. rewrite E, (proj2 (solutions_keep _ _ _ _ I)), A. cbn [bind].
        eexists _, _. split; [reflexivity|]. split; [|split; [exact O|]]. { cbn [status_of]. rewrite E. exact C. }
        intros k' J. destruct (V k' J) as [cl H']. exists cl. cbn [claims_of]. rewrite E. exact H'.
    - destruct (waived_node_has_one_solution ord cx l (NProf k i c) EX W Logic.I) as [s [E [_ [_ [_ A]]]]]. exists s. rewrite E. split; [simpl; auto|].
      intros t U. destruct (A t) as [r [AU [C _]]]. exists r, t. split; [exact AU|]. split; [exact C|]. split; [auto|intros ? []].
    - exists (prof_solution i None false). split; [cbn [solutions]; unfold prof_solutions; rewrite (proj2 (waived_no cx l _ EX) W); simpl; auto|].
      intros t U. cbn [prof_solution audit f_overridden f_proficiency]. rewrite PS. cbn [bind]. eexists _, _. split; [reflexivity|]. split; [|split; [auto|intros ? []]]. left. reflexivity.
    - exists (prof_solution i (Some (KSol, x)) false). split.
      { cbn [solutions]. unfold prof_solutions. rewrite (proj2 (waived_no cx l _ EX) W). unfold gnext. destruct (c_solutions cx r) as [its e]. cbn in FS. subst its. simpl. auto. }
      intros t U. cbn [prof_solution audit f_overridden f_proficiency f_path]. rewrite PS. cbn [bind].
      assert (FC : r_from_claimed x = false) by (apply (solved_not_from_claimed cx r); rewrite FS; simpl; auto).
      destruct (course_runs (cx_multi cx) t x FC U) as [y [t' [A [D [O V]]]]]. rewrite A. cbn [bind]. eexists _, _. split; [reflexivity|]. split; [|split; [exact O|exact V]].
      cbn [status_of]. unfold prof_node_status. cbn [f_overridden f_status]. destruct (inS s WAIVED_AND_DONE) eqn:IS.
      + apply complete_iff in IS. exact IS.
      + apply D. destruct OK as [->|OK]; [discriminate IS|exact OK].
  Qed.
End Offered.
