(** Proofs about ways to meet the rule at the top of an area. *)
From Coq Require Import List ZArith QArith Bool String Lia Sorted Permutation.
From Verif Require Import Prelude Dec Status Course Claims Exceptions Op Context CondExpr Paths Predicate Limit Apply Assertion Query CourseRule Tree Solve.
From Verif Require Import ListFacts LimitSpec LimitProps ClaimsSpec ClaimsProofs AssertionSpec PathsSpec PathsProofs PredicateProofs ExceptionsProofs EnumSpec QuerySpec CourseRuleSpec TreeSpec TreeProofs TreeStatusProps TreeSolSpec TreeSolProofs TreeSolProps TreeAskSpec TreeAskProps TreeAuditSpec TreeAuditProofs TreeAuditProps SolveSpec SolveProofs SolveSafe SolveProps AreaOnceProofs PlanSpec PlanProofs.
Import ListNotations.
Local Open Scope list_scope.

(** ** the best solution *)
Lemma complete_of_candidate ord cx s ks : runs ord cx s ks -> exists r t, audit ord cx [] s = Ok (r, t) /\ complete (status_of r).
Proof. intro R. destruct (R [] (unclaimed_nil ks)) as [r [t [A [C _]]]]. eauto. Qed.
Lemma selected_complete ord cx l n ks r own last : cx_exc cx = group_exceptions l -> meets ord cx l n ks -> listable ord cx l n -> orderly n -> NoDup ks ->
  selected ord cx (solutions ord cx n) r own last -> complete (status_of r).
Proof.
  intros EX M LI OR ND S. destruct (plan_is_offered ord cx l EX n ks M LI OR ND) as [s [I R]]. destruct (complete_of_candidate _ _ _ _ R) as [r' [t' [A C]]].
  destruct S as [pre s0 post r q t E F CA CO|pre s0 post r q t all z zr zq zt N E F CA P1 P2 E2 CZ]; [exact CO|].
  rewrite Forall_forall in F. destruct (F s I) as [x [qx [tx [[A' _] NC]]]]. rewrite A in A'. injection A' as <- <-. contradiction.
Qed.

(** ** tables *)
Definition full (t : claims) : Prop := forall k l, dget t k = Some l -> l <> [].
Lemma sound_full t : sound_table t -> full t.
Proof.
  intros [_ F] k l E. rewrite Forall_forall in F. assert (I : exists j, In (j, l) t).
  { clear F. induction t as [|[j v] t IH]; cbn in E; [discriminate|]. destruct (String.eqb k j); [injection E as <-; exists j; simpl; auto|]. destruct (IH E) as [i I]. exists i. simpl. auto. }
  destruct I as [j I]. exact (F _ I).
Qed.
Lemma merged_full a b : full a -> sound_table b -> full (merged a b).
Proof. intros FA SB k l E. rewrite dget_merged in E by apply SB. destruct (dget b k) eqn:D; [injection E as <-; eapply (sound_full b SB); exact D|eapply FA; exact E]. Qed.
Lemma loop_sound ord cx l e : forall best inner b o, best_loop ord cx best inner l e = Ok (b, o) -> (forall t, inner = Some t -> sound_table t) -> forall t, o = Some t -> sound_table t.
Proof.
  induction l as [|s l IH]; intros best inner b o H S t ->; cbn [best_loop] in H.
  - destruct e; [discriminate|]. injection H as _ ->. auto.
  - destruct (audit ord cx [] s) as [[r t1]|] eqn:A; cbn [bind] in H; [|discriminate]. destruct (rank_of r) as [[q m]|]; cbn [bind] in H; [|discriminate].
    assert (S1 := audit_sound _ _ _ _ _ A). destruct (inS (status_of r) WAIVED_AND_DONE); [injection H as _ <-; exact S1|].
    refine (IH _ _ _ _ H _ t eq_refl). intros t0 E. injection E as <-. exact S1.
Qed.
Lemma independent_full ord cx l : forall t rs t', solve_independent ord cx t l = Ok (rs, t') -> full t -> full t'.
Proof.
  induction l as [|c l IH]; intros t rs t' H F; cbn [solve_independent] in H; [injection H as _ <-; exact F|].
  destruct (find_best_solution ord cx t c true) as [[r t1]|] eqn:B; cbn [bind] in H; [|discriminate].
  destruct (solve_independent ord cx t1 l) as [[rs2 t2]|] eqn:S; cbn [bind] in H; [|discriminate]. injection H as _ <-. eapply IH; [exact S|].
  unfold find_best_solution in B. destruct (best_loop _ _ _ _ _ _) as [[b o]|] eqn:L; cbn [bind] in B; [|discriminate]. destruct o as [it|]; [|discriminate]. injection B as _ <-.
  apply merged_full; [exact F|]. eapply (loop_sound _ _ _ _ _ _ _ _ L); [discriminate|reflexivity].
Qed.
Lemma top_full ord nord cx t i items : full t -> full (snd (top_count_solutions ord nord cx t i items)).
Proof.
  intro F. unfold top_count_solutions. destruct (waived _ _); [exact F|]. destruct (potential_children _ _) as [pot|]; [|exact F].
  destruct pot; [exact F|]. destruct (n_audits i); [|exact F]. destruct (mapr _ _) as [ms|]; cbn [bind]; [|exact F]. destruct (classify ms) as [dis non].
  destruct (solve_independent ord cx t (nord dis)) as [[so t']|] eqn:S; cbn [bind]; [|exact F]. cbn [snd]. eapply independent_full; eauto.
Qed.
Lemma overlaid_claimed t zs t' k : overlaid t zs t' -> claimed t' k -> claimed t k \/ exists z, In z zs /\ claimed z k.
Proof.
  induction 1 as [t|t z m zs t' O OV IH]; intro C; [auto|]. destruct (IH C) as [C1|[y [I Cy]]]; [|right; exists y; simpl; auto].
  destruct (recorded z k) as [|x w] eqn:E.
  - left. unfold claimed in *. rewrite <- (proj2 (O k)); [exact C1|]. unfold claimed. congruence.
  - right. exists z. split; [simpl; auto|]. unfold claimed. congruence.
Qed.
Lemma run_claims_from mc h : forall t outs t' k, run_claims mc t h = Ok (outs, t') -> claimed t' k -> claimed t k \/ exists a, In a h /\ c_clbid (at_course a) = k.
Proof.
  induction h as [|a h IH]; intros t outs t' k R C; cbn [run_claims] in R; [injection R as _ <-; auto|].
  destruct (make_claim mc t (at_course a) (at_path a) (at_shared a)) as [[cl t1]|] eqn:M; cbn [bind] in R; [|discriminate].
  destruct (run_claims mc t1 h) as [[o2 t2]|] eqn:R2; cbn [bind] in R; [|discriminate]. injection R as _ <-.
  destruct (IH _ _ _ _ R2 C) as [C1|[b [I B]]]; [|right; exists b; simpl; auto].
  destruct (String.eqb_spec (c_clbid (at_course a)) k) as [E|N]; [right; exists a; simpl; auto|]. left.
  assert (G : dget t1 k = dget t k).
  { assert (RC : forall b p, dget (record_claim t (mkClaim (at_course a) p b)) k = dget t k).
    { intros b p. unfold record_claim. cbn [cl_course]. destruct (dget t (c_clbid (at_course a))); apply dget_dset_other; exact N. }
    assert (H : forall x : res (claim * claims), (forall y, x = Ok y -> snd y = t \/ exists b p, snd y = record_claim t (mkClaim (at_course a) p b)) -> x = Ok (cl, t1) -> dget t1 k = dget t k).
    { intros x H E. destruct (H _ E) as [D|[b [p D]]]; cbn in D; rewrite D; [reflexivity|apply RC]. }
    refine (H _ _ M). clear. intros y E. unfold make_claim in E. destruct (at_shared a); [injection E as <-; auto|]. destruct (dget t _); [|injection E as <-; cbn; eauto].
    destruct (dget mc _); [|destruct l; injection E as <-; cbn; eauto].
    unfold make_multicountable_claim in E.
    repeat match type of E with
    | context [match ?x with _ => _ end] => destruct x; try discriminate
    | Ok _ = Ok _ => injection E as <-; cbn; eauto
    | bind ?x _ = _ => destruct x; cbn [bind] in E; try discriminate
    end. }
  unfold claimed in *. rewrite dget_recorded in *. rewrite <- G. exact C1.
Qed.
(** what the audit of a solution records is among the matches of its rule *)
Lemma recorded_matches ord cx l n s r t' ms k : set_order ord -> cx_exc cx = group_exceptions l -> rule_tree n -> unaudited n -> plain_rule cx l n ->
  In s (g_items (solutions ord cx n)) -> audit ord cx [] s = Ok (r, t') -> matches_of cx n = Ok ms -> claimed t' k ->
  exists x, In (ICourse x) ms /\ c_clbid x = k.
Proof.
  intros SO EX RT U PL I A M C. destruct (audit_history ord cx s [] r t' (solutions_unaudited ord cx n s U I) A) as [h [outs [AS [R _]]]].
  destruct (run_claims_from _ _ _ _ _ _ R C) as [X|[a [Ia E]]]; [destruct X; reflexivity|].
  exists (at_course a). split; [|exact E]. eapply asked_matches; eauto.
Qed.

(** ** lists *)
Lemma choose_f2 {A B} (P : A -> B -> Prop) l : (forall x, In x l -> exists y, P x y) -> exists m, Forall2 P l m.
Proof.
  induction l as [|x l IH]; intro H; [exists []; constructor|]. destruct (H x (or_introl eq_refl)) as [y Y]. destruct IH as [m F]; [intros; apply H; simpl; auto|].
  exists (y :: m). constructor; auto.
Qed.
Lemma tally_f2 {A B} (P : A -> Prop) (R : B -> Prop) l m : Forall2 (fun x y => P x <-> R y) l m -> forall n, tally P l n -> tally R m n.
Proof. induction 1 as [|x y l m H F IH]; intros n T; inversion T; subst; [constructor|apply t_yes; [apply H; auto|auto]|apply t_no; [intro; apply H2, H; auto|auto]]. Qed.
Lemma F2_and {A B} (P R : A -> B -> Prop) l m : Forall2 (fun x y => P x y /\ R x y) l m <-> Forall2 P l m /\ Forall2 R l m.
Proof.
  split; [intro F; induction F as [|x y l m [H1 H2] F [IH1 IH2]]; split; constructor; auto|].
  intros [F G]. induction F; inversion G; subst; constructor; auto.
Qed.
Lemma F2_turn {A B C} (R : B -> C -> Prop) (f : A -> C) l m : Forall2 (fun x y => R y (f x)) l m -> Forall2 R m (map f l).
Proof. induction 1; cbn; constructor; auto. Qed.
Lemma nodup_at {A B} (f : A -> list B) (p : A -> bool) l x : NoDup (flat_map f (filter p l)) -> In x l -> p x = true -> NoDup (f x).
Proof.
  intros N I P. induction l as [|y l IH]; [destruct I|]. cbn [filter] in N. destruct I as [->|I].
  - rewrite P in N. cbn in N. apply nodup_parts in N. apply N.
  - apply IH; auto. destruct (p y); auto. cbn in N. apply nodup_parts in N. apply N.
Qed.
Lemma F2_paths (R : node -> node -> Prop) l m : (forall x y, In x l -> R x y -> path_of y = path_of x) -> Forall2 R l m -> map path_of m = map path_of l.
Proof. intros H F. induction F as [|x y l m Rxy F IH]; cbn; [reflexivity|]. rewrite (H x y (or_introl eq_refl) Rxy), IH; [reflexivity|]. intros; apply H; simpl; auto. Qed.

Section Top.
  Variable ord : list course -> list course.
  Variable nord : list node -> list node.
  Variables (cx : ctx) (l : list exc) (i : count_info) (items : list node).
  Hypothesis NO : forall x, Permutation (nord x) x.
  Hypothesis SO : set_order ord.
  Hypothesis EX : cx_exc cx = group_exceptions l.
  Hypothesis OR : orderly (NCount KRule i items).
  Hypothesis C0 : (0 <= n_count i)%Z.
  Hypothesis W : ~ waived_at l (n_path i).
  Hypothesis NA : n_audits i = [].
  Hypothesis US : exists c, usable cx items c.
  Hypothesis UN : forall c, In c items -> unaudited c /\ plain_rule cx l c.
  Hypothesis HON : honest cx items.
  Hypothesis ID : one_class_per_id cx items.
  Variables (apart chosen : node -> bool) (a : node -> list string) (n m : nat).
  Hypothesis AP : forall c, In c items -> (apart c = true <-> independent cx items c).
  Hypothesis LI : forall c, usable cx items c -> listable ord cx l c.
  Hypothesis M1 : forall c, In c items -> apart c = true -> meets ord cx l c (a c) /\ NoDup (a c).
  Hypothesis M2 : forall c, In c items -> apart c = false -> chosen c = true -> promising cx l c /\ meets ord cx l c (a c).
  Hypothesis M3 : forall c, In c items -> apart c = false -> chosen c = false -> settled (status_of c).
  Let tried c := (chosen c && negb (apart c))%bool.
  Hypothesis ND : NoDup (flat_map a (filter tried items)).
  Hypothesis TN : tally (fun c => promising cx l c /\ apart c = false) items n.
  Hypothesis FT : fits (n_count i) (n_at_most i) n (List.length (filter tried items)).
  Hypothesis TM : tally (fun c => apart c = true \/ chosen c = true \/ complete (status_of c)) items m.
  Hypothesis CM : (n_count i <= Z.of_nat m)%Z.
  Hypothesis M0 : (1 <= m)%nat.
  Let g := top_count_solutions ord nord cx [] i items.
  Hypothesis GE : g_exn (fst g) = None.

  Lemma top_siblings : siblings items.
  Proof. apply (proj2 (proj2 OR) KRule i). constructor. Qed.
  Lemma top_unwaived : waived cx (n_path i) = false.
  Proof. apply (waived_no cx l _ EX). exact W. Qed.
  Lemma top_years c : In c items -> years_have_terms c.
  Proof. intro I. apply (orderly_item _ _ _ _ OR I). Qed.
  Lemma top_asked : (forall c, In c items -> exists b, potential cx c = Ok b) /\ (forall c, usable cx items c -> exists ms, matches_of cx c = Ok ms).
  Proof.
    assert (NE : filter (has_potential cx) items <> []).
    { destruct US as [c0 [I P]]. intro E. apply potential_iff in P. assert (J : In c0 (filter (has_potential cx) items)) by (apply filter_In; auto). rewrite E in J. destruct J. }
    destruct (top_shape ord nord cx i items top_siblings top_unwaived NA NE []) as [[e E]|(ms & dis & non & solved & t' & M & CL & SI & T & E)].
    { unfold g in GE. rewrite E in GE. discriminate. }
    split; [exact T|]. intros c [I P]. destruct (mapr_pairs _ _ _ M) as [MF MM].
    assert (J : In c (nord (filter (has_potential cx) items))) by (apply (Permutation_in c (Permutation_sym (NO _))), filter_In; split; [exact I|apply potential_iff, P]).
    rewrite <- MF in J. apply in_map_iff in J. destruct J as [[c' x] [<- J]]. cbn [fst]. exists x. exact (MM _ _ J).
  Qed.
  Lemma top_promising c : In c items -> (potential cx c = Ok true <-> promising cx l c).
  Proof. intro I. destruct (proj1 top_asked c I) as [b E]. rewrite E, <- (potential_exact cx l c b EX (top_years c I) E). split; congruence. Qed.
  Lemma top_apart_usable c : In c items -> apart c = true -> usable cx items c.
  Proof. intros I E. apply AP in E; [|exact I]. apply E. Qed.

  (** the classes of the children that are tried are not claimed by those solved on their own *)
  Lemma top_free : unclaimed (snd g) (flat_map a (filter tried items)).
  Proof.
    intros k I. apply in_flat_map in I. destruct I as [c [I Ik]]. apply filter_In in I. destruct I as [Ic E]. unfold tried in E. apply andb_prop in E. destruct E as [E1 E2].
    apply negb_true_iff in E2. destruct (M2 c Ic E2 E1) as [PR ME]. assert (UC : usable cx items c) by (split; [exact Ic|apply top_promising; auto]).
    destruct (dget (snd g) k) as [x|] eqn:D; [exfalso|reflexivity].
    assert (CL : claimed (snd g) k). { unfold claimed. rewrite dget_recorded, D. apply (top_full ord nord cx [] i items ltac:(intros ? ? ?; discriminate) k x D). }
    destruct (top_solutions_claims ord nord cx [] i items NO top_siblings top_unwaived NA US GE) as [cs [zs [_ [IND [F OV]]]]].
    destruct (overlaid_claimed _ _ _ _ OV CL) as [X|[z [Iz Cz]]]; [destruct X; reflexivity|].
    destruct (F2_in_r _ _ _ _ F Iz) as [d [Id [rd [own SEL]]]]. apply IND in Id.
    assert (CAND : exists sd rd' , In sd (g_items (solutions ord cx d)) /\ audit ord cx [] sd = Ok (rd', z)).
    { destruct SEL as [pre s0 post r q t EI FU [CA _] CO|pre s0 post r q t all z0 zr zq zt N EI FU CA P1 P2 E3 [CZ _]].
      - exists s0, r. split; [rewrite EI; apply in_or_app; simpl; auto|exact CA].
      - exists z0, zr. split; [rewrite E3; apply in_or_app; simpl; auto|exact CZ]. }
    destruct CAND as [sd [rd' [Isd Ad]]]. assert (UD := proj1 Id).
    destruct (proj2 top_asked c UC) as [mc Mc]. destruct (proj2 top_asked d UD) as [md Md].
    assert (ORc := orderly_item _ _ _ _ OR Ic). assert (ORd := orderly_item _ _ _ _ OR (proj1 UD)).
    destruct (recorded_matches ord cx l d sd rd' z md k SO EX (proj1 (proj2 ORd)) (proj1 (UN d (proj1 UD))) (proj2 (UN d (proj1 UD))) Isd Ad Md Cz) as [y [Iy Ey]].
    assert (NDc : NoDup (a c)).
    { eapply nodup_at; [exact ND|exact Ic|]. unfold tried. rewrite E1, E2. reflexivity. }
    destruct (plan_is_offered ord cx l EX c (a c) ME (LI c UC) ORc NDc) as [sc [Isc R]]. destruct (R [] (unclaimed_nil _)) as [rc [tc [Ac [_ [_ V]]]]].
    destruct (V k Ik) as [cl [Icl Ecl]].
    assert (Ix := claims_asked _ _ _ _ _ _ _ _ _ _ SO EX (proj1 (proj2 ORc)) (proj1 (UN c Ic)) (proj2 (UN c Ic)) Isc Ac Icl Mc).
    assert (XY : cl_course cl = y) by (refine (ID c d _ _ _ _ Ic (proj1 UD) Mc Md Ix Iy _); congruence).
    assert (NE : c <> d) by (intros ->; assert (A1 : apart d = true) by (apply AP; auto); congruence).
    assert (SH : shares cx d c) by (exists md, mc, (ICourse y); subst y; auto).
    destruct Id as [_ [O|[_ O]]]; [apply NE, O, UC|].
    apply (O c UC NE). split; [exact SH|]. intros [A1 A2]. exact (HON d c UD UC (fun H => NE (eq_sym H)) A1 A2 SH).
  Qed.

  Lemma top_plan_is_offered : exists s, In s (g_items (fst g)) /\
    forall t, t = [] \/ t = snd g -> exists r t', audit ord cx t s = Ok (r, t') /\ complete (status_of r).
  Proof.
    destruct (top_solutions_claims ord nord cx [] i items NO top_siblings top_unwaived NA US GE) as [cs [zs [_ [IND [F _]]]]].
    assert (EACH : forall c, In c items -> exists x, top_stands ord cx items (filter tried items) c x /\ ready ord cx x (if tried c then a c else []) /\
              ((apart c = true \/ chosen c = true \/ complete (status_of c)) <-> (kind_of x = KSol \/ complete (status_of x)))).
    { intros c I. destruct (apart c) eqn:EA.
      - assert (IN : independent cx items c) by (apply AP; auto). assert (J := proj2 (IND c) IN). destruct (F2_in_l _ _ _ _ F J) as [z [_ [r [own SEL]]]].
        destruct (M1 c I EA) as [ME NDc]. assert (CR := selected_complete ord cx l c (a c) r own z EX ME (LI c (proj1 IN)) (orderly_item _ _ _ _ OR I) NDc SEL).
        exists r. split; [left; split; [exact IN|eauto]|]. unfold tried. rewrite EA, andb_false_r. split; [|intuition].
        right. split; [|split; [apply complete_settled; exact CR|reflexivity]].
        assert (KR : kind_of r = KRes).
        { destruct SEL as [pre s0 post r q t EI FU [CA _] CO|pre s0 post r q t all z0 zr zq zt N EI FU [CA _] P1 P2 E3 CZ]; eapply audit_kind; exact CA. }
        congruence.
      - assert (NI : ~ independent cx items c) by (intro H; apply AP in H; [congruence|exact I]). unfold tried. rewrite EA. cbn [negb]. rewrite andb_true_r. destruct (chosen c) eqn:EC.
        + destruct (M2 c I EA EC) as [PR ME]. assert (UC : usable cx items c) by (split; [exact I|apply top_promising; auto]).
          assert (NDc : NoDup (a c)).
          { eapply nodup_at; [exact ND|exact I|]. unfold tried. rewrite EA, EC. reflexivity. }
          destruct (plan_is_offered ord cx l EX c (a c) ME (LI c UC) (orderly_item _ _ _ _ OR I) NDc) as [s [Is R]]. assert (K := proj2 (solutions_keep _ _ _ _ Is)).
          exists s. split; [right; left; split; [exact NI|]; split; [apply filter_In; split; [exact I|unfold tried; rewrite EA, EC; reflexivity]|exact Is]|].
          split; [left; auto|]. intuition.
        + exists c. split; [right; right; split; [exact NI|]; split; [|reflexivity]; intro J; apply filter_In in J; unfold tried in J; rewrite EC in J; destruct J; discriminate|].
          assert (K : kind_of c = KRule) by (apply (proj1 (proj2 OR)); eapply pt_count; [exact I|constructor]).
          split; [right; split; [congruence|]; split; [apply M3; auto|reflexivity]|]. intuition congruence. }
    destruct (choose_f2 _ items EACH) as [sols FA]. apply F2_and in FA. destruct FA as [F1 FA]. apply F2_and in FA. destruct FA as [F2 F3].
    apply (F2_turn (ready ord cx) (fun c => if tried c then a c else [])) in F2.
    set (out := sort_by_path path_of sols). assert (PM : Permutation sols out) by (symmetry; apply perm_sort).
    assert (PATHS : map path_of sols = map path_of items).
    { refine (F2_paths _ _ _ _ F1). intros c x I [[_ [t [z SEL]]]|[[_ [_ IS]]|[_ [_ ->]]]]; [|apply (solutions_keep _ _ _ _ IS)|reflexivity].
      assert (X : exists s0 t0, In s0 (g_items (solutions ord cx c)) /\ audit ord cx [] s0 = Ok (x, t0)).
      { destruct SEL as [pre s0 post r q t EI FU [CA _] CO|pre s0 post r q t all z0 zr zq zt N EI FU [CA _] P1 P2 E3 CZ]; exists s0, t; (split; [rewrite EI; apply in_or_app; simpl; auto|exact CA]). }
      destruct X as [s0 [t0 [Is A]]]. rewrite (audit_path _ _ _ _ _ _ A). apply (solutions_keep _ _ _ _ Is). }
    exists (NCount KSol (mkCount (n_path i) false (n_count i) (n_at_most i) (n_audits i)) out). split.
    - apply (top_solutions_exact ord nord cx [] i items _ NO top_siblings C0 top_unwaived NA US GE).
      exists (filter tried items), out, n, sols. split; [apply NoDup_filter, (NoDup_map_inv path_of), top_siblings|].
      split. { intros c J. apply filter_In in J. destruct J as [J E]. unfold tried in E. apply andb_prop in E. destruct E as [E1 E2]. apply negb_true_iff in E2.
        split; [split; [exact J|apply top_promising; [exact J|apply (M2 c J E2 E1)]]|]. intro H. apply AP in H; [congruence|exact J]. }
      split. { refine (tally_imp _ _ items _ n TN). intros c J. rewrite (top_promising c J). assert (X := AP c J). destruct (apart c); intuition congruence. }
      split; [exact FT|]. split; [exact F1|]. split; [exact PM|]. split; [|reflexivity].
      apply (sort_by_path_lemma path_of sols sols); [|rewrite PATHS; apply top_siblings|reflexivity].
      apply Forall_map. rewrite PATHS. apply Forall_map, top_siblings.
    - intros t HT. destruct (perm_forall2 _ _ _ PM _ F2) as [kss [F4 PK]].
      assert (PCC : Permutation (flat_map a (filter tried items)) (List.concat kss)) by (rewrite <- flat_pick; apply perm_concat; exact PK).
      assert (U : unclaimed t (List.concat kss)).
      { intros x J. assert (J' : In x (flat_map a (filter tried items))) by (eapply Permutation_in; [symmetry; exact PCC|exact J]).
        destruct HT as [-> | ->]; [reflexivity|]. exact (top_free x J'). }
      destruct (each_runs ord cx out kss F4) with (t := t) as [rs [t' [E [_ [_ [SS TT]]]]]]; [eapply Permutation_NoDup; [exact PCC|exact ND]|exact U|].
      cbn [audit n_overridden n_audits]. rewrite E, NA. cbn [bind mapr]. eexists _, _. split; [reflexivity|].
      apply (count_complete _ _ _ m); cbn; auto. apply TT. eapply tally_perm; [exact PM|]. refine (tally_f2 _ _ _ _ F3 m TM).
  Qed.
End Top.
Lemma top_answers ord nord cx t i items : NoDup (map path_of items) -> waived cx (n_path i) = false -> g_exn (fst (top_count_solutions ord nord cx t i items)) = None ->
  forall c, In c items -> exists b, potential cx c = Ok b.
Proof.
  intros ND W GE. unfold top_count_solutions in GE. rewrite W in GE. change (map (fun c => (c, solutions ord cx c)) items) with (map (child_of ord cx) items) in GE.
  destruct (potential_children cx (map (child_of ord cx) items)) as [pot|e] eqn:PC; [|discriminate].
  exact (proj2 (potential_children_ok ord cx items pot ND PC)).
Qed.
(** some solution is found for a count at the top, unless something is raised *)
Lemma top_count_some ord nord cx l t i items : (forall x, Permutation (nord x) x) -> cx_exc cx = group_exceptions l -> siblings items -> (0 <= n_count i)%Z ->
  g_exn (fst (top_count_solutions ord nord cx t i items)) = None -> g_items (fst (top_count_solutions ord nord cx t i items)) <> [].
Proof.
  intros NO EX SI C0 GE.
  assert (OTHER : waived cx (n_path i) = true \/ n_audits i <> [] \/ (forall c, ~ usable cx items c) -> g_items (fst (top_count_solutions ord nord cx t i items)) <> []).
  { intros H. destruct (proj1 top_solutions_otherwise ord nord cx t i items H (proj1 SI)) as [E _]. rewrite <- (E KRule) in *. intro B.
    apply (barren_rules_have_no_solution ord cx l _ EX GE) in B. inversion B. }
  destruct (waived cx (n_path i)) eqn:W; [apply OTHER; auto|]. destruct (n_audits i) eqn:NA; [|apply OTHER; right; left; discriminate].
  destruct (filter (has_potential cx) items) as [|c0 us] eqn:F.
  - apply OTHER. right. right. intros c [I P]. apply potential_iff in P. assert (J : In c (filter (has_potential cx) items)) by (apply filter_In; auto). rewrite F in J. destruct J.
  - apply (top_solutions_exact ord nord cx t i items (NCount KSol i items) NO SI C0 W NA); [|exact GE].
    exists c0. assert (J : In c0 (filter (has_potential cx) items)) by (rewrite F; simpl; auto). apply filter_In in J. destruct J as [I P]. split; [exact I|]. apply potential_iff. exact P.
Qed.
Lemma nodup_flat {A B} (f : A -> list B) (p : A -> bool) l : NoDup (flat_map f l) -> NoDup (flat_map f (filter p l)).
Proof.
  induction l as [|x l IH]; cbn; intro N; [constructor|]. apply nodup_parts in N. destruct N as [N1 [N2 N3]]. destruct (p x); [|auto]. cbn.
  apply ListFacts.NoDup_app; auto. intros y I J. apply (N3 y I). apply in_flat_map in J. destruct J as [z [J K]]. apply filter_In in J. apply in_flat_map. exists z. tauto.
Qed.
Lemma nodup_one {A B} (f : A -> list B) l x : NoDup (flat_map f l) -> In x l -> NoDup (f x).
Proof. intros N I. apply (nodup_at f (fun _ => true) l x); auto. apply nodup_flat. exact N. Qed.
Lemma tally_filter {A} (P : A -> Prop) (p : A -> bool) l : (forall x, In x l -> (P x <-> p x = true)) -> tally P l (List.length (filter p l)).
Proof.
  induction l as [|x l IH]; cbn; intro H; [constructor|]. destruct (p x) eqn:E; cbn; [apply t_yes|apply t_no]; try (apply IH; intros; apply H; auto).
  - apply H; auto.
  - intro X. apply H in X; auto. congruence.
Qed.
Lemma filter_le {A} (p : A -> bool) l : (List.length (filter p l) <= List.length l)%nat.
Proof. induction l as [|x l IH]; cbn; [lia|]. destruct (p x); cbn; lia. Qed.
Lemma filter_all {A} (p : A -> bool) l : (forall x, In x l -> p x = true) -> filter p l = l.
Proof. induction l as [|x l IH]; cbn; intro H; [reflexivity|]. rewrite (H x) by auto. f_equal. auto. Qed.
