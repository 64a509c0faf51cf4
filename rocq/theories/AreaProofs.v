(** Proofs about auditing an area. *)
From Coq Require Import List ZArith QArith Bool String Lia Sorted Permutation.
From Verif Require Import Prelude Dec Status Course Claims Exceptions Op Context CondExpr Paths Predicate Limit Assertion Query CourseRule Tree Solve Transcript Driver Area.
From Verif Require Import StrFacts ListFacts ClaimsProofs QuerySpec PredicateProofs TreeSolProofs AreaSpec.
Import ListNotations.
Local Open Scope list_scope.

(** ** what is listed does not depend on the table *)
Definition same_out {A} (a b : res (A * claims)) : Prop :=
  match a, b with Ok (x, _), Ok (y, _) => x = y | Err e, Err e' => e = e' | _, _ => False end.
Lemma best_same ord cx n t t' : same_out (find_best_solution ord cx t n true) (find_best_solution ord cx t' n true).
Proof. unfold find_best_solution. destruct (best_loop _ _ _ _ _ _) as [[b [z|]]|]; cbn; reflexivity. Qed.
Lemma solve_same ord cx l : forall t t', same_out (solve_independent ord cx t l) (solve_independent ord cx t' l).
Proof.
  induction l as [|c l IH]; intros t t'; cbn [solve_independent]; [reflexivity|].
  assert (B := best_same ord cx c t t'). destruct (find_best_solution ord cx t c true) as [[b t1]|], (find_best_solution ord cx t' c true) as [[b' t1']|]; cbn in B |- *; try contradiction; [|exact B].
  subst b'. assert (X := IH t1 t1'). destruct (solve_independent ord cx t1 l) as [[rs t2]|], (solve_independent ord cx t1' l) as [[rs' t2']|]; cbn in X |- *; try contradiction; congruence.
Qed.
Lemma top_count_same ord nord cx t t' i items : fst (top_count_solutions ord nord cx t i items) = fst (top_count_solutions ord nord cx t' i items).
Proof.
  unfold top_count_solutions. destruct (waived cx (n_path i)); [reflexivity|]. destruct (potential_children _ _) as [pot|]; [|reflexivity].
  destruct pot as [|p pot]; [reflexivity|]. destruct (n_audits i); [|reflexivity].
  destruct (mapr _ _) as [ms|]; cbn [bind]; [|reflexivity]. destruct (classify ms) as [dis non].
  assert (X := solve_same ord cx (nord dis) t t'). destruct (solve_independent ord cx t _) as [[rs t2]|], (solve_independent ord cx t' _) as [[rs' t2']|]; cbn in X |- *; try contradiction; [|congruence].
  subst rs'. reflexivity.
Qed.
Lemma top_same ord nord cx n : forall t t', fst (top_solutions ord nord cx t n) = fst (top_solutions ord nord cx t' n).
Proof.
  revert n. fix IH 1. intros n t t'. destruct n as [k r|k q|k i items|k i o|k i b f|k i c]; cbn [top_solutions]; try reflexivity.
  - apply top_count_same.
  - destruct (e_result (d_cond i)) as [[|]|]; [| |reflexivity].
    + assert (X := IH b t t'). destruct (top_solutions ord nord cx t b) as [g t1], (top_solutions ord nord cx t' b) as [g' t1']. cbn in *. subst g'. reflexivity.
    + destruct f as [f|]; [|reflexivity]. assert (X := IH f t t'). destruct (top_solutions ord nord cx t f) as [g t1], (top_solutions ord nord cx t' f) as [g' t1']. cbn in *. subst g'. reflexivity.
Qed.

Lemma Forall2_imp {A B} (P Q : A -> B -> Prop) l r : (forall a b, P a b -> Q a b) -> Forall2 P l r -> Forall2 Q l r.
Proof. induction 2; constructor; auto. Qed.
Section Area.
  Context (ord : list course -> list course) (nord : list node -> list node) (u : study) (st : student) (es : list exc).
  Notation froms := (solutions_from ord nord u st es).
  Notation top cx t := (top_solutions ord nord cx t (u_result u)).

  Lemma from_ok lts : forall t e, g_exn (froms t lts e) = None ->
    e = None /\ for_transcripts ord nord u st es t lts (g_items (froms t lts e)).
  Proof.
    induction lts as [|lt lts IH]; intros t e H; cbn [solutions_from] in *; [cbn in H; split; [exact H|constructor]|].
    set (cx := limited_ctx u st es lt) in *. assert (S0 := top_same ord nord cx (u_result u) t []).
    destruct (top cx t) as [g t1] eqn:E. cbn [fst] in S0. destruct g as [[|s ss] [x|]].
    - discriminate.
    - destruct (IH _ _ H) as [-> F]. split; auto. change (g_items (froms t1 lts None)) with ([] ++ g_items (froms t1 lts None)). eapply ft_cons; [|exact F].
      unfold for_transcript. fold cx. rewrite <- S0, E. cbn. auto.
    - cbn in H. discriminate.
    - unfold gapp in *. cbn [g_exn g_items] in *. destruct (IH _ _ H) as [-> F]. split; auto. eapply ft_cons; [|exact F].
      unfold for_transcript. fold cx. rewrite <- S0, E. cbn [fst snd g_exn g_items map z_sol z_claims]. rewrite map_map, map_id.
      split; auto. split; auto. split; [constructor; [reflexivity|]|split; [reflexivity|split; [|reflexivity]]]; apply Forall_forall; intros z I; apply in_map_iff in I; destruct I as [y [<- _]]; reflexivity.
  Qed.
  Lemma from_origin lts : forall t e z, In z (g_items (froms t lts e)) ->
    exists lt t0, In lt lts /\ z_ctx z = limited_ctx u st es lt /\ In (z_sol z) (g_items (fst (top (z_ctx z) []))) /\
      (z_claims z = [] \/ z_claims z = snd (top (z_ctx z) t0)).
  Proof.
    induction lts as [|lt lts IH]; intros t e z I; cbn [solutions_from] in I; [destruct I|].
    set (cx := limited_ctx u st es lt) in *. assert (S0 := top_same ord nord cx (u_result u) t []).
    assert (X : (exists t' e', In z (g_items (froms t' lts e'))) \/ (In (z_sol z) (g_items (fst (top cx []))) /\ z_ctx z = cx /\ (z_claims z = [] \/ z_claims z = snd (top cx t)))).
    { destruct (top cx t) as [g t1] eqn:E. cbn [fst snd] in *. rewrite <- S0. destruct g as [[|s ss] [x|]].
      - destruct I.
      - eauto.
      - unfold gapp in I. cbn [g_items g_exn] in I. right. destruct I as [<-|I]; [cbn; auto|]. apply in_map_iff in I. destruct I as [y [<- I]]. cbn. auto.
      - unfold gapp in I. cbn [g_items g_exn] in I. destruct I as [<-|I]; [right; cbn; auto|]. apply in_app_iff in I. destruct I as [I|I]; [right|eauto].
        apply in_map_iff in I. destruct I as [y [<- I]]. cbn. auto. }
    destruct X as [[t' [e' I']]|[A [B C]]].
    - destruct (IH _ _ _ I') as [l0 [t0 [J K]]]. exists l0, t0. split; [simpl; auto|exact K].
    - exists lt, t. rewrite B. split; [simpl; auto|]. auto.
  Qed.

  (** ** interleaving *)
  Lemma table_put h i t : (i < List.length h)%nat -> table (put h i t) i = t.
  Proof. revert i. induction h as [|x h IH]; intros [|i] L; cbn in *; try lia; [reflexivity|]. apply IH. lia. Qed.
  Lemma table_put_other h i j t : i <> j -> table (put h i t) j = table h j.
  Proof. revert i j. induction h as [|x h IH]; intros [|i] [|j] N; cbn; try reflexivity; try congruence. apply IH. congruence. Qed.
  Lemma put_length h i t : List.length (put h i t) = List.length h.
  Proof. revert i. induction h as [|x h IH]; intros [|i]; cbn; auto. Qed.
  Lemma table_app h x i : (i < List.length h)%nat -> table (h ++ [x]) i = table h i.
  Proof. intro L. unfold table. apply app_nth1. exact L. Qed.
  Lemma table_last h x : table (h ++ [x]) (List.length h) = x.
  Proof. unfold table. rewrite app_nth2, Nat.sub_diag; [reflexivity|lia]. Qed.

  Notation exn := (g_exn (transcripts ord u st es)).
  (** what a suspended generator has still to give *)
  Definition left_of (h : store) (g : suspended) : gen area_solution :=
    match g with
    | Fresh cell lts => froms (table h cell) lts exn
    | Yielded cx g lts => gapp (Gen (map (mkAsol cx []) (g_items g)) (g_exn g)) (froms [] lts exn)
    | Over => Gen [] None
    end.
  Definition not_fresh (g : suspended) : Prop := match g with Fresh _ _ => False | _ => True end.

  Lemma advance_ok lts : forall h cell, (cell < List.length h)%nat ->
    let '(d, h', g') := advance ord nord u st es h cell lts exn in
    List.length h' = List.length h /\ (forall i, i <> cell -> table h' i = table h i) /\ not_fresh g' /\
    match d with
    | Delivers cx c s => c = cell /\ g' <> Over /\ exists rest, froms (table h cell) lts exn = Gen (mkAsol cx (table h' cell) s :: g_items rest) (g_exn rest) /\ left_of h' g' = rest
    | Stops => froms (table h cell) lts exn = Gen [] None /\ g' = Over
    | Raises e => froms (table h cell) lts exn = Gen [] (Some e) /\ g' = Over
    end.
  Proof.
    induction lts as [|lt lts IH]; intros h cell L; cbn [advance solutions_from].
    - destruct exn; cbn; auto 6.
    - set (cx := limited_ctx u st es lt). destruct (top cx (table h cell)) as [g t1] eqn:E. destruct g as [[|s ss] [x|]].
      + split; [apply put_length|]. split; [intros i N; apply table_put_other; congruence|]. cbn. auto.
      + assert (L' : (cell < List.length (put h cell t1))%nat) by (rewrite put_length; exact L). specialize (IH (put h cell t1) cell L').
        destruct (advance ord nord u st es (put h cell t1) cell lts exn) as [[d h'] g']. destruct IH as [A [B [C D]]]. rewrite table_put in D by exact L.
        split; [rewrite A; apply put_length|]. split; [intros i N; rewrite B by exact N; apply table_put_other; congruence|]. split; [exact C|]. destruct d; auto.
      + split; [apply put_length|]. split; [intros i N; apply table_put_other; congruence|]. split; [exact I|]. split; [reflexivity|]. split; [discriminate|].
        rewrite table_put by exact L. eexists. split; [|reflexivity]. cbn. reflexivity.
      + split; [apply put_length|]. split; [intros i N; apply table_put_other; congruence|]. split; [exact I|]. split; [reflexivity|]. split; [discriminate|].
        rewrite table_put by exact L. eexists. split; [|reflexivity]. cbn. destruct (froms [] lts exn). reflexivity.
  Qed.

  Lemma left_store h h' g : not_fresh g -> left_of h g = left_of h' g.
  Proof. destruct g; [intros []|reflexivity|reflexivity]. Qed.

  (** the invariant: what was given and what is left make up the list; the solutions that
      have not been audited still have their tables *)
  Notation all := (area_solutions ord nord u st es).
  Definition inv (acts : list action) (w : world) : Prop :=
    exists done, (g_items all = done ++ g_items (left_of (w_store w) (w_gen w)) /\ (w_gen w <> Over -> g_exn all = g_exn (left_of (w_store w) (w_gen w)))) /\
      Forall2 (fun z p => let '(cx, c, s) := p in z_ctx z = cx /\ z_sol z = s /\ (c < List.length (w_store w))%nat) done (w_given w) /\
      NoDup (map (fun p => snd (fst p)) (w_given w)) /\
      (forall c lts, w_gen w = Fresh c lts -> w_given w = [] /\ (c < List.length (w_store w))%nat) /\
      (forall k z p, nth_error done k = Some z -> nth_error (w_given w) k = Some p -> (forall j, ~ In (AAudit k j) acts) ->
         table (w_store w) (snd (fst p)) = z_claims z).
  Lemma inv_start : inv [] (start ord u st es).
  Proof.
    exists []. cbn [start w_store w_gen w_given left_of]. split; [split; reflexivity|].
    split; [constructor|]. split; [constructor|]. split; [intros c lts E; injection E as <- <-; cbn; auto|]. intros [|k] z p E; discriminate.
  Qed.
  Lemma nth_snoc {A} (l : list A) x k y : nth_error (l ++ [x]) k = Some y -> (k < List.length l /\ nth_error l k = Some y)%nat \/ (k = List.length l /\ y = x).
  Proof.
    intro H. destruct (Nat.lt_ge_cases k (List.length l)) as [L|L]; [rewrite nth_error_app1 in H by exact L; auto|].
    rewrite nth_error_app2 in H by exact L. destruct (k - List.length l)%nat as [|m] eqn:D; [|destruct m; discriminate]. cbn in H. injection H as <-. right. split; [lia|reflexivity].
  Qed.
  Lemma NoDup_snoc {A} (l : list A) x : NoDup l -> ~ In x l -> NoDup (l ++ [x]).
  Proof. intros N I. apply NoDup_rev in N. rewrite <- (rev_involutive (l ++ [x])), rev_app_distr. apply NoDup_rev. cbn. constructor; [rewrite <- in_rev; exact I|exact N]. Qed.

  Lemma inv_next acts w : inv acts w ->
    let '(w', s) := act ord nord u st es w ANext in
    inv (acts ++ [ANext]) w' /\
    match s with
    | SawNext (Some (cx, n)) None => List.length (w_given w') = S (List.length (w_given w)) /\ w_gen w' <> Over /\
        exists z, nth_error (g_items all) (List.length (w_given w)) = Some z /\ cx = z_ctx z /\ n = z_sol z
    | SawNext None e => w_given w' = w_given w /\ List.length (w_given w) = List.length (g_items all) /\ w_gen w' = Over /\
        (w_gen w = Over /\ e = None \/ w_gen w <> Over /\ e = g_exn all)
    | _ => False
    end.
  Proof.
    intros [done [[AS AX] [F2 [ND [FR TB]]]]]. assert (LEN := Forall2_len _ _ _ F2).
    assert (NI : forall k, (forall j, ~ In (AAudit k j) (acts ++ [ANext])) -> forall j, ~ In (AAudit k j) acts) by (intros k H j J; apply (H j); apply in_or_app; auto).
    (* delivering from cell [c], with a store [h'] that agrees with the old one on the cells given *)
    assert (STEP : forall h' g' cx c n rest,
      left_of (w_store w) (w_gen w) = Gen (mkAsol cx (table h' c) n :: g_items rest) (g_exn rest) -> left_of h' g' = rest ->
      not_fresh g' -> g' <> Over -> w_gen w <> Over -> (List.length (w_store w) <= List.length h')%nat -> (c < List.length h')%nat ->
      (forall p, In p (w_given w) -> snd (fst p) <> c /\ table h' (snd (fst p)) = table (w_store w) (snd (fst p))) ->
      inv (acts ++ [ANext]) (mkWorld h' g' (w_given w ++ [(cx, c, n)])) /\
      List.length (w_given w ++ [(cx, c, n)]) = S (List.length (w_given w)) /\ g' <> Over /\
      exists z, nth_error (g_items all) (List.length (w_given w)) = Some z /\ cx = z_ctx z /\ n = z_sol z).
    { intros h' g' cx c n rest EL ER NF NV NO LL LC OLD. split; [|split; [|split]].
      - exists (done ++ [mkAsol cx (table h' c) n]). cbn [w_store w_gen w_given]. split; [|split; [|split; [|split]]].
        + rewrite ER. split; [rewrite AS, EL, <- app_assoc; reflexivity|]. intros _. rewrite AX, EL by exact NO. reflexivity.
        + apply Forall2_app; [|constructor; [cbn; auto|constructor]]. eapply Forall2_imp; [|exact F2]. intros z [[cx0 c0] n0] [A [B C]]. split; auto. split; auto. lia.
        + rewrite map_app. cbn. apply NoDup_snoc; [exact ND|]. intro J. apply in_map_iff in J. destruct J as [p [E J]]. destruct (OLD p J). congruence.
        + intros c0 lts E. subst g'. destruct NF.
        + intros k z p Ez Ep NA. destruct (nth_snoc _ _ _ _ Ez) as [[L1 E1]|[L1 E1]], (nth_snoc _ _ _ _ Ep) as [[L2 E2]|[L2 E2]]; try lia.
          * destruct (OLD p (nth_error_In _ _ E2)) as [_ ->]. eapply TB; eauto.
          * subst z p. reflexivity.
      - rewrite app_length. cbn. lia.
      - exact NV.
      - exists (mkAsol cx (table h' c) n). rewrite AS, EL. cbn [g_items]. rewrite <- LEN, nth_error_app2, Nat.sub_diag by lia. auto. }
    assert (END : forall h' e, g_items (left_of (w_store w) (w_gen w)) = [] -> (w_gen w <> Over -> g_exn (left_of (w_store w) (w_gen w)) = e) -> (w_gen w = Over -> e = None) ->
      (List.length (w_store w) <= List.length h')%nat -> (forall p, In p (w_given w) -> table h' (snd (fst p)) = table (w_store w) (snd (fst p))) ->
      inv (acts ++ [ANext]) (mkWorld h' Over (w_given w)) /\ w_given w = w_given w /\ List.length (w_given w) = List.length (g_items all) /\ Over = Over /\
        (w_gen w = Over /\ e = None \/ w_gen w <> Over /\ e = g_exn all)).
    { intros h' e EL EX EO LL OLD. rewrite EL in AS. split; [|split; [|split; [|split]]]; auto.
      - exists done. cbn [w_store w_gen w_given left_of g_items]. split; [split; [exact AS|congruence]|]. split; [eapply Forall2_imp; [|exact F2]; intros z [[cx0 c0] n0] [A [B C]]; split; auto; split; auto; lia|].
        split; auto. split; [intros; discriminate|]. intros k z p Ez Ep NA. rewrite OLD by (eapply nth_error_In; eauto). eapply TB; eauto.
      - rewrite AS, app_nil_r. auto.
      - destruct (w_gen w) eqn:EG; [right|right|left; auto]; (split; [discriminate|]; rewrite AX by discriminate; symmetry; apply EX; discriminate). }
    assert (BOUND : forall p, In p (w_given w) -> (snd (fst p) < List.length (w_store w))%nat).
    { intros p J. destruct (F2_in_r _ _ _ _ F2 J) as [z [_ X]]. destruct p as [[cx c] n]. cbn. tauto. }
    cbn [act]. unfold next. destruct (w_gen w) as [cell lts|cx [l x] lts|] eqn:EG.
    - destruct (FR _ _ eq_refl) as [GV LC]. assert (AD := advance_ok lts (w_store w) cell LC). destruct (advance ord nord u st es (w_store w) cell lts exn) as [[d h'] g']. destruct AD as [A [B [C D]]].
      cbn [left_of] in *. destruct d as [cx c s| |e].
      + destruct D as [-> [NV [rest [EL ER]]]]. apply (STEP h' g' cx cell s rest); auto; [discriminate|lia|lia|]. rewrite GV. intros p [].
      + destruct D as [EL ->]. apply (END h' None); [rewrite EL; reflexivity|rewrite EL; reflexivity|reflexivity|lia|rewrite GV; intros p []].
      + destruct D as [EL ->]. apply (END h' (Some e)); [rewrite EL; reflexivity|rewrite EL; reflexivity|discriminate|lia|rewrite GV; intros p []].
    - assert (L1 : List.length (w_store w ++ [[]]) = S (List.length (w_store w))) by (rewrite app_length; cbn; lia).
      assert (OLD : forall p, In p (w_given w) -> snd (fst p) <> List.length (w_store w) /\ table (w_store w ++ [[]]) (snd (fst p)) = table (w_store w) (snd (fst p))).
      { intros p J. apply BOUND in J. split; [lia|]. apply table_app. exact J. }
      destruct l as [|s ss].
      + destruct x as [y|].
        * apply (END _ (Some y)); [reflexivity|reflexivity|discriminate|lia|]. intros p J. apply OLD. exact J.
        * cbn [left_of g_items g_exn map] in *.
          assert (AD := advance_ok lts (w_store w ++ [[]]) (List.length (w_store w)) ltac:(lia)). destruct (advance ord nord u st es (w_store w ++ [[]]) (List.length (w_store w)) lts exn) as [[d h'] g']. destruct AD as [A [B [C D]]].
          rewrite table_last in D.
          assert (OLD' : forall p, In p (w_given w) -> snd (fst p) <> List.length (w_store w) /\ table h' (snd (fst p)) = table (w_store w) (snd (fst p))).
          { intros p J. destruct (OLD p J) as [X Y]. split; auto. rewrite B; auto. }
          destruct d as [cx' c s| |e].
          -- destruct D as [-> [NV [rest [EL ER]]]]. apply (STEP h' g' cx' (List.length (w_store w)) s rest); auto; [unfold gapp; rewrite EL; reflexivity|discriminate|lia|lia].
          -- destruct D as [EL ->]. apply (END h' None); [unfold gapp; rewrite EL; reflexivity|unfold gapp; rewrite EL; reflexivity|reflexivity|lia|]. intros p J. apply OLD'. exact J.
          -- destruct D as [EL ->]. apply (END h' (Some e)); [unfold gapp; rewrite EL; reflexivity|unfold gapp; rewrite EL; reflexivity|discriminate|lia|]. intros p J. apply OLD'. exact J.
      + apply (STEP _ _ cx (List.length (w_store w)) s (left_of (w_store w ++ [[]]) (Yielded cx (Gen ss x) lts))); auto; try lia; [|exact I|discriminate|discriminate].
        rewrite table_last. cbn. destruct x; reflexivity.
    - apply (END (w_store w) None); auto.
  Qed.

  Lemma inv_audit acts w k junk : inv acts w ->
    let '(w', s) := act ord nord u st es w (AAudit k junk) in
    inv (acts ++ [AAudit k junk]) w' /\ List.length (w_given w') = List.length (w_given w) /\ w_gen w' = w_gen w /\
    match nth_error (w_given w) k with
    | None => s = SawNothing
    | Some _ => (forall j, ~ In (AAudit k j) acts) -> exists z, nth_error (g_items all) k = Some z /\ s = SawAudit (match area_audit ord u z with Ok (v, _) => Ok v | Err e => Err e end)
    end.
  Proof.
    intros [done [[AS AX] [F2 [ND [FR TB]]]]]. assert (LEN := Forall2_len _ _ _ F2).
    assert (NI : forall i, (forall j, ~ In (AAudit i j) (acts ++ [AAudit k junk])) -> (forall j, ~ In (AAudit i j) acts) /\ i <> k).
    { intros i H. split; [intros j J; apply (H j); apply in_or_app; auto|]. intros ->. apply (H junk). apply in_or_app; simpl; auto. }
    assert (KEEP : forall h, (h = w_store w \/ exists p t, nth_error (w_given w) k = Some p /\ h = put (w_store w) (snd (fst p)) t) -> inv (acts ++ [AAudit k junk]) (mkWorld h (w_gen w) (w_given w))).
    { intros h HH. assert (HL : List.length h = List.length (w_store w)) by (destruct HH as [->|[p [t [_ ->]]]]; [reflexivity|apply put_length]).
      assert (LO : left_of h (w_gen w) = left_of (w_store w) (w_gen w)).
      { destruct HH as [->|[p [t [E ->]]]]; [reflexivity|]. destruct (w_gen w) as [c lts| |] eqn:EG; [|reflexivity|reflexivity]. destruct (FR _ _ eq_refl) as [GV _]. rewrite GV in E. destruct k; discriminate. }
      exists done. cbn [w_store w_gen w_given]. rewrite LO, HL. split; [auto|]. split; [exact F2|]. split; [exact ND|]. split; [exact FR|].
      intros i z p Ez Ep NA. destruct (NI i NA) as [NA' NK]. rewrite <- (TB i z p Ez Ep NA'). destruct HH as [->|[p' [t [E ->]]]]; [reflexivity|].
      apply table_put_other. intro X. apply NK. rewrite NoDup_nth_error in ND. apply ND; [rewrite map_length; apply nth_error_Some; congruence|].
      rewrite (map_nth_error _ _ _ Ep), (map_nth_error _ _ _ E). congruence. }
    cbn [act]. destruct (nth_error (w_given w) k) as [[[cx c] s]|] eqn:E.
    - assert (X : exists z, nth_error done k = Some z).
      { destruct (nth_error done k) eqn:D; [eauto|]. apply nth_error_None in D. assert (k < List.length (w_given w))%nat by (apply nth_error_Some; congruence). lia. }
      destruct X as [z Ez]. assert (Y : z_ctx z = cx /\ z_sol z = s).
      { clear - F2 Ez E. revert k Ez E. induction F2 as [|z0 [[cx0 c0] n0] l r R F IH]; intros [|k] Ez E; cbn in *; try discriminate; [injection Ez as ->; injection E as -> -> ->; tauto|eauto]. }
      destruct Y as [<- <-].
      assert (Ea : nth_error (g_items all) k = Some z) by (rewrite AS, nth_error_app1; [exact Ez|apply nth_error_Some; congruence]).
      assert (Tz : (forall j, ~ In (AAudit k j) acts) -> mkAsol (z_ctx z) (table (w_store w) c) (z_sol z) = z).
      { intro NA. assert (T := TB _ _ _ Ez E NA). cbn in T. rewrite T. destruct z; reflexivity. }
      destruct (area_audit ord u (mkAsol (z_ctx z) (table (w_store w) c) (z_sol z))) as [[v t']|e] eqn:EA;
        (split; [apply KEEP; right; eexists; eexists; split; [reflexivity|reflexivity]|]; split; [reflexivity|]; split; [reflexivity|]; intro NA; exists z; split; [exact Ea|]; rewrite (Tz NA) in EA; rewrite EA; reflexivity).
    - split; [destruct w; apply KEEP; left; reflexivity|]. auto.
  Qed.

  Lemma after_snoc acts a : after ord nord u st es (acts ++ [a]) = fst (act ord nord u st es (after ord nord u st es acts) a).
  Proof. unfold after. rewrite fold_left_app. reflexivity. Qed.
  Lemma inv_after acts : inv acts (after ord nord u st es acts).
  Proof.
    induction acts as [|a acts IH] using rev_ind; [apply inv_start|]. rewrite after_snoc. destruct a as [|k j].
    - assert (X := inv_next _ _ IH). destruct (act ord nord u st es (after ord nord u st es acts) ANext). cbn. tauto.
    - assert (X := inv_audit _ _ k j IH). destruct (act ord nord u st es (after ord nord u st es acts) (AAudit k j)). cbn. tauto.
  Qed.
  Lemma asked_app a b : asked (a ++ b) = (asked a + asked b)%nat.
  Proof. induction a as [|[|] a IH]; cbn; auto. Qed.
  Lemma given_count acts : List.length (w_given (after ord nord u st es acts)) = Nat.min (asked acts) (List.length (g_items all)) /\
    (w_gen (after ord nord u st es acts) = Over <-> (List.length (g_items all) < asked acts)%nat).
  Proof.
    induction acts as [|a acts [IL IO]] using rev_ind; [cbn; split; [reflexivity|split; [discriminate|lia]]|].
    rewrite after_snoc, asked_app. set (w := after ord nord u st es acts) in *. assert (HI := inv_after acts). fold w in HI. destruct a as [|k j].
    - assert (X := inv_next _ _ HI). destruct (act ord nord u st es w ANext) as [w' s]. destruct X as [V X]. cbn [fst asked]. destruct s as [[[cx n]|] [e|] | |]; try contradiction.
      + destruct X as [X [NV [z [E _]]]]. assert (LT : (List.length (w_given w) < List.length (g_items all))%nat) by (apply nth_error_Some; congruence). split; [lia|].
        split; [congruence|lia].
      + destruct X as [X [Y [Z _]]]. rewrite X. split; [lia|]. split; [intros _; lia|auto].
      + destruct X as [X [Y [Z _]]]. rewrite X. split; [lia|]. split; [intros _; lia|auto].
    - assert (X := inv_audit _ _ k j HI). destruct (act ord nord u st es w (AAudit k j)) as [w' s]. destruct X as [V [X [Y _]]]. cbn [fst asked]. rewrite X, Y, Nat.add_0_r. auto.
  Qed.
End Area.

(** ** the order of claims *)
Definition keycmp (a b : key) : comparison :=
  match a, b with KS s, KS t => String.compare s t | KZ m, KZ n => Z.compare m n | KS _, KZ _ => Lt | KZ _, KS _ => Gt end.
Fixpoint tuplecmp (a b : list key) : comparison :=
  match a, b with
  | [], [] => Eq | [], _ => Lt | _, [] => Gt
  | x :: l, y :: m => then_cmp (keycmp x y) (tuplecmp l m)
  end.
Lemma keycmp_eq a b : keycmp a b = Eq <-> a = b.
Proof. destruct a as [s|m], b as [t|n]; cbn; try (split; congruence); [rewrite str_compare_eq|rewrite Z.compare_eq_iff]; split; congruence. Qed.
Lemma keycmp_opp a b : keycmp b a = CompOpp (keycmp a b).
Proof. destruct a as [s|m], b as [t|n]; cbn; auto; [apply String.compare_antisym|apply Z.compare_antisym]. Qed.
Lemma keycmp_trans a b c : keycmp a b = Lt -> keycmp b c = Lt -> keycmp a c = Lt.
Proof. destruct a as [s|m], b as [t|n], c as [v|o]; cbn; auto; try discriminate; [apply str_lt_trans|rewrite !Z.compare_lt_iff; lia]. Qed.
Lemma tuplecmp_eq a : forall b, tuplecmp a b = Eq <-> a = b.
Proof.
  induction a as [|x a IH]; intros [|y b]; cbn; try (split; congruence). unfold then_cmp. destruct (keycmp x y) eqn:K.
  - apply keycmp_eq in K. subst. rewrite IH. split; congruence.
  - split; [discriminate|]. intros [= -> ->]. rewrite (proj2 (keycmp_eq y y) eq_refl) in K. discriminate.
  - split; [discriminate|]. intros [= -> ->]. rewrite (proj2 (keycmp_eq y y) eq_refl) in K. discriminate.
Qed.
Lemma tuplecmp_opp a : forall b, tuplecmp b a = CompOpp (tuplecmp a b).
Proof. induction a as [|x a IH]; intros [|y b]; cbn; auto. rewrite (keycmp_opp x y). unfold then_cmp. destruct (keycmp x y); cbn; auto. Qed.
Lemma tuplecmp_trans a : forall b c, tuplecmp a b = Lt -> tuplecmp b c = Lt -> tuplecmp a c = Lt.
Proof.
  induction a as [|x a IH]; intros [|y b] [|z c]; cbn; auto; try discriminate. unfold then_cmp.
  destruct (keycmp x y) eqn:K1; try discriminate; destruct (keycmp y z) eqn:K2; try discriminate; intros H1 H2.
  - apply keycmp_eq in K1, K2. subst. rewrite (proj2 (keycmp_eq z z) eq_refl). eauto.
  - apply keycmp_eq in K1. subst. rewrite K2. reflexivity.
  - apply keycmp_eq in K2. subst. rewrite K1. reflexivity.
  - rewrite (keycmp_trans _ _ _ K1 K2). reflexivity.
Qed.
Lemma claim_cmp_tuple a b : claim_cmp a b = tuplecmp (listing_key a) (listing_key b).
Proof.
  unfold claim_cmp, listing_key. cbn [tuplecmp keycmp]. assert (E : forall c, then_cmp c Eq = c) by (intros []; reflexivity). rewrite E. reflexivity.
Qed.
Lemma tuple_lt_cmp a b : List.length a = List.length b -> (forall i x y, nth_error a i = Some x -> nth_error b i = Some y -> (exists s t, x = KS s /\ y = KS t) \/ exists m n, x = KZ m /\ y = KZ n) ->
  (tuple_lt a b <-> tuplecmp a b = Lt).
Proof.
  revert b. induction a as [|x a IH]; intros [|y b] L T; cbn in *; try discriminate; [split; [intro H; inversion H|discriminate]|].
  assert (IH' : tuple_lt a b <-> tuplecmp a b = Lt) by (apply IH; [lia|intros i u v A B; apply (T (S i) u v A B)]).
  assert (KL : key_lt x y <-> keycmp x y = Lt). { destruct (T 0%nat x y eq_refl eq_refl) as [[s [t [-> ->]]]|[m [n [-> ->]]]]; cbn; [reflexivity|rewrite Z.compare_lt_iff; reflexivity]. }
  unfold then_cmp. split.
  - intro H. inversion H as [? ? ? ? K|? ? ? H']; subst; [apply KL in K; rewrite K; reflexivity|]. rewrite (proj2 (keycmp_eq y y) eq_refl). apply IH'. exact H'.
  - intro H. destruct (keycmp x y) eqn:K; try discriminate; [|apply tl_here, KL; reflexivity]. apply keycmp_eq in K. subst. apply tl_there, IH', H.
Qed.
Lemma claim_leb_iff a b : claim_leb a b = true <-> ~ tuple_lt (listing_key b) (listing_key a).
Proof.
  rewrite tuple_lt_cmp.
  - unfold claim_leb. rewrite claim_cmp_tuple, (tuplecmp_opp (listing_key a)). destruct (tuplecmp (listing_key a) (listing_key b)); cbn; split; congruence.
  - reflexivity.
  - unfold listing_key. intros i x y A B. do 6 (destruct i as [|i]; [cbn in A, B; injection A as <-; injection B as <-; eauto 6|]). destruct i; discriminate.
Qed.
Lemma claim_total a b : claim_leb a b = true \/ claim_leb b a = true.
Proof. unfold claim_leb. rewrite !claim_cmp_tuple, (tuplecmp_opp (listing_key a)). destruct (tuplecmp (listing_key a) (listing_key b)); cbn; auto. Qed.
Lemma claim_trans a b c : claim_leb a b = true -> claim_leb b c = true -> claim_leb a c = true.
Proof.
  unfold claim_leb. rewrite !claim_cmp_tuple. intros H1 H2. destruct (tuplecmp (listing_key a) (listing_key b)) eqn:E1; try discriminate; destruct (tuplecmp (listing_key b) (listing_key c)) eqn:E2; try discriminate.
  - apply tuplecmp_eq in E1, E2. rewrite E1, E2. rewrite (proj2 (tuplecmp_eq _ _) eq_refl). reflexivity.
  - apply tuplecmp_eq in E1. rewrite E1, E2. reflexivity.
  - apply tuplecmp_eq in E2. rewrite <- E2, E1. reflexivity.
  - rewrite (tuplecmp_trans _ _ _ E1 E2). reflexivity.
Qed.
Lemma filter_insert {A} (leb : A -> A -> bool) (p : A -> bool) x l : (forall y, p x = true -> p y = true -> leb x y = true) ->
  filter p (insert leb x l) = if p x then x :: filter p l else filter p l.
Proof.
  intro H. induction l as [|y l IH]; cbn; [destruct (p x); reflexivity|]. destruct (leb x y) eqn:E; cbn; [destruct (p x); reflexivity|].
  rewrite IH. destruct (p x) eqn:PX; [|reflexivity]. destruct (p y) eqn:PY; [|reflexivity]. rewrite H in E by auto. discriminate.
Qed.
Lemma sorted_claims_ok l : sorted_claims l (isort claim_leb l).
Proof.
  split; [apply isort_perm|]. split.
  - assert (S := isort_sorted claim_leb claim_total claim_trans l). induction S as [|x m S IH F]; constructor; auto. eapply Forall_impl; [|exact F]. intros y H. apply claim_leb_iff. exact H.
  - intros p P. induction l as [|x l IH]; [reflexivity|]. cbn [isort fold_right]. fold (isort claim_leb l). rewrite filter_insert, IH; [reflexivity|].
    intros y PX PY. apply claim_leb_iff. rewrite (P _ _ PX PY), tuple_lt_cmp; [rewrite (proj2 (tuplecmp_eq _ _) eq_refl); discriminate|reflexivity|].
    intros i u v A B. assert (u = v) by congruence. subst v. destruct u; eauto 6.
Qed.
(** grouping *)
Lemma by_clbid_ok l : NoDup (map fst (by_clbid l)) /\ firsts (map (fun cl => c_clbid (cl_course cl)) l) (map fst (by_clbid l)) /\
  (forall k, dget (by_clbid l) k = match filter (fun cl => String.eqb (c_clbid (cl_course cl)) k) l with [] => None | g => Some g end).
Proof.
  induction l as [|x l [N [F G]]] using rev_ind; [cbn; split; [constructor|split; [constructor|reflexivity]]|].
  unfold by_clbid in *. rewrite fold_left_app. cbn [fold_left]. set (d := fold_left _ l []) in *. set (k0 := c_clbid (cl_course x)) in *.
  assert (FI : forall k, filter (fun cl => String.eqb (c_clbid (cl_course cl)) k) (l ++ [x]) = filter (fun cl => String.eqb (c_clbid (cl_course cl)) k) l ++ (if String.eqb k0 k then [x] else [])).
  { intro k. rewrite filter_app. cbn. fold k0. destruct (String.eqb k0 k); reflexivity. }
  assert (KI : In k0 (map fst d) <-> In k0 (map (fun cl => c_clbid (cl_course cl)) l)).
  { clear - F. revert F. generalize (map fst d), (map (fun cl => c_clbid (cl_course cl)) l). intros a b F. induction F; rewrite ?in_app_iff; cbn; [tauto|tauto|rewrite IHF; split; [auto|]]. intros [?|[<-|[]]]; auto. }
  split; [|split].
  - rewrite dset_keys. destruct (dget d k0) eqn:E; [exact N|]. apply dget_None_notin in E. apply NoDup_snoc; auto.
  - rewrite map_app. cbn [map]. fold k0. rewrite dset_keys. destruct (dget d k0) eqn:E.
    + apply fs_old; [exact F|]. apply KI. destruct (in_dec string_dec k0 (map fst d)) as [J|J]; auto. apply dget_None_notin in J. congruence.
    + apply fs_new; [exact F|]. intro J. apply dget_None_notin in E. apply E, KI, J.
  - intro k. rewrite FI. destruct (String.eqb_spec k0 k) as [->|NE].
    + rewrite dget_dset_same, G. destruct (filter _ l); reflexivity.
    + rewrite dget_dset_other by congruence. rewrite G, app_nil_r. reflexivity.
Qed.
Lemma fold_dset cs : forall d0,
  let d := fold_left (fun d c => dset d (c_clbid c) c) cs d0 in
  (forall k c, dget d k = Some c -> (In c cs /\ c_clbid c = k) \/ dget d0 k = Some c) /\
  (forall c, In c cs -> dget d (c_clbid c) <> None) /\ (forall k, dget d0 k <> None -> dget d k <> None).
Proof.
  induction cs as [|c cs IH]; intros d0 d; [cbn in d; split; [auto|split; [intros c []|auto]]|].
  destruct (IH (dset d0 (c_clbid c) c)) as [A [B C]]. change (fold_left _ cs _) with d in A, B, C. split; [|split].
  - intros k x H. destruct (A k x H) as [[I E]|E]; [left; simpl; auto|]. destruct (String.eqb_spec (c_clbid c) k) as [<-|N]; [rewrite dget_dset_same in E; injection E as ->; left; simpl; auto|].
    rewrite dget_dset_other in E by congruence. auto.
  - intros x [<-|I]; [|auto]. apply C. rewrite dget_dset_same. discriminate.
  - intros k H. apply C. destruct (String.eqb_spec (c_clbid c) k) as [<-|N]; [rewrite dget_dset_same; discriminate|]. rewrite dget_dset_other by congruence. exact H.
Qed.
