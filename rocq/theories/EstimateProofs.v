(** Lemmas about estimates and the numbers of solutions *)
From Coq Require Import List Bool Arith ZArith Ascii String Lia Permutation.
From Verif Require Import Prelude ListFacts ClaimsProofs AssertionProofs Dec Status Transcript Course Claims Exceptions Op Context CondExpr Paths Predicate Limit Apply Assertion Query QueryProofs
  CourseRule Tree TreeSpec TreeSolProofs Solve Area LazyProduct EnumSpec EnumProofs LazyRun Estimate.
From Verif Require Import TreeSolSpec EstimateSpec SolveProofs.
Import ListNotations.
Local Open Scope list_scope.
Local Open Scope Z_scope.

Definition zlen {A} (l : list A) : Z := Z.of_nat (List.length l).
Fixpoint zprod (l : list Z) : Z := match l with [] => 1 | x :: t => x * zprod t end.
Fixpoint zsum (l : list Z) : Z := match l with [] => 0 | x :: t => x + zsum t end.
Lemma zlen_nonneg {A} (l : list A) : 0 <= zlen l.
Proof. unfold zlen. lia. Qed.
Lemma mult_zprod l : mult l = zprod l.
Proof.
  unfold mult. assert (G : forall z, fold_left Z.mul l z = z * zprod l).
  { induction l as [|x t IH]; intro z; cbn [fold_left zprod]; [lia|]. rewrite IH. lia. }
  rewrite G. lia.
Qed.
Lemma add_zsum l : fold_left Z.add l 0 = zsum l.
Proof.
  assert (G : forall z, fold_left Z.add l z = z + zsum l).
  { induction l as [|x t IH]; intro z; cbn [fold_left zsum]; [lia|]. rewrite IH. lia. }
  rewrite G. lia.
Qed.
Lemma zprod_app l r : zprod (l ++ r) = zprod l * zprod r.
Proof. induction l as [|x t IH]; cbn [zprod app]; lia. Qed.
Lemma zprod_pos l : (forall x, In x l -> 0 <= x) -> 0 <= zprod l.
Proof. induction l as [|x t IH]; cbn [zprod]; intro H; [lia|]. apply Z.mul_nonneg_nonneg; [apply H; simpl; auto|apply IH; intros; apply H; simpl; auto]. Qed.
Lemma zprod_pos1 l : (forall x, In x l -> 1 <= x) -> 1 <= zprod l.
Proof.
  induction l as [|x t IH]; cbn [zprod]; intro H; [lia|]. assert (1 <= x) by (apply H; simpl; auto).
  assert (1 <= zprod t) by (apply IH; intros; apply H; simpl; auto). nia.
Qed.
Lemma zsum_pos l : (forall x, In x l -> 0 <= x) -> 0 <= zsum l.
Proof. induction l as [|x t IH]; cbn [zsum]; intro H; [lia|]. assert (0 <= x) by (apply H; simpl; auto). assert (0 <= zsum t) by (apply IH; intros; apply H; simpl; auto). lia. Qed.

(** ** combinations of mapped lists *)
Lemma combs_map {A B} (f : A -> B) k l : combs k (map f l) = map (map f) (combs k l).
Proof.
  revert k. induction l as [|x t IH]; intros [|k]; cbn [combs map]; try reflexivity.
  rewrite map_app, !IH, !map_map. reflexivity.
Qed.
Lemma combinations_map {A B} (f : A -> B) l z : combinations (map f l) z = gmap (map f) (combinations l z).
Proof. unfold combinations. destruct (z <? 0); [reflexivity|]. unfold gret, gmap. cbn [g_items g_exn]. rewrite combs_map. reflexivity. Qed.
Lemma gflat_list_map {A B C} (f : B -> gen C) (h : A -> B) l e : gflat_list f (map h l) e = gflat_list (fun x => f (h x)) l e.
Proof. induction l as [|x t IH]; cbn [map gflat_list]; [reflexivity|]. rewrite IH. reflexivity. Qed.
Lemma gflat_gmap {A B C} (f : B -> gen C) (h : A -> B) g : gflat f (gmap h g) = gflat (fun x => f (h x)) g.
Proof. unfold gflat, gmap. cbn [g_items g_exn]. apply gflat_list_map. Qed.

(** ** the dict of estimates *)
Lemma dset_new {A} (d : list (string * A)) k v : ~ In k (map fst d) -> dset d k v = d ++ [(k, v)].
Proof.
  induction d as [|[k' v'] t IH]; cbn [dset map In app fst]; intro H; [reflexivity|].
  destruct (String.eqb_spec k' k) as [->|N]; [tauto|]. destruct (String.eqb_spec k k') as [->|N']; [tauto|]. rewrite IH by tauto. reflexivity.
Qed.
Lemma estimates_of_app d l r : estimates_of d l = Ok r ->
  NoDup (map fst d ++ map (fun g : guess => join_path (path_of (fst g))) l) ->
  exists ks, r = d ++ ks /\ Forall2 (fun (g : guess) kv => snd g = Ok (snd kv)) l ks.
Proof.
  revert d r. induction l as [|[n e] t IH]; intros d r H ND; cbn [estimates_of] in H.
  - injection H as <-. exists []. rewrite app_nil_r. split; [reflexivity|constructor].
  - destruct e as [k|] eqn:E; cbn [bind] in H; [|discriminate].
    cbn [map fst] in ND. rewrite dset_new in H by (intro I; apply NoDup_remove_2 in ND; apply ND; apply in_or_app; auto).
    destruct (IH _ _ H) as [ks [-> F]].
    { rewrite map_app. cbn [map fst]. rewrite <- app_assoc. exact ND. }
    exists ((join_path (path_of n), k) :: ks). split; [rewrite <- app_assoc; reflexivity|]. constructor; auto.
Qed.
Lemma combination_estimate_form l r : combination_estimate l = Ok r ->
  NoDup (map (fun g : guess => join_path (path_of (fst g))) l) ->
  exists ks, r = zprod ks /\ Forall2 (fun (g : guess) k => snd g = Ok k) l ks.
Proof.
  unfold combination_estimate. destruct (estimates_of [] l) as [d|] eqn:E; cbn [bind]; [|discriminate]. intros H ND. injection H as <-.
  destruct (estimates_of_app _ _ _ E ND) as [ks [-> F]]. exists (map snd ks). split; [rewrite mult_zprod; reflexivity|].
  clear -F. induction F; cbn [map]; constructor; auto.
Qed.

(** ** the length of a product *)
Lemma gflat_len_le {A B} (f : A -> gen B) (b : Z) l e : 0 <= b -> (forall x, In x l -> zlen (g_items (f x)) <= b) ->
  zlen (g_items (gflat_list f l e)) <= zlen l * b.
Proof.
  intros P. induction l as [|x t IH]; intro H; cbn [gflat_list]; [unfold zlen; simpl; lia|].
  assert (Hx := H x (or_introl eq_refl)). assert (It := IH (fun y I => H y (or_intror I))). unfold zlen in *. cbn [List.length].
  unfold gapp. destruct (g_exn (f x)); cbn [g_items]; [nia|]. rewrite app_length. nia.
Qed.
Lemma product_gen_len {A} (gs : list (gen A)) : zlen (g_items (product_gen gs)) <= zprod (map (fun g => zlen (g_items g)) gs).
Proof.
  induction gs as [|g gs IH]; cbn [product_gen map zprod]; [unfold zlen; simpl; lia|]. unfold gflat.
  apply gflat_len_le; [apply zprod_pos; intros x I; apply in_map_iff in I; destruct I as [? [<- _]]; apply zlen_nonneg|].
  intros x _. unfold gmap. cbn [g_items]. unfold zlen in *. rewrite map_length. exact IH.
Qed.
Lemma lazy_run_len {A} (gs : list (gen A)) : zlen (g_items (lazy_run gs)) <= zprod (map (fun g => zlen (g_items g)) gs).
Proof.
  unfold lazy_run. destruct (first_failure gs); [|apply product_gen_len].
  unfold gfail. cbn [g_items]. apply zprod_pos. intros x I. apply in_map_iff in I. destruct I as [? [<- _]]. apply zlen_nonneg.
Qed.
Lemma gflat_len_exact {A B} (f : A -> gen B) (b : Z) l : (forall x, In x l -> zlen (g_items (f x)) = b /\ g_exn (f x) = None) ->
  zlen (g_items (gflat_list f l None)) = zlen l * b.
Proof.
  induction l as [|x t IH]; intro H; cbn [gflat_list]; [unfold zlen; simpl; lia|].
  destruct (H x (or_introl eq_refl)) as [Hx Ex]. assert (It := IH (fun y I => H y (or_intror I))). unfold zlen in *. cbn [List.length].
  unfold gapp. rewrite Ex. cbn [g_items]. rewrite app_length. nia.
Qed.
Lemma lazy_run_len_exact {A} (gs : list (gen A)) : (forall g, In g gs -> g_exn g = None /\ g_items g <> []) ->
  zlen (g_items (lazy_run gs)) = zprod (map (fun g => zlen (g_items g)) gs).
Proof.
  intro H. assert (N := lazy_run_none gs H). unfold lazy_run in *. destruct (first_failure gs); [discriminate|]. revert H. clear N.
  induction gs as [|g gs IH]; intro H; cbn [product_gen map zprod]; [reflexivity|]. unfold gflat.
  rewrite (proj1 (H g (or_introl eq_refl))). apply gflat_len_exact. intros x _. unfold gmap. cbn [g_items g_exn]. split.
  - unfold zlen in *. rewrite map_length. apply IH. intros h I. apply H. simpl. auto.
  - assert (P := lazy_run_none gs (fun h I => H h (or_intror I))). unfold lazy_run in P. destruct (first_failure gs); [discriminate|exact P].
Qed.
(** a product is never silently empty *)
Lemma lazy_run_some {A} (gs : list (gen A)) : lazy_run gs <> Gen [] None.
Proof. intro E. destruct (lazy_run_items gs) as [_ [N _]]; rewrite E in *; [reflexivity|]. apply N. reflexivity. Qed.
Lemma gflat_silent {A B} (f : A -> gen B) l : (forall x, In x l -> f x <> Gen [] None) -> gflat_list f l None = Gen [] None -> l = [].
Proof.
  destruct l as [|x t]; [reflexivity|]. cbn [gflat_list]. intros H E. exfalso. apply (H x); [simpl; auto|].
  destruct (f x) as [[|y r] [e|]]; unfold gapp in E; cbn [g_items g_exn] in E; try discriminate. reflexivity.
Qed.

Lemma mapr_map {A B C} (f : B -> res C) (h : A -> B) l : mapr f (map h l) = mapr (fun x => f (h x)) l.
Proof. induction l as [|x t IH]; cbn [mapr map]; [reflexivity|]. rewrite IH. reflexivity. Qed.
Lemma mapr_Forall2 {A B} (f : A -> res B) l r : mapr f l = Ok r -> Forall2 (fun x y => f x = Ok y) l r.
Proof.
  revert r. induction l as [|x t IH]; intros r H; cbn [mapr] in H; [injection H as <-; constructor|].
  destruct (f x) as [y|] eqn:F; cbn [bind] in H; [|discriminate]. destruct (mapr f t) as [ys|]; cbn [bind] in H; [|discriminate].
  injection H as <-. constructor; auto.
Qed.
Lemma gflat_sum {A B} (f : A -> gen B) l e ns : Forall2 (fun x n => zlen (g_items (f x)) <= n) l ns -> zlen (g_items (gflat_list f l e)) <= zsum ns.
Proof.
  induction 1 as [|x n l ns H F IH]; cbn [gflat_list zsum]; [unfold zlen; simpl; lia|].
  assert (P : 0 <= zsum ns).
  { apply zsum_pos. clear -F. induction F as [|x n l ns H F IH]; intros y I; [destruct I|]. destruct I as [<-|I]; [|auto]. assert (Z0 := zlen_nonneg (g_items (f x))). lia. }
  unfold zlen in *. unfold gapp. destruct (g_exn (f x)); cbn [g_items]; [lia|]. rewrite app_length. lia.
Qed.
Lemma gflat_sum_exact {A B} (f : A -> gen B) l ns : Forall2 (fun x n => zlen (g_items (f x)) = n) l ns -> (forall x, In x l -> g_exn (f x) = None) ->
  zlen (g_items (gflat_list f l None)) = zsum ns.
Proof.
  induction 1 as [|x n l ns H F IH]; intro N; cbn [gflat_list zsum]; [reflexivity|].
  assert (T := IH (fun y I => N y (or_intror I))). unfold zlen in *. unfold gapp. rewrite (N x (or_introl eq_refl)). cbn [g_items]. rewrite app_length. lia.
Qed.
Lemma Forall2_compose {A B C} (P : A -> B -> Prop) (Q : A -> C -> Prop) (R : B -> C -> Prop) l m : (forall x y z, In x l -> P x y -> Q x z -> R y z) ->
  forall k, Forall2 P l m -> Forall2 Q l k -> Forall2 R m k.
Proof.
  intros H k F. revert k H. induction F as [|x y l m p F IH]; intros k H G; inversion G; subst; constructor.
  - eapply H; eauto. simpl. auto.
  - apply IH; auto. intros. eapply H; eauto. simpl. auto.
Qed.
Lemma Forall2_In_l {A B} (P Q : A -> B -> Prop) l m : (forall x y, In x l -> P x y -> Q x y) -> Forall2 P l m -> Forall2 Q l m.
Proof. intros H F. induction F; constructor; [apply H; simpl; auto|apply IHF; intros; apply H; simpl; auto]. Qed.
Lemma Forall2_in_r {A B} (P : A -> B -> Prop) l m y : Forall2 P l m -> In y m -> exists x, In x l /\ P x y.
Proof. induction 1 as [|x z l m p F IH]; intros I; [destruct I|]. destruct I as [<-|I]; [exists x; simpl; auto|]. destruct (IH I) as [w [? ?]]. exists w. simpl. auto. Qed.
Lemma zprod_le l m : Forall2 (fun a b => 0 <= a <= b) l m -> zprod l <= zprod m /\ 0 <= zprod l.
Proof. induction 1 as [|a b l m H F IH]; cbn [zprod]; [lia|]. destruct IH. split; nia. Qed.

(** ** one count, over the children [nodes] with their solutions [S] and estimates [E] *)
Section Count.
  Variables (S : node -> gen node) (E : node -> res Z) (i : count_info) (results other : list node) (nodes : list node).
  Hypothesis joins : NoDup (map (fun n => join_path (path_of n)) nodes).
  Let kids := map (fun n => (n, S n)) nodes.
  Let guesses := map (fun n => (n, E n)) nodes.

  Lemma sub_joins sel k : In sel (combs k nodes) -> NoDup (map (fun n => join_path (path_of n)) sel).
  Proof.
    intro I. apply in_combs in I. destruct I as [I _].
    eapply subseq_NoDup; [apply subseq_map; exact I|exact joins].
  Qed.
  Lemma combination_of sel r : NoDup (map (fun n => join_path (path_of n)) sel) -> combination_estimate (map (fun n => (n, E n)) sel) = Ok r ->
    exists ks, r = zprod ks /\ Forall2 (fun n k => E n = Ok k) sel ks.
  Proof.
    intros ND H. apply combination_estimate_form in H.
    - destruct H as [ks [-> F]]. exists ks. split; [reflexivity|]. apply Forall2_map_l in F. exact F.
    - rewrite map_map. cbn [fst]. exact ND.
  Qed.
  Definition runs (sel : list node) : gen node :=
    gmap (fun sols => count_solution i (sort_by_path path_of (sols ++ unselected (map (fun n => (n, S n)) sel) other ++ results)) false)
         (lazy_run (map snd (map (fun n => (n, S n)) sel))).
  Lemma make_form z : make_combinations i kids results other z = gflat runs (combinations nodes z).
  Proof.
    unfold make_combinations, kids. rewrite combinations_map, gflat_gmap. reflexivity.
  Qed.
  Lemma count_form z r : count_combinations guesses z = Ok r ->
    0 <= z /\ exists ns, mapr (fun sel => combination_estimate (map (fun n => (n, E n)) sel)) (combs (Z.to_nat z) nodes) = Ok ns /\ r = zsum ns.
  Proof.
    unfold count_combinations, guesses. rewrite combinations_map. unfold combinations. destruct (Z.ltb_spec z 0) as [L|L].
    - cbn [gmap gfail g_items g_exn map mapr bind]. discriminate.
    - cbn [gmap gret g_items g_exn]. rewrite mapr_map. destruct (mapr _ _) as [ns|] eqn:M; cbn [bind]; [|discriminate].
      intro H. injection H as <-. split; [lia|]. exists ns. split; [reflexivity|apply add_zsum].
  Qed.

  Lemma run_snd sel : map snd (map (fun n => (n, S n)) sel) = map S sel.
  Proof. rewrite map_map. reflexivity. Qed.
  Lemma runs_some sel : runs sel <> Gen [] None.
  Proof.
    unfold runs. intro H. apply (lazy_run_some (map snd (map (fun n => (n, S n)) sel))).
    destruct (lazy_run _) as [[|x t] e]; cbn [gmap g_items g_exn map] in H; [injection H as ->; reflexivity|discriminate].
  Qed.

  Section Bound.
    Hypothesis bound : forall n k, In n nodes -> E n = Ok k -> zlen (g_items (S n)) <= k.
    Lemma runs_le k sel r : In sel (combs k nodes) -> combination_estimate (map (fun n => (n, E n)) sel) = Ok r -> zlen (g_items (runs sel)) <= r.
    Proof.
      intros I H. apply combination_of in H; [|eapply sub_joins; eauto]. destruct H as [ks [-> F]].
      unfold runs. cbn [gmap g_items]. unfold zlen. rewrite map_length. fold (zlen (g_items (lazy_run (map snd (map (fun n => (n, S n)) sel))))).
      eapply Z.le_trans; [apply lazy_run_len|]. apply zprod_le. rewrite run_snd, map_map.
      apply in_combs in I. destruct I as [I _]. assert (IN : forall n, In n sel -> In n nodes) by (intros; eapply subseq_in; eauto).
      apply Forall2_map_l. eapply Forall2_In_l; [|exact F]. cbn beta. intros n c In_ En. split; [apply zlen_nonneg|]. apply bound; auto.
    Qed.
    Lemma make_le z r : count_combinations guesses z = Ok r -> zlen (g_items (make_combinations i kids results other z)) <= r.
    Proof.
      intro H. apply count_form in H. destruct H as [P [ns [M ->]]]. rewrite make_form. unfold combinations. destruct (Z.ltb_spec z 0); [lia|].
      unfold gflat. cbn [gret g_items g_exn]. apply gflat_sum. apply mapr_Forall2 in M. eapply Forall2_In_l; [|exact M]. cbn beta. intros sel r I R. eapply runs_le; eauto.
    Qed.
    Lemma count_run_le len r : sizes_estimate i len guesses = Ok r -> zlen (g_items (count_run i len kids results other)) <= r.
    Proof.
      unfold sizes_estimate, count_run. cbv zeta. set (hi := if n_at_most i then _ else _). clearbody hi.
      destruct (mapr (count_combinations guesses) (zrange (n_count i) hi)) as [ns|] eqn:M; cbn [bind]; [|discriminate].
      rewrite add_zsum. apply mapr_Forall2 in M. set (run := gflat _ _).
      assert (RUN : zlen (g_items run) <= zsum ns).
      { unfold run, gflat. cbn [gret g_items g_exn]. apply gflat_sum. eapply Forall2_In_l; [|exact M]. cbn beta. intros z r0 _ H. apply make_le. exact H. }
      assert (NN : 0 <= zsum ns). { eapply Z.le_trans; [|exact RUN]. apply zlen_nonneg. }
      assert (SIL : run = Gen [] None -> zsum ns = 0).
      { intro R. unfold run, gflat in R. cbn [gret g_items g_exn] in R.
        assert (EM : forall z, In z (zrange (n_count i) hi) -> 0 <= z -> combs (Z.to_nat z) nodes = []).
        { clear -R. induction (zrange (n_count i) hi) as [|z t IH]; intros y I P; [destruct I|]. cbn [gflat_list] in R.
          destruct (make_combinations i kids results other z) as [[|x l] [e|]] eqn:MC; unfold gapp in R; cbn [g_items g_exn app] in R; try discriminate.
          destruct I as [<-|I].
          - rewrite make_form in MC. unfold combinations in MC. destruct (Z.ltb_spec z 0); [lia|]. unfold gflat in MC. cbn [gret g_items g_exn] in MC.
            eapply gflat_silent; [|exact MC]. intros; apply runs_some.
          - apply IH; auto. destruct (gflat_list _ t None) as [l e]. cbn [g_items g_exn] in R. injection R as -> ->. reflexivity. }
        assert (Z0 : forall n, In n ns -> n = 0).
        { intros n I. destruct (Forall2_in_r _ _ _ _ M I) as [z [Iz C]]. apply count_form in C. destruct C as [P [ms [MS ->]]]. rewrite (EM z Iz P) in MS. cbn [mapr] in MS. injection MS as <-. reflexivity. }
        clear -Z0. induction ns as [|n t IH]; cbn [zsum]; [reflexivity|]. rewrite (Z0 n (or_introl eq_refl)), IH; [reflexivity|]. intros; apply Z0; simpl; auto. }
      intro H. destruct run as [[|x t] [e|]] eqn:RE.
      - assert (0 <= r); [|unfold zlen; simpl; lia].
        destruct (Z.eqb_spec (zsum ns) 0) as [Z0|Z0]; cbn [andb] in H.
        + destruct guesses as [|g0 gr] eqn:G; cbn [negb] in H; [cbn [bind] in H; injection H as <-; rewrite Z0; simpl; lia|].
          rewrite <- G in H. destruct (count_combinations guesses _) as [k|] eqn:C; cbn [bind] in H; [|discriminate]. injection H as <-. apply make_le in C. match type of C with ?a <= _ => assert (Z1 : 0 <= a) by apply zlen_nonneg end. destruct (Z.eqb_spec k 0); lia.
        + cbn [bind] in H. injection H as <-. destruct (Z.eqb_spec (zsum ns) 0); lia.
      - rewrite (SIL eq_refl) in H. change (0 =? 0) with true in H. cbn [andb] in H.
        assert (LK : List.length guesses = List.length kids) by (unfold guesses, kids; rewrite !map_length; reflexivity).
        assert (ALL : forall k, count_combinations guesses (Z.of_nat (List.length guesses)) = Ok k ->
           zlen (g_items (make_combinations i kids results other (Z.of_nat (List.length kids)))) <= k).
        { intros k C. rewrite LK in C. apply make_le. exact C. }
        assert (EM : kids = [] <-> guesses = []) by (unfold guesses, kids; destruct nodes; cbn [map]; split; congruence).
        clearbody kids guesses. destruct kids as [|k0 kr], guesses as [|g0 gr]; [|exfalso; destruct EM as [X _]; discriminate (X eq_refl)|exfalso; destruct EM as [_ X]; discriminate (X eq_refl)|].
        + cbn [negb bind] in H. injection H as <-. unfold zlen. simpl. lia.
        + cbn [negb] in H. destruct (count_combinations _ _) as [k|] eqn:C; cbn [bind] in H; [|discriminate]. injection H as <-. specialize (ALL _ eq_refl).
          destruct (make_combinations i _ results other _) as [[|x t] [e|]] eqn:MC; unfold zlen in *; cbn [g_items gret List.length] in *; destruct (Z.eqb_spec k 0); lia.
      - assert (zsum ns <= r); [|unfold zlen in *; cbn [g_items List.length] in *; lia].
        assert (0 < zsum ns) by (unfold zlen in RUN; cbn [g_items List.length] in RUN; lia). destruct (Z.eqb_spec (zsum ns) 0); [lia|]. cbn [andb bind] in H. injection H as <-. destruct (Z.eqb_spec (zsum ns) 0); lia.
      - assert (zsum ns <= r); [|unfold zlen in *; cbn [g_items List.length] in *; lia].
        assert (0 < zsum ns) by (unfold zlen in RUN; cbn [g_items List.length] in RUN; lia). destruct (Z.eqb_spec (zsum ns) 0); [lia|]. cbn [andb bind] in H. injection H as <-. destruct (Z.eqb_spec (zsum ns) 0); lia.
    Qed.
  End Bound.

  Section Exact.
    Hypothesis exact : forall n k, In n nodes -> E n = Ok k -> zlen (g_items (S n)) = k /\ g_exn (S n) = None /\ 1 <= k.
    Lemma runs_exact k sel r : In sel (combs k nodes) -> combination_estimate (map (fun n => (n, E n)) sel) = Ok r ->
      zlen (g_items (runs sel)) = r /\ g_exn (runs sel) = None /\ 1 <= r.
    Proof.
      intros I H. apply combination_of in H; [|eapply sub_joins; eauto]. destruct H as [ks [-> F]].
      apply in_combs in I. destruct I as [I _]. assert (IN : forall n, In n sel -> In n nodes) by (intros; eapply subseq_in; eauto).
      assert (F' : Forall2 (fun n k => zlen (g_items (S n)) = k /\ g_exn (S n) = None /\ 1 <= k) sel ks).
      { eapply Forall2_In_l; [|exact F]. cbn beta. intros n c In_ En. apply exact; auto. }
      assert (OK : forall g, In g (map S sel) -> g_exn g = None /\ g_items g <> []).
      { intros g Ig. apply in_map_iff in Ig. destruct Ig as [n [<- In_]]. clear -F' In_. induction F' as [|m c l ks H F IH]; [destruct In_|].
        destruct In_ as [<-|J]; [|auto]. destruct H as [L [X P]]. split; [exact X|]. intro E0. rewrite E0 in L. unfold zlen in L. simpl in L. lia. }
      unfold runs. cbn [gmap g_items g_exn]. rewrite run_snd. split; [|split; [apply lazy_run_none; exact OK|]].
      - unfold zlen. rewrite map_length. fold (zlen (g_items (lazy_run (map S sel)))). rewrite lazy_run_len_exact by exact OK. rewrite map_map. f_equal.
        clear -F'. induction F' as [|m c l ks H F IH]; cbn [map]; [reflexivity|]. destruct H as [<- _]. rewrite IH. reflexivity.
      - apply zprod_pos1. intros x J. destruct (Forall2_in_r _ _ _ _ F' J) as [n [_ [_ [_ P]]]]. exact P.
    Qed.
    Lemma make_exact z r : count_combinations guesses z = Ok r ->
      zlen (g_items (make_combinations i kids results other z)) = r /\ g_exn (make_combinations i kids results other z) = None /\ 0 <= r.
    Proof.
      intro H. apply count_form in H. destruct H as [P [ns [M ->]]]. rewrite make_form. unfold combinations. destruct (Z.ltb_spec z 0); [lia|].
      unfold gflat. cbn [gret g_items g_exn]. apply mapr_Forall2 in M.
      assert (F : Forall2 (fun sel r => zlen (g_items (runs sel)) = r /\ g_exn (runs sel) = None /\ 1 <= r) (combs (Z.to_nat z) nodes) ns).
      { eapply Forall2_In_l; [|exact M]. cbn beta. intros sel r I R. eapply runs_exact; eauto. }
      assert (N : forall sel, In sel (combs (Z.to_nat z) nodes) -> g_exn (runs sel) = None).
      { clear -F. intros sel I. induction F as [|a b l m H F IH]; [destruct I|]. destruct I as [<-|I]; [apply H|auto]. }
      split; [|split].
      - apply gflat_sum_exact; [|exact N]. eapply Forall2_In_l; [|exact F]. cbn beta. intros ? ? _ [? _]. assumption.
      - rewrite gflat_exn; [reflexivity|exact N].
      - apply zsum_pos. intros x J. destruct (Forall2_in_r _ _ _ _ F J) as [? [_ [_ [_ P1]]]]. lia.
    Qed.
    Lemma count_run_exact len r : sizes_estimate i len guesses = Ok r ->
      zlen (g_items (count_run i len kids results other)) = r /\ g_exn (count_run i len kids results other) = None /\ 1 <= r.
    Proof.
      unfold sizes_estimate, count_run. cbv zeta. set (hi := if n_at_most i then _ else _). clearbody hi.
      destruct (mapr (count_combinations guesses) (zrange (n_count i) hi)) as [ns|] eqn:M; cbn [bind]; [|discriminate].
      rewrite add_zsum. apply mapr_Forall2 in M. set (run := gflat _ _).
      assert (F : Forall2 (fun z r => zlen (g_items (make_combinations i kids results other z)) = r /\ g_exn (make_combinations i kids results other z) = None /\ 0 <= r) (zrange (n_count i) hi) ns).
      { eapply Forall2_In_l; [|exact M]. cbn beta. intros z r0 _ C. apply make_exact. exact C. }
      assert (NX : forall z, In z (zrange (n_count i) hi) -> g_exn (make_combinations i kids results other z) = None).
      { clear -F. intros z I. induction F as [|a b l m H F IH]; [destruct I|]. destruct I as [<-|I]; [apply H|auto]. }
      assert (RUN : zlen (g_items run) = zsum ns).
      { unfold run, gflat. cbn [gret g_items g_exn]. apply gflat_sum_exact; [|exact NX]. eapply Forall2_In_l; [|exact F]. cbn beta. intros ? ? _ [? _]. assumption. }
      assert (X : g_exn run = None). { unfold run, gflat. rewrite gflat_exn; [reflexivity|exact NX]. }
      intro H. destruct run as [[|x t] [e|]] eqn:RE; cbn [g_exn g_items] in X, RUN; try discriminate.
      - unfold zlen in RUN. simpl in RUN. rewrite <- RUN in H. change (0 =? 0) with true in H. cbn [andb] in H.
        assert (LK : List.length guesses = List.length kids) by (unfold guesses, kids; rewrite !map_length; reflexivity).
        assert (ALL : forall k, count_combinations guesses (Z.of_nat (List.length guesses)) = Ok k ->
           zlen (g_items (make_combinations i kids results other (Z.of_nat (List.length kids)))) = k /\ g_exn (make_combinations i kids results other (Z.of_nat (List.length kids))) = None /\ 0 <= k).
        { intros k C. rewrite LK in C. apply make_exact. exact C. }
        assert (EM : kids = [] <-> guesses = []) by (unfold guesses, kids; destruct nodes; cbn [map]; split; congruence).
        clearbody kids guesses. destruct kids as [|k0 kr], guesses as [|g0 gr]; [|exfalso; destruct EM as [Y _]; discriminate (Y eq_refl)|exfalso; destruct EM as [_ Y]; discriminate (Y eq_refl)|].
        + cbn [negb bind] in H. injection H as <-. unfold gnil, gret. cbn [g_items g_exn]. split; [reflexivity|]. split; [reflexivity|]. simpl. lia.
        + cbn [negb] in H. destruct (count_combinations _ _) as [k|] eqn:C; cbn [bind] in H; [|discriminate]. injection H as <-. destruct (ALL _ eq_refl) as [A1 [A2 A3]].
          destruct (make_combinations i _ results other _) as [[|x t] [e|]] eqn:MC; cbn [g_exn g_items] in A1, A2; try discriminate; unfold zlen in *; cbn [g_items g_exn gret List.length] in *; destruct (Z.eqb_spec k 0); repeat split; lia.
      - assert (P : 0 < zsum ns) by (rewrite <- RUN; unfold zlen; cbn [List.length]; lia). destruct (Z.eqb_spec (zsum ns) 0); [lia|]. cbn [andb bind] in H. injection H as <-.
        destruct (Z.eqb_spec (zsum ns) 0); [lia|]. cbn [g_items g_exn]. repeat split; lia.
    Qed.
  End Exact.
End Count.

(** ** trees *)
Section Pot.
  Variable cx : ctx.
  Definition pot_nodes (items : list node) : res (list node) :=
    let! l := filter_res (potential cx) items in Ok (dedup (fun a b => same_path (path_of a) (path_of b)) l).
  Lemma filter_res_map {A B} (f : B -> res bool) (h : A -> B) l : filter_res f (map h l) = let! r := filter_res (fun x => f (h x)) l in Ok (map h r).
  Proof.
    induction l as [|x t IH]; cbn [map filter_res]; [reflexivity|]. rewrite IH. destruct (f (h x)) as [[|]|]; cbn [bind]; try reflexivity;
      destruct (filter_res (fun x => f (h x)) t); reflexivity.
  Qed.
  Lemma dedup_map {A B} (f : B -> B -> bool) (h : A -> B) l : dedup f (map h l) = map h (dedup (fun a b => f (h a) (h b)) l).
  Proof. induction l as [|x t IH]; cbn [map dedup]; [reflexivity|]. rewrite IH, filter_map. reflexivity. Qed.
  Lemma potential_form (S : node -> gen node) items :
    potential_children cx (map (fun c => (c, S c)) items) = let! p := pot_nodes items in Ok (map (fun c => (c, S c)) p).
  Proof.
    unfold potential_children, pot_nodes. rewrite filter_res_map. cbn [fst]. destruct (filter_res _ items) as [l|]; cbn [bind]; [|reflexivity].
    rewrite dedup_map. reflexivity.
  Qed.
  Lemma likely_form (E : node -> res Z) items :
    likely_children cx (map (fun c => (c, E c)) items) = let! p := pot_nodes items in Ok (map (fun c => (c, E c)) p).
  Proof.
    unfold likely_children, pot_nodes. rewrite filter_res_map. cbn [fst]. destruct (filter_res _ items) as [l|]; cbn [bind]; [|reflexivity].
    rewrite dedup_map. reflexivity.
  Qed.
  Lemma pot_nodes_in items p c : pot_nodes items = Ok p -> In c p -> In c items /\ potential cx c = Ok true.
  Proof.
    unfold pot_nodes. destruct (filter_res _ items) as [l|] eqn:F; cbn [bind]; [|discriminate]. intros H I. injection H as <-.
    apply dedup_incl in I. apply filter_res_items in F. destruct F as [-> T]. apply filter_In in I. destruct I as [I P]. split; [exact I|].
    destruct (potential cx c) as [[|]|]; try discriminate; reflexivity.
  Qed.
  Lemma dedup_nodup {A} (f : A -> path) (l : list A) : NoDup (map f (dedup (fun a b => same_path (f a) (f b)) l)).
  Proof.
    induction l as [|x t IH]; cbn [dedup map]; constructor.
    - intro I. apply in_map_iff in I. destruct I as [y [E I]]. apply filter_In in I. destruct I as [_ N]. unfold same_path in N.
      rewrite (proj2 (path_eqb_spec (f x) (f y)) (eq_sym E)) in N. discriminate.
    - clear -IH. induction (dedup _ t) as [|y r IHr]; cbn [filter map]; [constructor|]. cbn [map] in IH. inversion IH as [|? ? N D]; subst.
      destruct (negb _); cbn [map]; auto. constructor; auto. intro I. apply N. apply in_map_iff in I. destruct I as [z [E I]]. apply filter_In in I. rewrite <- E. apply in_map. apply I.
  Qed.
  Lemma pot_nodes_nodup items p : pot_nodes items = Ok p -> NoDup (map path_of p).
  Proof. unfold pot_nodes. destruct (filter_res _ items); cbn [bind]; [|discriminate]. intro H. injection H as <-. apply dedup_nodup. Qed.
End Pot.

(** ** joined paths *)
Lemma joins_nodup (l : list node) : told_apart l -> NoDup (map path_of l) -> NoDup (map (fun n => join_path (path_of n)) l).
Proof.
  induction l as [|x l IH]; intros H ND; cbn [map] in *; constructor; inversion ND as [|? ? N D]; subst.
  - intro I. apply N. apply in_map_iff in I. destruct I as [y [E I]]. apply in_map_iff. exists y. split; auto.
    apply H; simpl; auto.
  - apply IH; auto. intros c d Ic Id. apply H; simpl; auto.
Qed.

(** ** whole trees *)
Lemma sizes_some i len l r : sizes_estimate i len l = Ok r -> (forall z k, count_combinations l z = Ok k -> 0 <= k) -> 1 <= r.
Proof.
  unfold sizes_estimate. cbv zeta. destruct (mapr _ _) as [ns|] eqn:M; cbn [bind]; [|discriminate]. rewrite add_zsum. intros H P.
  assert (0 <= zsum ns). { apply zsum_pos. apply mapr_Forall2 in M. intros x I. destruct (Forall2_in_r _ _ _ _ M I) as [z [_ C]]. eapply P; eauto. }
  destruct (Z.eqb_spec (zsum ns) 0); cbn [andb] in H.
  - destruct l; cbn [negb bind] in H.
    + injection H as <-. rewrite e. simpl. lia.
    + destruct (count_combinations _ _) as [k|] eqn:C; cbn [bind] in H; [|discriminate]. injection H as <-. apply P in C. destruct (Z.eqb_spec k 0); lia.
  - cbn [bind] in H. injection H as <-. destruct (Z.eqb_spec (zsum ns) 0); lia.
Qed.
Section Trees.
  Variables (ord : list course -> list course) (nord : list node -> list node) (cx : ctx).
  Lemma q_estimate_pos q k : q_estimate ord cx q = Ok k -> 1 <= k.
  Proof.
    unfold q_estimate. destruct (get_waive _ _); [intro H; injection H as <-; lia|]. destruct (q_filtered cx q) as [[[data ins] forced]|]; cbn [bind]; [|discriminate].
    match goal with |- bind ?m _ = _ -> _ => destruct m as [acc|] eqn:M; cbn [bind]; [|discriminate] end. intro H. injection H as <-.
    assert (0 <= acc); [|destruct (Z.eqb_spec acc 0); lia].
    assert (G : forall l (f : list course -> res Z) ns, (forall x k, f x = Ok k -> 0 <= k) -> mapr f l = Ok ns -> 0 <= fold_left Z.add ns 0).
    { intros l f ns P F. rewrite add_zsum. apply mapr_Forall2 in F. apply zsum_pos. intros x I. destruct (Forall2_in_r _ _ _ _ F I) as [z [_ C]]. eapply P; eauto. }
    destruct (q_source q); try (injection M as <-; lia).
    all: destruct (mapr as_course data) as [cs|]; cbn [bind] in M; [|discriminate]; cbv zeta in M.
    all: match type of M with bind ?m _ = _ => destruct m as [ns|] eqn:N; cbn [bind] in M; [|discriminate] end; destruct (g_exn _); [discriminate|]; injection M as <-.
    all: eapply G; [|exact N]; cbn beta; cbn [qsource_eqb]; intros x c Hx.
    all: try (destruct (q_estimate_set q x) as [m|] eqn:ES; cbn [bind] in Hx; [apply estimate_set_nonneg in ES|discriminate]).
    all: cbn [bind] in Hx; injection Hx as <-; destruct (q_attempt q); lia.
  Qed.
  Lemma q_bound q k : q_overridden q = waived cx (q_path q) -> q_estimate ord cx q = Ok k -> zlen (g_items (q_solutions ord cx q)) <= k.
  Proof.
    intros O H. assert (P := q_estimate_pos _ _ H). unfold waived in O. destruct (get_waive (cx_exc cx) (q_path q)) eqn:W.
    - unfold q_solutions. rewrite O. unfold zlen. simpl. lia.
    - destruct (q_source q) eqn:SR; try (apply estimate_bounds; auto; fail).
      all: unfold q_solutions; rewrite O; destruct (q_filtered cx q) as [[[data ins] forced]|]; [rewrite SR|]; unfold zlen; simpl; lia.
  Qed.

  Lemma part_items k i items c x : In c items -> part_of c x -> part_of (NCount k i items) x.
  Proof. intros. econstructor; eauto. Qed.
  (** the children of a count that are tried *)
  Lemma kept_nodes k i items (p l : list node) : orderly cx (NCount k i items) -> pot_nodes cx items = Ok p -> NoDup l -> (forall c, In c l -> In c p) ->
    NoDup (map path_of l) ->
    NoDup (map (fun n => join_path (path_of n)) (sort_by_path path_of l)) /\ forall c, In c (sort_by_path path_of l) -> In c items /\ potential cx c = Ok true.
  Proof.
    intros O P ND IN NP. split.
    - apply joins_nodup.
      + assert (T := O _ (pt_self _)). cbn [in_order] in T. intros c d Ic Id. apply (proj1 (in_isort _ _ _)) in Ic. apply (proj1 (in_isort _ _ _)) in Id.
        apply T; eapply pot_nodes_in; eauto.
      + eapply Permutation_NoDup; [apply Permutation_map; symmetry; apply isort_perm|exact NP].
    - intros c I. apply (proj1 (in_isort _ _ _)) in I. eapply pot_nodes_in; eauto.
  Qed.
  Lemma nodup_by_path (l : list node) : NoDup (map path_of l) -> NoDup l.
  Proof. apply NoDup_map_inv. Qed.
  Lemma filter_paths (f : node -> bool) l : NoDup (map path_of l) -> NoDup (map path_of (filter f l)).
  Proof.
    intro H. induction l as [|x l IH]; cbn [filter map] in *; [constructor|]. inversion H as [|? ? N D]; subst. destruct (f x); cbn [map]; auto. constructor; auto.
    intro I. apply N. apply in_map_iff in I. destruct I as [y [E I]]. apply filter_In in I. rewrite <- E. apply in_map. apply I.
  Qed.
  Lemma sort_guess (E : node -> res Z) l : sort_by_path guess_path (map (fun c => (c, E c)) l) = map (fun c => (c, E c)) (sort_by_path path_of l).
  Proof. rewrite sort_map. reflexivity. Qed.
  Lemma sort_child (S : node -> gen node) l : sort_by_path child_path (map (fun c => (c, S c)) l) = map (fun c => (c, S c)) (sort_by_path path_of l).
  Proof. rewrite sort_map. reflexivity. Qed.

  Lemma tree_bound n : orderly cx n -> unrepeated ord cx n -> forall k, estimate ord cx n = Ok k -> zlen (g_items (solutions ord cx n)) <= k.
  Proof.
    induction n as [kd r|kd q|kd i items IH|kd i o IH|kd i t f IHt IHf|kd i c] using node_induction; intros O U k H.
    - cbn [estimate] in H. injection H as <-. assert (L := U _ (pt_self _)). cbn [one_candidate] in L. unfold zlen, c_estimate. lia.
    - cbn [estimate] in H. cbn [solutions gmap g_items]. unfold zlen. rewrite map_length. apply q_bound; auto. apply (O _ (pt_self _)).
    - cbn [estimate solutions] in *. unfold count_estimate, count_solutions in *. destruct (waived cx (n_path i)); [injection H as <-; unfold zlen; simpl; lia|].
      rewrite likely_form in H. rewrite potential_form. destruct (pot_nodes cx items) as [p|] eqn:P; cbn [bind] in *; [|discriminate].
      rewrite sort_guess in H. rewrite sort_child.
      assert (NP := pot_nodes_nodup _ _ _ P). destruct (kept_nodes _ _ _ _ p O P (nodup_by_path _ NP) (fun c I => I) NP) as [J IN].
      apply count_run_le with (E := estimate ord cx); [exact J| |exact H].
      intros c z I E. apply IN in I. destruct I as [I _]. apply IH; auto; intros x PX; [apply O|apply U]; eapply part_items; eauto.
    - cbn [estimate solutions] in *. destruct (waived cx (e_path i)); [injection H as <-; unfold zlen; simpl; lia|].
      destruct o as [x|]; [|injection H as <-; unfold zlen; simpl; lia]. cbn [gmap g_items]. unfold zlen. rewrite map_length.
      apply (IH x eq_refl); auto; intros y PY; [apply O|apply U]; constructor; exact PY.
    - cbn [estimate solutions] in *. destruct (e_result (d_cond i)) as [[|]|].
      + cbn [gmap g_items]. unfold zlen. rewrite map_length. apply IHt; auto; intros y PY; [apply O|apply U]; apply pt_true; exact PY.
      + destruct f as [x|]; [|injection H as <-; unfold zlen; simpl; lia]. cbn [gmap g_items]. unfold zlen. rewrite map_length.
        apply (IHf x eq_refl); auto; intros y PY; [apply O|apply U]; apply pt_false; exact PY.
      + injection H as <-. unfold zlen; simpl; lia.
    - cbn [estimate solutions] in *. injection H as <-. unfold prof_solutions. destruct (waived cx (f_path i)); [unfold zlen; simpl; lia|].
      destruct c as [[kc r]|]; [|unfold zlen; simpl; lia]. destruct (Tree.gnext (c_solutions cx r)); unfold zlen; simpl; lia.
  Qed.
  Lemma top_bound n t : orderly cx n -> unrepeated ord cx n -> forall k, top_estimate ord nord cx n = Ok k -> zlen (g_items (fst (top_solutions ord nord cx t n))) <= k.
  Proof.
    induction n as [kd r|kd q|kd i items IH|kd i o IH|kd i b f IHt IHf|kd i c] using node_induction; intros O U k H;
      try (cbn [top_estimate top_solutions fst] in *; apply tree_bound; auto; fail).
    - cbn [top_estimate top_solutions] in *. unfold top_count_estimate, top_count_solutions in *. clear IH. destruct (waived cx (n_path i)); [injection H as <-; unfold zlen; simpl; lia|].
      rewrite likely_form in H. rewrite potential_form. destruct (pot_nodes cx items) as [p|] eqn:P; cbn [bind] in *; [|discriminate].
      assert (NP := pot_nodes_nodup _ _ _ P). cbv zeta in *.
      assert (B : forall l results other m, (forall c, In c l -> In c p) -> NoDup (map path_of l) ->
        sizes_estimate i (Z.of_nat (List.length items)) (map (fun c => (c, estimate ord cx c)) (sort_by_path path_of l)) = Ok m ->
        zlen (g_items (count_run i (Z.of_nat (List.length items)) (map (fun c => (c, solutions ord cx c)) (sort_by_path path_of l)) results other)) <= m).
      { intros l results other m IN NL E. destruct (kept_nodes _ _ _ _ l O P (nodup_by_path _ NL) IN NL) as [J IN'].
        apply count_run_le with (E := estimate ord cx); [exact J| |exact E].
        intros c z I EC. apply IN' in I. destruct I as [I _]. apply tree_bound; auto; intros x PX; [apply O|apply U]; eapply part_items; eauto. }
      assert (WHOLE : sizes_estimate i (Z.of_nat (List.length items)) (sort_by_path guess_path (map (fun c => (c, estimate ord cx c)) p)) = Ok k ->
        zlen (g_items (count_run i (Z.of_nat (List.length items)) (sort_by_path child_path (map (fun c => (c, solutions ord cx c)) p)) [] (children_set items))) <= k).
      { rewrite sort_guess, sort_child. intro E. apply B; auto. }
      destruct p as [|p0 pr]; [apply WHOLE; exact H|]. destruct (n_audits i) as [|a0 ar]; [|apply WHOLE; exact H].
      remember (p0 :: pr) as p eqn:EP. clear WHOLE.
      assert (M1 : map fst (map (fun c => (c, estimate ord cx c)) p) = p) by (rewrite map_map; apply map_id).
      assert (M2 : map fst (map (fun c => (c, solutions ord cx c)) p) = p) by (rewrite map_map; apply map_id).
      destruct (map (fun c => (c, estimate ord cx c)) p) as [|g0 gr] eqn:G; [rewrite EP in G; discriminate|]. rewrite <- G in *.
      destruct (map (fun c => (c, solutions ord cx c)) p) as [|s0 sr] eqn:S0; [rewrite EP in S0; discriminate|]. rewrite <- S0 in *.
      rewrite M1 in H. rewrite M2. destruct (mapr _ (nord p)) as [ms|]; cbn [bind] in *; [|discriminate].
      destruct (classify ms) as [dis non]. destruct (solve_independent ord cx t (nord dis)) as [[solved t']|]; cbn [bind fst]; [|unfold gfail, zlen; simpl].
      + rewrite filter_map in H. rewrite filter_map. cbn [fst] in *. rewrite sort_guess in H. rewrite sort_child. apply B; auto.
        * intros c I. apply filter_In in I. apply I.
        * apply filter_paths. exact NP.
      + rewrite filter_map in H. cbn [fst] in H. rewrite sort_guess in H.
        eapply Z.le_trans; [|eapply (B (filter (fun c => in_nodes c non) p) [] []); [| |exact H]]; [apply zlen_nonneg| |apply filter_paths; exact NP].
        intros c I. apply filter_In in I. apply I.
    - cbn [top_estimate top_solutions] in *. destruct (e_result (d_cond i)) as [[|]|].
      + assert (X := IHt (fun y PY => O y (pt_true _ _ _ _ _ PY)) (fun y PY => U y (pt_true _ _ _ _ _ PY)) k H).
        destruct (top_solutions ord nord cx t b) as [g t']. cbn [fst gmap g_items] in *. unfold zlen in *. rewrite map_length. exact X.
      + destruct f as [x|]; [|injection H as <-; unfold zlen; simpl; lia].
        assert (X := IHf x eq_refl (fun y PY => O y (pt_false _ _ _ _ _ PY)) (fun y PY => U y (pt_false _ _ _ _ _ PY)) k H).
        destruct (top_solutions ord nord cx t x) as [g t']. cbn [fst gmap g_items] in *. unfold zlen in *. rewrite map_length. exact X.
      + injection H as <-. unfold zlen; simpl; lia.
  Qed.

  Lemma tree_exact n : orderly cx n -> exact_leaves ord cx n -> forall k, estimate ord cx n = Ok k ->
    zlen (g_items (solutions ord cx n)) = k /\ g_exn (solutions ord cx n) = None /\ 1 <= k.
  Proof.
    induction n as [kd r|kd q|kd i items IH|kd i o IH|kd i t f IHt IHf|kd i c] using node_induction; intros O U k H.
    - cbn [estimate] in H. injection H as <-. destruct (U _ (pt_self _)) as [x E]. rewrite E. unfold zlen, c_estimate. cbn [g_items g_exn List.length]. repeat split; lia.
    - cbn [estimate] in H. destruct (U _ (pt_self _)) as [X E]. assert (P := q_estimate_pos _ _ H). rewrite H in E. injection E as ->.
      cbn [solutions gmap g_items g_exn]. unfold zlen. rewrite map_length. repeat split; auto.
    - cbn [estimate solutions] in *. unfold count_estimate, count_solutions in *. destruct (waived cx (n_path i)); [injection H as <-; unfold zlen, gret; cbn [g_items g_exn List.length]; repeat split; lia|].
      rewrite likely_form in H. rewrite potential_form. destruct (pot_nodes cx items) as [p|] eqn:P; cbn [bind] in *; [|discriminate].
      rewrite sort_guess in H. rewrite sort_child.
      assert (NP := pot_nodes_nodup _ _ _ P). destruct (kept_nodes _ _ _ _ p O P (nodup_by_path _ NP) (fun c I => I) NP) as [J IN].
      destruct (count_run_exact (solutions ord cx) (estimate ord cx) i [] (children_set items) (sort_by_path path_of p)) with (len := Z.of_nat (List.length items)) (r := k) as [A [B C]]; auto.
      intros c z I E. apply IN in I. destruct I as [I PT]. destruct (IH c I) with (k := z) as [A [B C]]; auto; intros x PX; [apply O|apply U]; eapply part_items; eauto.
    - cbn [estimate solutions] in *. destruct (waived cx (e_path i)) eqn:W; [injection H as <-; unfold zlen, gret; cbn [g_items g_exn List.length]; repeat split; lia|].
      destruct o as [x|]; [|injection H as <-; unfold zlen, gret; cbn [g_items g_exn List.length]; repeat split; lia].
      destruct (IH x eq_refl) with (k := k) as [A [B C]]; auto; [intros y PY; apply O; constructor; exact PY|intros y PY; apply U; constructor; exact PY|].
      cbn [gmap g_items g_exn]. unfold zlen in *. rewrite map_length. auto.
    - cbn [estimate solutions] in *. destruct (U _ (pt_self _)) as [y0 FY]. destruct (e_result (d_cond i)) as [[|]|] eqn:ER.
      + destruct (IHt (fun y PY => O y (pt_true _ _ _ _ _ PY)) (fun y PY => U y (pt_true _ _ _ _ _ PY)) k H) as [A [B C]].
        cbn [gmap g_items g_exn]. unfold zlen in *. rewrite map_length. auto.
      + destruct f as [x|]; [|injection H as <-; exfalso; destruct FY as [D|x D1 D2]; congruence].
        destruct (IHf x eq_refl (fun y PY => O y (pt_false _ _ _ _ _ PY)) (fun y PY => U y (pt_false _ _ _ _ _ PY)) k H) as [A [B C]].
        cbn [gmap g_items g_exn]. unfold zlen in *. rewrite map_length. auto.
      + exfalso; destruct FY as [D|x D1 D2]; congruence.
    - cbn [estimate] in *. injection H as <-. assert (X := U _ (pt_self _)). cbn [leaf_exact] in X. split; [|split; [exact X|lia]].
      cbn [solutions] in *. unfold prof_solutions in *. destruct (waived cx (f_path i)); [reflexivity|]. destruct c as [[kc r]|]; [|reflexivity]. destruct (Tree.gnext (c_solutions cx r)); [reflexivity|discriminate].
  Qed.

  Lemma top_exact n t : orderly cx n -> exact_leaves ord cx n -> forall k, top_estimate ord nord cx n = Ok k ->
    g_exn (fst (top_solutions ord nord cx t n)) = None -> zlen (g_items (fst (top_solutions ord nord cx t n))) = k.
  Proof.
    induction n as [kd r|kd q|kd i items IH|kd i o IH|kd i b f IHt IHf|kd i c] using node_induction; intros O U k H X;
      try (cbn [top_estimate top_solutions fst] in *; apply tree_exact; auto; fail).
    - cbn [top_estimate top_solutions] in *. unfold top_count_estimate, top_count_solutions in *. clear IH. destruct (waived cx (n_path i)); [injection H as <-; reflexivity|].
      rewrite likely_form in H. rewrite potential_form in *. destruct (pot_nodes cx items) as [p|] eqn:P; cbn [bind] in *; [|discriminate].
      assert (NP := pot_nodes_nodup _ _ _ P). cbv zeta in *.
      assert (B : forall l results other m, (forall c, In c l -> In c p) -> NoDup (map path_of l) ->
        sizes_estimate i (Z.of_nat (List.length items)) (map (fun c => (c, estimate ord cx c)) (sort_by_path path_of l)) = Ok m ->
        zlen (g_items (count_run i (Z.of_nat (List.length items)) (map (fun c => (c, solutions ord cx c)) (sort_by_path path_of l)) results other)) = m).
      { intros l results other m IN NL E. destruct (kept_nodes _ _ _ _ l O P (nodup_by_path _ NL) IN NL) as [J IN'].
        destruct (count_run_exact (solutions ord cx) (estimate ord cx) i results other (sort_by_path path_of l)) with (len := Z.of_nat (List.length items)) (r := m) as [A1 [B1 C1]]; auto.
        intros c z I EC. apply IN' in I. destruct I as [I _]. apply tree_exact; auto; intros x PX; [apply O|apply U]; eapply part_items; eauto. }
      assert (WHOLE : sizes_estimate i (Z.of_nat (List.length items)) (sort_by_path guess_path (map (fun c => (c, estimate ord cx c)) p)) = Ok k ->
        zlen (g_items (count_run i (Z.of_nat (List.length items)) (sort_by_path child_path (map (fun c => (c, solutions ord cx c)) p)) [] (children_set items))) = k).
      { rewrite sort_guess, sort_child. intro E. apply B; auto. }
      destruct p as [|p0 pr]; [apply WHOLE; exact H|]. destruct (n_audits i) as [|a0 ar]; [|apply WHOLE; exact H].
      remember (p0 :: pr) as p eqn:EP. clear WHOLE.
      assert (M1 : map fst (map (fun c => (c, estimate ord cx c)) p) = p) by (rewrite map_map; apply map_id).
      assert (M2 : map fst (map (fun c => (c, solutions ord cx c)) p) = p) by (rewrite map_map; apply map_id).
      destruct (map (fun c => (c, estimate ord cx c)) p) as [|g0 gr] eqn:G; [rewrite EP in G; discriminate|]. rewrite <- G in *.
      destruct (map (fun c => (c, solutions ord cx c)) p) as [|s0 sr] eqn:S0; [rewrite EP in S0; discriminate|]. rewrite <- S0 in *.
      rewrite M1 in H. rewrite M2 in *. destruct (mapr _ (nord p)) as [ms|]; cbn [bind] in *; [|discriminate].
      destruct (classify ms) as [dis non]. destruct (solve_independent ord cx t (nord dis)) as [[solved t']|]; cbn [bind fst] in *; [|discriminate].
      rewrite filter_map in H. rewrite filter_map. cbn [fst] in *. rewrite sort_guess in H. rewrite sort_child. apply B; auto.
      + intros c I. apply filter_In in I. apply I.
      + apply filter_paths. exact NP.
    - cbn [top_estimate top_solutions] in *. destruct (U _ (pt_self _)) as [y0 FY]. destruct (e_result (d_cond i)) as [[|]|] eqn:ER.
      + assert (Y := IHt (fun y PY => O y (pt_true _ _ _ _ _ PY)) (fun y PY => U y (pt_true _ _ _ _ _ PY)) k H).
        destruct (top_solutions ord nord cx t b) as [g t']. cbn [fst gmap g_items g_exn] in *. unfold zlen in *. rewrite map_length. auto.
      + destruct f as [x|]; [|exfalso; destruct FY as [D|x D1 D2]; congruence].
        assert (Y := IHf x eq_refl (fun y PY => O y (pt_false _ _ _ _ _ PY)) (fun y PY => U y (pt_false _ _ _ _ _ PY)) k H).
        destruct (top_solutions ord nord cx t x) as [g t']. cbn [fst gmap g_items g_exn] in *. unfold zlen in *. rewrite map_length. auto.
      + exfalso; destruct FY as [D|x D1 D2]; congruence.
  Qed.
End Trees.

(** ** areas *)
Section Areas.
  Variables (ord : list course -> list course) (nord : list node -> list node) (u : study) (st : student) (es : list exc).
  Lemma from_bound lts e ns : (forall lt, In lt lts -> orderly (limited_ctx u st es lt) (u_result u) /\ unrepeated ord (limited_ctx u st es lt) (u_result u)) ->
    mapr (fun lt => top_estimate ord nord (limited_ctx u st es lt) (u_result u)) lts = Ok ns ->
    forall t, zlen (g_items (solutions_from ord nord u st es t lts e)) <= zsum ns /\ 0 <= zsum ns.
  Proof.
    revert ns. induction lts as [|lt lts IH]; intros ns OK M t; cbn [mapr] in M.
    - injection M as <-. cbn. unfold zlen. simpl. lia.
    - destruct (top_estimate _ _ _ _) as [k|] eqn:TE; cbn [bind] in M; [|discriminate]. destruct (mapr _ lts) as [ks|] eqn:MR; cbn [bind] in M; [|discriminate]. injection M as <-.
      destruct (OK lt (or_introl eq_refl)) as [O U]. assert (B := top_bound ord nord _ _ t O U _ TE). cbn [solutions_from zsum].
      assert (R := IH ks (fun l I => OK l (or_intror I)) eq_refl).
      destruct (top_solutions ord nord (limited_ctx u st es lt) t (u_result u)) as [g t1]. cbn [fst] in B.
      destruct g as [[|s ss] [x|]]; cbn [g_items] in B.
      + unfold gfail, zlen in *. cbn [g_items List.length] in *. specialize (R []). lia.
      + specialize (R t1). unfold zlen in *. cbn [List.length] in B. lia.
      + specialize (R []). unfold gapp. cbn [g_exn g_items]. unfold zlen in *. cbn [List.length] in *. rewrite map_length. lia.
      + specialize (R []). unfold gapp. cbn [g_exn g_items]. unfold zlen in *. rewrite app_length. cbn [List.length] in *. rewrite map_length. lia.
  Qed.
  Lemma from_exact lts e ns : (forall lt, In lt lts -> orderly (limited_ctx u st es lt) (u_result u) /\ exact_leaves ord (limited_ctx u st es lt) (u_result u)) ->
    mapr (fun lt => top_estimate ord nord (limited_ctx u st es lt) (u_result u)) lts = Ok ns ->
    forall t, g_exn (solutions_from ord nord u st es t lts e) = None -> zlen (g_items (solutions_from ord nord u st es t lts e)) = zsum ns.
  Proof.
    revert ns. induction lts as [|lt lts IH]; intros ns OK M t X; cbn [mapr] in M.
    - injection M as <-. reflexivity.
    - destruct (top_estimate _ _ _ _) as [k|] eqn:TE; cbn [bind] in M; [|discriminate]. destruct (mapr _ lts) as [ks|] eqn:MR; cbn [bind] in M; [|discriminate]. injection M as <-.
      destruct (OK lt (or_introl eq_refl)) as [O U]. assert (B := top_exact ord nord _ _ t O U _ TE). cbn [solutions_from zsum] in *.
      assert (R := IH ks (fun l I => OK l (or_intror I)) eq_refl).
      destruct (top_solutions ord nord (limited_ctx u st es lt) t (u_result u)) as [g t1]. cbn [fst] in B.
      destruct g as [[|s ss] [x|]]; cbn [g_items g_exn] in B; try discriminate X.
      + specialize (R t1 X). specialize (B eq_refl). unfold zlen in *. cbn [List.length] in B. lia.
      + specialize (B eq_refl). unfold gapp in *. cbn [g_exn g_items] in *. specialize (R [] X). unfold zlen in *. rewrite app_length. cbn [List.length] in *. rewrite map_length. lia.
  Qed.
End Areas.
