From Coq Require Import List ZArith QArith Bool String Lia Sorted Permutation.
From Verif Require Import Prelude Dec Status Course Claims Exceptions Op Context CondExpr Paths Predicate Limit Apply Assertion Query CourseRule Tree LazyRun.
From Verif Require LimitProofs.
From Verif Require Import ListFacts AssertionSpec AssertionProofs PathsSpec PathsProofs ExceptionsProofs EnumSpec EnumProofs QuerySpec QueryProofs CourseRuleSpec CourseRuleProofs TreeSpec TreeProofs TreeSolSpec.
Import ListNotations.
Local Open Scope list_scope.

(** ** generators *)
Lemma gflat_list_none {A B} (f : A -> gen B) l e : g_exn (gflat_list f l e) = None -> e = None /\ forall x, In x l -> g_exn (f x) = None.
Proof.
  induction l as [|x t IH]; cbn [gflat_list]; [intro H; split; [exact H|intros ? []]|]. unfold gapp. destruct (g_exn (f x)) eqn:E; cbn [g_exn]; [congruence|].
  intro H. destruct (IH H) as [-> IH']. split; auto. intros y [<-|I]; auto.
Qed.
Lemma gflat_none_in {A B} (f : A -> gen B) g y : g_exn (gflat f g) = None ->
  (In y (g_items (gflat f g)) <-> exists x, In x (g_items g) /\ In y (g_items (f x))).
Proof.
  unfold gflat. intro N. apply gflat_list_none in N. destruct N as [E N]. split; [apply gflat_in|]. intros [x [I J]]. eapply gflat_in_conv; eauto.
Qed.
Lemma gflat_none {A B} (f : A -> gen B) g : g_exn g = None -> (forall x, In x (g_items g) -> g_exn (f x) = None) -> g_exn (gflat f g) = None.
Proof. unfold gflat. intros E N. rewrite gflat_exn; auto. Qed.

(** ** the product *)
Lemma first_failure_none {A} (gs : list (gen A)) : first_failure gs = None <-> forall g, In g gs -> g_items g <> [].
Proof.
  induction gs as [|[[|x l] [e|]] gs IH]; cbn [first_failure].
  - split; [intros _ g []|auto].
  - split; [discriminate|]. intro H. destruct (H _ (or_introl eq_refl)). reflexivity.
  - split; [discriminate|]. intro H. destruct (H _ (or_introl eq_refl)). reflexivity.
  - rewrite IH. split; [intros H g [<-|I]; [discriminate|auto]|intros H g I; apply H; simpl; auto].
  - rewrite IH. split; [intros H g [<-|I]; [discriminate|auto]|intros H g I; apply H; simpl; auto].
Qed.
Lemma product_gen_items {A} (gs : list (gen A)) : (forall g, In g gs -> g_items g <> []) -> g_exn (product_gen gs) = None ->
  (forall g, In g gs -> g_exn g = None) /\ g_items (product_gen gs) <> [] /\
  forall t, In t (g_items (product_gen gs)) <-> Forall2 (fun g x => In x (g_items g)) gs t.
Proof.
  induction gs as [|g gs IH]; intros NE N; cbn [product_gen] in *.
  - split; [intros ? []|]. split; [discriminate|]. cbn. intro t. split; [intros [<-|[]]; constructor|intro H; inversion H; auto].
  - assert (NG := N). unfold gflat in NG. apply gflat_list_none in NG. destruct NG as [EG EF].
    assert (G := NE g (or_introl eq_refl)). destruct (g_items g) as [|x0 rest] eqn:GI; [congruence|].
    assert (EP : g_exn (product_gen gs) = None) by (apply (EF x0); simpl; auto).
    destruct (IH (fun g I => NE g (or_intror I)) EP) as [I1 [I2 I3]].
    assert (M : forall t, In t (g_items (gflat (fun x => gmap (cons x) (product_gen gs)) g)) <-> Forall2 (fun g x => In x (g_items g)) (g :: gs) t).
    { intro t. rewrite (gflat_none_in _ _ _ N). unfold gmap. cbn [g_items]. split.
      - intros [x [Ix J]]. apply in_map_iff in J. destruct J as [t' [<- J]]. constructor; auto. apply I3. exact J.
      - intro F. inversion F as [|? x ? t' Ix F']; subst. exists x. split; auto. apply in_map. apply I3. exact F'. }
    split; [intros h [<-|I]; auto|]. split; auto.
    destruct (g_items (product_gen gs)) as [|t0 ts]; [congruence|]. intro E.
    assert (X : In (x0 :: t0) (g_items (gflat (fun x => gmap (cons x) (product_gen gs)) g))).
    { apply M. constructor; [rewrite GI; simpl; auto|]. apply I3. simpl. auto. }
    rewrite E in X. destruct X.
Qed.
Lemma lazy_run_items {A} (gs : list (gen A)) : g_exn (lazy_run gs) = None ->
  (forall g, In g gs -> g_exn g = None /\ g_items g <> []) /\ g_items (lazy_run gs) <> [] /\
  forall t, In t (g_items (lazy_run gs)) <-> Forall2 (fun g x => In x (g_items g)) gs t.
Proof.
  unfold lazy_run. destruct (first_failure gs) eqn:F; [discriminate|]. intro N. assert (NE := proj1 (first_failure_none gs) F).
  destruct (product_gen_items gs NE N) as [A1 [A2 A3]]. auto.
Qed.
Lemma lazy_run_none {A} (gs : list (gen A)) : (forall g, In g gs -> g_exn g = None /\ g_items g <> []) -> g_exn (lazy_run gs) = None.
Proof.
  intro H. unfold lazy_run. rewrite (proj2 (first_failure_none gs)); [|intros; apply H; auto].
  induction gs as [|g gs IH]; cbn [product_gen]; [reflexivity|]. apply gflat_none; [apply H; simpl; auto|]. intros x _. unfold gmap. cbn [g_exn]. apply IH. intros; apply H; simpl; auto.
Qed.

(** ** the selections of a count *)
Definition unselected (selected : list child) (other : list node) : list node :=
  filter (fun n => negb (path_in (path_of n) (map child_path selected))) other.
Definition built (i : count_info) (results other : list node) (selected : list child) (sols : list node) : node :=
  count_solution i (sort_by_path path_of (sols ++ unselected selected other ++ results)) false.
Definition solves (selected : list child) (sols : list node) : Prop := Forall2 (fun c x => In x (g_items (snd c))) selected sols.
Lemma Forall2_map_l {A B C} (f : A -> B) (R : B -> C -> Prop) l r : Forall2 R (map f l) r <-> Forall2 (fun a => R (f a)) l r.
Proof. revert r. induction l as [|x l IH]; intros [|y r]; cbn; split; intro H; inversion H; subst; constructor; auto; apply IH; auto. Qed.
Lemma solves_run selected sols : Forall2 (fun g x => In x (g_items g)) (map snd selected) sols <-> solves selected sols.
Proof. apply Forall2_map_l. Qed.
Lemma filter_all_true {A} (f : A -> bool) l : (forall x, In x l -> f x = true) -> filter f l = l.
Proof. induction l as [|x l IH]; cbn; intro H; [reflexivity|]. rewrite H by auto. rewrite IH; auto. Qed.
Lemma make_combinations_in i items results other size s : g_exn (make_combinations i items results other size) = None ->
  (In s (g_items (make_combinations i items results other size)) <->
   exists selected sols, subseq selected items /\ Z.of_nat (List.length selected) = size /\ solves selected sols /\ s = built i results other selected sols).
Proof.
  intro N. unfold make_combinations in *. rewrite (gflat_none_in _ _ _ N).
  assert (N' := N). unfold gflat in N'. apply gflat_list_none in N'. destruct N' as [E N'].
  unfold combinations in *. destruct (size <? 0)%Z eqn:L; [discriminate|]. apply Z.ltb_ge in L. cbn [gret g_items] in *.
  split.
  - intros [sel [I J]]. assert (NS := N' sel I). cbn [g_exn gmap] in NS. unfold gmap in J. cbn [g_items] in J. apply in_map_iff in J. destruct J as [sols [<- J]].
    apply in_combs in I. destruct I as [I LEN]. exists sel, sols. split; auto. split; [lia|]. split; [|reflexivity].
    apply (proj2 (proj2 (lazy_run_items _ NS))) in J. apply solves_run in J. exact J.
  - intros [sel [sols [I [LEN [S ->]]]]]. exists sel. assert (IC : In sel (combs (Z.to_nat size) items)) by (apply in_combs; split; auto; lia). split; auto.
    assert (NS := N' sel IC). cbn [g_exn gmap] in NS. unfold gmap. cbn [g_items]. apply in_map_iff. exists sols. split; [reflexivity|].
    apply (proj2 (proj2 (lazy_run_items _ NS))). apply solves_run. exact S.
Qed.
Lemma make_combinations_some i items results other size : (0 <= size <= Z.of_nat (List.length items))%Z ->
  g_exn (make_combinations i items results other size) = None -> g_items (make_combinations i items results other size) <> [].
Proof.
  intros L N E. assert (M := make_combinations_in i items results other size). 
  assert (C : combs (Z.to_nat size) items <> []) by (apply combs_nonempty; lia).
  destruct (combs (Z.to_nat size) items) as [|sel rest] eqn:CE; [congruence|].
  assert (I : In sel (combs (Z.to_nat size) items)) by (rewrite CE; simpl; auto).
  assert (N' := N). unfold make_combinations, gflat in N'. apply gflat_list_none in N'. destruct N' as [_ N'].
  assert (CC : combinations items size = gret (combs (Z.to_nat size) items)) by (unfold combinations; destruct (size <? 0)%Z eqn:LT; [apply Z.ltb_lt in LT; lia|reflexivity]).
  rewrite CC in N'. assert (NS := N' sel I). cbn [g_exn gmap] in NS. destruct (lazy_run_items _ NS) as [_ [NE IFF]].
  destruct (g_items (lazy_run (map snd sel))) as [|sols r] eqn:LR; [congruence|].
  assert (X := proj2 (M (built i results other sel sols) N)). rewrite E in X. apply X. exists sel, sols. apply in_combs in I. destruct I as [I LEN].
  split; auto. split; [lia|]. split; [|reflexivity]. apply solves_run. apply IFF. simpl. auto.
Qed.
Lemma make_combinations_too_many i items results other size : (Z.of_nat (List.length items) < size)%Z -> make_combinations i items results other size = gnil.
Proof.
  intro L. unfold make_combinations, combinations. destruct (size <? 0)%Z eqn:LT; [apply Z.ltb_lt in LT; lia|]. rewrite combs_too_long by lia. reflexivity.
Qed.
Definition count_sizes (i : count_info) (len : Z) : list Z := zrange (n_count i) (if n_at_most i then (n_count i + 1)%Z else (len + 1)%Z).
Lemma gflat_gnil {A B} (f : A -> gen B) l : (forall x, In x l -> f x = gnil) -> gflat f (gret l) = gnil.
Proof. unfold gflat, gret. cbn [g_items g_exn]. induction l as [|x l IH]; intro H; cbn [gflat_list]; [reflexivity|]. rewrite H by (simpl; auto). rewrite IH by (intros; apply H; simpl; auto). reflexivity. Qed.
Lemma count_run_ok i len items results other s :
  (0 <= n_count i)%Z -> (Z.of_nat (List.length items) <= len)%Z -> g_exn (count_run i len items results other) = None ->
  (In s (g_items (count_run i len items results other)) <->
   exists selected sols, subseq selected items /\ fits (n_count i) (n_at_most i) (List.length items) (List.length selected) /\
     solves selected sols /\ s = built i results other selected sols) /\
  g_items (count_run i len items results other) <> [].
Proof.
  intros C0 LL. unfold count_run. fold (count_sizes i len). set (run := gflat _ _).
  assert (SZ : forall z, In z (count_sizes i len) <-> (n_count i <= z)%Z /\ (if n_at_most i then z = n_count i else (z <= len)%Z)).
  { intro z. unfold count_sizes. destruct (n_at_most i); rewrite LimitProofs.zrange_in; lia. }
  destruct (Z.le_gt_cases (n_count i) (Z.of_nat (List.length items))) as [LE|GT].
  - assert (NE : g_exn run = None -> g_items run <> []).
    { intros N E. assert (N' := N). unfold run, gflat in N'. apply gflat_list_none in N'. destruct N' as [_ N']. cbn [gret g_items] in N'.
      assert (I : In (n_count i) (count_sizes i len)) by (apply SZ; destruct (n_at_most i); lia).
      assert (X := make_combinations_some i items results other (n_count i) ltac:(lia) (N' _ I)).
      destruct (g_items (make_combinations i items results other (n_count i))) as [|y r] eqn:MC; [congruence|].
      assert (Y : In y (g_items run)) by (apply (gflat_none_in _ _ _ N); exists (n_count i); split; [exact I|rewrite MC; simpl; auto]). rewrite E in Y. destruct Y. }
    assert (X : forall g : gen node, match run with Gen [] None => g | _ => run end = run).
    { intro g. destruct run as [[|y r] [e|]] eqn:R; try reflexivity. destruct (NE eq_refl). reflexivity. }
    cbv zeta. rewrite X. intro N2. split; [|apply NE; exact N2]. clear X.
    assert (N' := N2). unfold run, gflat in N'. apply gflat_list_none in N'. destruct N' as [_ N']. cbn [gret g_items] in N'.
    unfold run. rewrite (gflat_none_in _ _ _ N2). cbn [gret g_items]. split.
    + intros [z [I J]]. apply make_combinations_in in J; [|auto]. destruct J as [sel [sols [S [L [SO E]]]]]. exists sel, sols. split; auto. split; auto.
      apply SZ in I. destruct I as [I1 I2]. left. assert (SL := subseq_length _ _ S). split; [lia|]. split; [lia|]. intro AM. rewrite AM in I2. lia.
    + intros [sel [sols [S [F [SO E]]]]]. exists (Z.of_nat (List.length sel)). assert (SL := subseq_length _ _ S).
      assert (I : In (Z.of_nat (List.length sel)) (count_sizes i len)).
      { apply SZ. destruct F as [[F1 [F2 F3]]|[F1 F2]]; [|lia]. split; auto. destruct (n_at_most i); [apply F3; auto|lia]. }
      split; auto. apply make_combinations_in; [auto|]. exists sel, sols. auto.
  - assert (R : run = gnil).
    { unfold run. apply gflat_gnil. intros z I. apply make_combinations_too_many. apply SZ in I. lia. }
    rewrite R. cbn [gnil].
    assert (ONLY : forall sel m, subseq sel items -> fits (n_count i) (n_at_most i) (List.length items) (List.length sel) -> m = List.length items -> List.length sel = m).
    { intros sel m S [[F1 [F2 F3]]|[F1 F2]] ->; lia. }
    destruct items as [|c items'].
    + intros _. split; [|discriminate]. cbn [gret g_items In]. split.
      * intros [<-|[]]. exists [], []. split; [constructor|]. split; [right; split; [exact GT|reflexivity]|]. split; [constructor|].
        unfold built, unselected. cbn [app map]. f_equal. f_equal. f_equal. symmetry. rewrite filter_all_true; auto.
      * intros [sel [sols [S [F [SO ->]]]]]. inversion S; subst. inversion SO; subst. left. unfold built, unselected. cbn [app map]. f_equal. f_equal. f_equal. symmetry. rewrite filter_all_true; auto.
    + set (all := make_combinations _ _ _ _ _) in *. cbv zeta. intro N.
      assert (NA : g_exn all = None) by (destruct all as [[|y r] [e|]]; auto).
      assert (NE : g_items all <> []) by (apply make_combinations_some; [lia|exact NA]).
      assert (X : match all with Gen [] None => gret [count_solution i (sort_by_path path_of (other ++ results)) false] | _ => all end = all) by (destruct all as [[|y r] [e|]]; auto; destruct NE; reflexivity).
      rewrite X. split; [|exact NE]. unfold all. rewrite (make_combinations_in _ _ _ _ _ _ NA).
      split; intros [sel [sols [S [L [SO E]]]]]; exists sel, sols; (split; [exact S|]); (split; [|auto]).
      * right. split; [lia|lia].
      * rewrite (ONLY sel _ S L eq_refl). reflexivity.
Qed.

(** ** solutions keep the path *)
Lemma c_solutions_path cx r s : In s (g_items (c_solutions cx r)) -> r_path s = r_path r.
Proof.
  rewrite c_solutions_form. destruct (_ || _)%bool; [intros [<-|[]]; reflexivity|].
  assert (O : forall s, In s (g_items (offered cx r)) -> r_path s = r_path r).
  { intros x I. unfold offered, gapp in I.
    assert (J : In x (g_items (c_inserts cx r (get_inserts (cx_exc cx) (r_path r)))) \/ In x (map (fun c => c_solution r (Some c) false false false) (filter (fun c => negb (c_skips r c)) (g_items (find_courses cx r))))).
    { destruct (g_exn (c_inserts _ _ _)); [auto|]. cbn [g_items] in I. rewrite in_app_iff in I. exact I. }
    destruct J as [J|J]; [apply inserts_items in J; destruct J as [y [c [_ [_ [_ ->]]]]]; reflexivity|]. apply in_map_iff in J. destruct J as [c [<- _]]. reflexivity. }
  destruct (offered cx r) as [[|x t] [e|]]; intro I; auto. destruct I as [<-|[]]. reflexivity.
Qed.
Lemma q_solutions_path ord cx q s : In s (g_items (q_solutions ord cx q)) -> q_path s = q_path q.
Proof.
  unfold q_solutions. destruct (q_overridden q); [intros [<-|[]]; reflexivity|]. destruct (q_filtered cx q) as [[[data ins] forced]|]; [|intros []].
  destruct (q_source q); try (intros [<-|[]]; reflexivity). destruct (mapr as_course data); [|intros []].
  destruct (gflat _ _) as [[|x t] [e|]]; cbn [gmap g_items gret]; intro I; [destruct I|destruct I as [<-|[]]; reflexivity| |];
    (apply in_map_iff in I; destruct I as [o [<- _]]; reflexivity).
Qed.
Lemma count_run_shape i len items results other s : In s (g_items (count_run i len items results other)) ->
  exists out, s = count_solution i out false.
Proof.
  assert (M : forall z s, In s (g_items (make_combinations i items results other z)) -> exists out, s = count_solution i out false).
  { intros z x I. unfold make_combinations in I. apply gflat_in in I. destruct I as [sel [_ I]]. cbn [gmap g_items] in I. apply in_map_iff in I. destruct I as [o [<- _]]. eauto. }
  unfold count_run. set (run := gflat _ _).
  assert (R : forall s, In s (g_items run) -> exists out, s = count_solution i out false).
  { intros x I. unfold run in I. apply gflat_in in I. destruct I as [z [_ I]]. eauto. }
  destruct run as [[|x t] [e|]]; auto; cbv zeta. destruct items as [|c items']; [intros [<-|[]]; eauto|].
  specialize (M (Z.of_nat (List.length (c :: items')))). destruct (make_combinations _ _ _ _ _) as [[|x t] [e|]]; auto. intros [<-|[]]. eauto.
Qed.
Lemma solutions_keep ord cx n s : In s (g_items (solutions ord cx n)) -> path_of s = path_of n /\ kind_of s = KSol.
Proof.
  destruct n as [k r|k q|k i items|k i result|k i t f|k i c]; cbn [solutions].
  - cbn [gmap g_items]. intro I. apply in_map_iff in I. destruct I as [x [<- I]]. split; auto. cbn. eapply c_solutions_path; eauto.
  - cbn [gmap g_items]. intro I. apply in_map_iff in I. destruct I as [x [<- I]]. split; auto. cbn. eapply q_solutions_path; eauto.
  - unfold count_solutions. destruct (waived cx (n_path i)); [intros [<-|[]]; auto|]. destruct (potential_children _ _); [|intros []].
    intro I. apply count_run_shape in I. destruct I as [o ->]. auto.
  - destruct (waived cx (e_path i)); [intros [<-|[]]; auto|]. destruct result; [|intros [<-|[]]; auto]. cbn [gmap g_items]. intro I. apply in_map_iff in I. destruct I as [x [<- I]]. auto.
  - destruct (e_result (d_cond i)) as [[|]|]; [|destruct f|]; try (intros []; fail); cbn [gmap g_items]; intro I; apply in_map_iff in I; destruct I as [x [<- I]]; auto.
  - unfold prof_solutions. destruct (waived cx (f_path i)); [intros [<-|[]]; auto|]. destruct c as [[k' r]|]; [|intros [<-|[]]; auto].
    destruct (gnext _); [|intros []]. intros [<-|[]]; auto.
Qed.

(** ** siblings *)
Lemma same_sibling items x y : NoDup (map path_of items) -> In x items -> In y items -> path_of x = path_of y -> x = y.
Proof.
  induction items as [|a l IH]; cbn; [intros _ []|]. intro ND. inversion ND as [|? ? NI ND']; subst. intros [->|Ix] [->|Iy] E; auto.
  - destruct NI. rewrite E. apply in_map. auto.
  - destruct NI. rewrite <- E. apply in_map. auto.
Qed.
Lemma path_in_iff p l : path_in p l = true <-> In p l.
Proof.
  unfold path_in, same_path. rewrite existsb_exists. split; [intros [x [I E]]; apply path_eqb_iff in E; subst; auto|intro I; exists p; split; auto; apply path_eqb_iff; auto].
Qed.
Lemma dedup_by {A} (f : A -> path) l : NoDup (map f l) -> dedup (fun a b => same_path (f a) (f b)) l = l.
Proof.
  induction l as [|x l IH]; cbn [dedup map]; intro ND; [reflexivity|]. inversion ND as [|? ? NI ND']; subst. rewrite IH by auto. f_equal.
  apply filter_all_true. intros y I. apply negb_true_iff. unfold same_path. apply path_eqb_neq. intro E. apply NI. rewrite E. apply in_map. exact I.
Qed.
Lemma NoDup_map_filter {A B} (f : A -> B) (p : A -> bool) l : NoDup (map f l) -> NoDup (map f (filter p l)).
Proof.
  induction l as [|x l IH]; cbn; intro ND; [constructor|]. inversion ND as [|? ? NI ND']; subst. destruct (p x); cbn; auto. constructor; auto.
  intro I. apply NI. apply in_map_iff in I. destruct I as [y [E I]]. apply filter_In in I. rewrite <- E. apply in_map. apply I.
Qed.
Lemma sorted_before_unique l1 l2 : NoDup (map path_of l1) -> Permutation l1 l2 ->
  StronglySorted (fun a b => before (path_of a) (path_of b)) l1 -> StronglySorted (fun a b => before (path_of a) (path_of b)) l2 -> l1 = l2.
Proof.
  intros ND P S1 S2. assert (W : forall l, StronglySorted (fun a b => before (path_of a) (path_of b)) l -> StronglySorted (fun a b => path_of a = path_of b \/ before (path_of a) (path_of b)) l).
  { intros l S. induction S as [|a l S IH F]; constructor; auto. eapply Forall_impl; [|exact F]. auto. }
  apply (sorted_unique path_of); auto. intros x y Ix Iy. apply (same_sibling l1); auto.
Qed.

(** the children of a rule split into those chosen and the others *)
Lemma split_perm items chosen : NoDup (map path_of items) -> NoDup chosen -> (forall c, In c chosen -> In c items) ->
  Permutation items (chosen ++ filter (fun n => negb (path_in (path_of n) (map path_of chosen))) items).
Proof.
  intros ND NC INC. apply NoDup_Permutation; [apply NoDup_map_inv in ND; exact ND| |].
  - apply NoDup_app; [exact NC|apply NoDup_filter; apply NoDup_map_inv in ND; exact ND|].
    intros x I J. apply filter_In in J. destruct J as [_ J]. apply negb_true_iff in J. assert (T : path_in (path_of x) (map path_of chosen) = true) by (apply path_in_iff, in_map; exact I). congruence.
  - intro x. rewrite in_app_iff, filter_In. split.
    + intro I. destruct (path_in (path_of x) (map path_of chosen)) eqn:P; [|auto]. left. apply path_in_iff in P. apply in_map_iff in P. destruct P as [y [E J]].
      rewrite <- (same_sibling items y x ND (INC y J) I E). exact J.
    + intros [I|[I _]]; auto.
Qed.

(** what stands for each child, as a function *)
Definition pick (pairs : list (node * node)) (c : node) : node :=
  match find (fun p => path_eqb (path_of (fst p)) (path_of c)) pairs with Some p => snd p | None => c end.
Lemma pick_map chosen sols : NoDup (map path_of chosen) -> List.length chosen = List.length sols -> map (pick (combine chosen sols)) chosen = sols.
Proof.
  revert sols. induction chosen as [|c t IH]; intros [|x sols] ND L; cbn in L; try discriminate; [reflexivity|]. cbn [map combine]. inversion ND as [|? ? NI ND']; subst.
  f_equal; [unfold pick; cbn [find fst]; rewrite path_eqb_refl; reflexivity|]. rewrite <- (IH sols) at 2; auto. apply map_ext_in. intros d I.
  unfold pick. cbn [find fst]. replace (path_eqb (path_of c) (path_of d)) with false; [reflexivity|]. symmetry. apply path_eqb_neq. intro E. apply NI. rewrite E. apply in_map. exact I.
Qed.
Lemma pick_other chosen sols c : ~ In (path_of c) (map path_of chosen) -> pick (combine chosen sols) c = c.
Proof.
  intro N. unfold pick. destruct (find _ _) as [[d x]|] eqn:F; [|reflexivity]. apply find_some in F. destruct F as [I E]. apply path_eqb_iff in E. cbn in E.
  destruct N. rewrite <- E. apply in_combine_l in I. apply in_map. exact I.
Qed.
Lemma Forall2_len {A B} (R : A -> B -> Prop) l r : Forall2 R l r -> List.length l = List.length r.
Proof. induction 1; cbn; auto. Qed.
Lemma Forall2_combine {A B} (R : A -> B -> Prop) l r a b : Forall2 R l r -> In (a, b) (combine l r) -> R a b.
Proof. induction 1 as [|x y l r H F IH]; cbn; [intros []|]. intros [E|I]; [injection E as <- <-; auto|auto]. Qed.
Lemma pick_in chosen sols c : NoDup (map path_of chosen) -> List.length chosen = List.length sols -> In c chosen ->
  In (c, pick (combine chosen sols) c) (combine chosen sols).
Proof.
  intros ND L I. assert (M := pick_map chosen sols ND L). set (g := pick (combine chosen sols)) in *. clearbody g. subst sols. clear - I.
  induction chosen as [|d t IH]; [destruct I|]. cbn. destruct I as [->|I]; auto.
Qed.
Lemma Forall2_map_r {A B} (R : A -> B -> Prop) (g : A -> B) l : (forall x, In x l -> R x (g x)) -> Forall2 R l (map g l).
Proof. induction l as [|x l IH]; cbn; intro H; constructor; auto. Qed.
Lemma sub_paths items chosen : NoDup (map path_of items) -> NoDup chosen -> (forall c, In c chosen -> In c items) -> NoDup (map path_of chosen).
Proof.
  intros ND NC INC. induction chosen as [|c t IH]; cbn; [constructor|]. inversion NC as [|? ? NI NC']; subst. constructor; [|apply IH; auto; intros; apply INC; simpl; auto].
  intro I. apply in_map_iff in I. destruct I as [d [E I]]. apply NI. rewrite (same_sibling items c d); auto; apply INC; simpl; auto.
Qed.
Section Assemble.
  Variable ord : list course -> list course.
  Variable cx : ctx.
  Variable items chosen : list node.
  Hypothesis SB : siblings items.
  Hypothesis NC : NoDup chosen.
  Hypothesis INC : forall c, In c chosen -> In c items.
  Let rest := filter (fun n => negb (path_in (path_of n) (map path_of chosen))) items.
  Let sols_of (c x : node) := In x (g_items (solutions ord cx c)).

  Lemma rest_iff c : In c items -> (path_in (path_of c) (map path_of chosen) = true <-> In c chosen).
  Proof.
    intro I. rewrite path_in_iff. split; [|apply in_map]. intro J. apply in_map_iff in J. destruct J as [d [E J]]. rewrite <- (same_sibling items d c); auto. apply SB.
  Qed.
  Lemma assemble sols : Forall2 sols_of chosen sols ->
    exists l, Forall2 (stands ord cx chosen) items l /\ Permutation l (sols ++ rest).
  Proof.
    intro F. assert (NP := sub_paths items chosen (proj1 SB) NC INC). assert (L := Forall2_len _ _ _ F).
    exists (map (pick (combine chosen sols)) items). split.
    - apply Forall2_map_r. intros c I. destruct (path_in (path_of c) (map path_of chosen)) eqn:P.
      + apply rest_iff in P; auto. left. split; auto. apply (Forall2_combine _ _ _ _ _ F). apply pick_in; auto.
      + right. assert (NI : ~ In c chosen) by (intro J; apply rest_iff in J; auto; congruence). split; auto. apply pick_other. intro J. apply path_in_iff in J. congruence.
    - rewrite (Permutation_map (pick (combine chosen sols)) (split_perm items chosen (proj1 SB) NC INC)). rewrite map_app, pick_map by auto.
      apply Permutation_app_head. fold rest. rewrite <- (map_id rest) at 2. erewrite map_ext_in; [reflexivity|]. intros c I. apply pick_other.
      unfold rest in I. apply filter_In in I. destruct I as [_ I]. apply negb_true_iff in I. intro J. apply path_in_iff in J. congruence.
  Qed.
  (** and back, for the chosen ones in any order *)
  Lemma stand_path c x : stands ord cx chosen c x -> path_of x = path_of c.
  Proof. intros [[_ I]|[_ ->]]; auto. apply solutions_keep in I. apply I. Qed.
End Assemble.
Lemma stands_paths ord cx chosen items l : Forall2 (stands ord cx chosen) items l -> map path_of l = map path_of items.
Proof. intro F. induction F as [|c x t l S F IH]; cbn; [reflexivity|]. rewrite (stand_path _ _ _ _ _ S), IH. reflexivity. Qed.
Lemma pick_stands ord cx items chosen l : NoDup (map path_of items) -> Forall2 (stands ord cx chosen) items l ->
  map (pick (combine items l)) items = l /\ forall c, In c items -> stands ord cx chosen c (pick (combine items l) c).
Proof.
  intros ND F. assert (L := Forall2_len _ _ _ F). split; [apply pick_map; auto|]. intros c I. apply (Forall2_combine _ _ _ _ _ F). apply pick_in; auto.
Qed.
Lemma disassemble ord cx items chosen l : siblings items -> NoDup chosen -> (forall c, In c chosen -> In c items) ->
  Forall2 (stands ord cx chosen) items l ->
  exists sols, Forall2 (fun c x => In x (g_items (solutions ord cx c))) chosen sols /\
    Permutation l (sols ++ filter (fun n => negb (path_in (path_of n) (map path_of chosen))) items).
Proof.
  intros SB NC INC F. destruct (pick_stands ord cx items chosen l (proj1 SB) F) as [M S]. set (g := pick (combine items l)) in *. exists (map g chosen). split.
  - apply Forall2_map_r. intros c I. destruct (S c (INC c I)) as [[_ J]|[N _]]; [exact J|contradiction].
  - rewrite <- M. rewrite (Permutation_map g (split_perm items chosen (proj1 SB) NC INC)). rewrite map_app. apply Permutation_app_head.
    set (rest := filter _ _). rewrite <- (map_id rest) at 2. erewrite map_ext_in; [reflexivity|]. intros c I. unfold rest in I. apply filter_In in I. destruct I as [I P].
    destruct (S c I) as [[J _]|[_ E]]; [|exact E]. apply negb_true_iff in P. assert (path_in (path_of c) (map path_of chosen) = true) by (apply path_in_iff, in_map; exact J). congruence.
Qed.

(** ** the solutions of a count *)
Definition child_of ord cx (c : node) : child := (c, solutions ord cx c).
Definition has_potential (cx : ctx) (n : node) : bool := match potential cx n with Ok b => b | Err _ => false end.
Lemma potential_iff cx c : has_potential cx c = true <-> potential cx c = Ok true.
Proof. unfold has_potential. destruct (potential cx c) as [[|]|]; split; congruence. Qed.
Lemma filter_map {A B} (f : A -> B) (p : B -> bool) l : filter p (map f l) = map f (filter (fun x => p (f x)) l).
Proof. induction l as [|x l IH]; cbn; [reflexivity|]. rewrite IH. destruct (p (f x)); reflexivity. Qed.
Lemma sort_map {A B} (f : A -> B) (p : B -> path) l : sort_by_path p (map f l) = map f (sort_by_path (fun x => p (f x)) l).
Proof.
  unfold sort_by_path, isort. induction l as [|x l IH]; cbn [map fold_right]; [reflexivity|]. rewrite IH. generalize (fold_right (insert (fun a b => path_leb (p (f a)) (p (f b)))) [] l). clear. intro l.
  induction l as [|y l IH]; cbn [map insert]; [reflexivity|]. destruct (path_leb _ _); cbn [map]; [reflexivity|]. rewrite IH. reflexivity.
Qed.
Lemma potential_children_ok ord cx items pot : NoDup (map path_of items) ->
  potential_children cx (map (child_of ord cx) items) = Ok pot ->
  pot = map (child_of ord cx) (filter (has_potential cx) items) /\ forall c, In c items -> exists b, potential cx c = Ok b.
Proof.
  intros ND H. unfold potential_children in H. destruct (filter_res _ _) as [l|] eqn:F; cbn [bind] in H; [|discriminate]. injection H as <-.
  apply filter_res_items in F. destruct F as [-> T]. rewrite filter_map. cbn [fst child_of]. split.
  - apply dedup_by. rewrite map_map. cbn [child_path child_of fst]. unfold child_path. cbn [fst]. apply NoDup_map_filter. exact ND.
  - intros c I. apply (T (child_of ord cx c)). apply in_map. exact I.
Qed.
Lemma perm_filter {A} (f : A -> bool) l l' : Permutation l l' -> Permutation (filter f l) (filter f l').
Proof.
  induction 1 as [|x l l' P IH|x y l|l l' l'' P1 IH1 P2 IH2]; cbn; auto.
  - destruct (f x); auto.
  - destruct (f x), (f y); auto. apply perm_swap.
  - eapply perm_trans; eauto.
Qed.
Lemma tally_ok {A} (P : A -> Prop) (f : A -> bool) l : (forall x, f x = true <-> P x) -> tally P l (List.length (filter f l)).
Proof.
  intro H. induction l as [|x l IH]; cbn; [constructor|]. destruct (f x) eqn:E; cbn; [apply t_yes; auto; apply H; auto|apply t_no; auto]. intro C. apply H in C. congruence.
Qed.
Lemma fits_length c a n m m' : fits c a n m -> m = m' -> fits c a n m'.
Proof. intros H <-. exact H. Qed.
Lemma subseq_map {A B} (f : A -> B) s l : subseq s l -> subseq (map f s) (map f l).
Proof. induction 1; cbn; constructor; auto. Qed.
Lemma subseq_map_inv {A B} (f : A -> B) l : forall s, subseq s (map f l) -> exists t, subseq t l /\ s = map f t.
Proof.
  induction l as [|x l IH]; cbn; intros s H; [inversion H; subst; exists []; split; [constructor|reflexivity]|].
  inversion H as [|? s' ? S|? s' ? S]; subst; apply IH in S; destruct S as [t [S E]]; [exists (x :: t)|exists t]; (split; [constructor; auto|cbn; congruence]).
Qed.
Lemma perm_sort {A} (f : A -> path) l : Permutation (sort_by_path f l) l.
Proof. apply isort_perm. Qed.
Lemma solves_nodes ord cx sel sols : solves (map (child_of ord cx) sel) sols <-> Forall2 (fun c x => In x (g_items (solutions ord cx c))) sel sols.
Proof. unfold solves. apply Forall2_map_l. Qed.

Lemma count_solutions_ok ord cx i items s : siblings items -> (0 <= n_count i)%Z -> waived cx (n_path i) = false ->
  g_exn (count_solutions cx i items (map (child_of ord cx) items)) = None ->
  (In s (g_items (count_solutions cx i items (map (child_of ord cx) items))) <-> count_choice ord cx i items s) /\
  g_items (count_solutions cx i items (map (child_of ord cx) items)) <> [] /\
  (forall c, In c items -> exists b, potential cx c = Ok b).
Proof.
  intros SB C0 W N. unfold count_solutions in *. rewrite W in *. destruct (potential_children cx _) as [pot|] eqn:PC; [|discriminate].
  destruct (potential_children_ok ord cx items pot (proj1 SB) PC) as [-> T]. clear PC.
  set (usable := filter (has_potential cx) items) in *.
  assert (CS : children_set items = items) by (apply dedup_by; apply SB). rewrite CS in *.
  rewrite sort_map in *. change (fun x => child_path (child_of ord cx x)) with path_of in *.
  set (sorted := sort_by_path path_of usable) in *.
  assert (PS : Permutation sorted usable) by apply perm_sort.
  assert (LS : List.length (map (child_of ord cx) sorted) = List.length usable) by (rewrite map_length; apply Permutation_length, PS).
  assert (LE : (List.length usable <= List.length items)%nat) by (unfold usable; apply filter_len).
  destruct (count_run_ok i (Z.of_nat (List.length items)) (map (child_of ord cx) sorted) [] items s C0 ltac:(rewrite LS; lia) N) as [IFF NE].
  split; [|split; auto]. rewrite IFF. clear IFF. rewrite LS.
  assert (ND : NoDup items) by (eapply NoDup_map_inv; apply SB).
  assert (US : forall c, In c sorted <-> In c items /\ potential cx c = Ok true).
  { intro c. rewrite <- potential_iff, <- filter_In. fold usable. split; apply Permutation_in; [exact PS|symmetry; exact PS]. }
  assert (NDS : NoDup sorted) by (eapply Permutation_NoDup; [symmetry; exact PS|apply NoDup_filter; exact ND]).
  assert (SHAPE : forall sel, map child_path (map (child_of ord cx) sel) = map path_of sel) by (intro sel; rewrite map_map; reflexivity).
  assert (WELL : forall chosen l, Forall2 (stands ord cx chosen) items l -> NoDup (map path_of l) /\ Forall (fun x => wf_path (path_of x)) l).
  { intros chosen l F. assert (E := stands_paths _ _ _ _ _ F). split; [rewrite E; apply SB|]. destruct SB as [_ WF]. clear - E WF.
    revert items E WF. induction l as [|x l IH]; intros [|y items] E WF; cbn in E; try discriminate; constructor; inversion WF; subst; injection E as E1 E2; [rewrite E1; auto|eapply IH; eauto]. }
  split.
  - intros [sel [sols [S [F [SO ->]]]]]. apply subseq_map_inv in S. destruct S as [chosen [S ->]]. rewrite map_length in F. apply solves_nodes in SO.
    assert (INC : forall c, In c chosen -> In c items) by (intros c I; apply (subseq_in _ _ c S), US in I; apply I).
    assert (NC : NoDup chosen) by (eapply subseq_NoDup; eauto).
    destruct (assemble ord cx items chosen SB NC INC sols SO) as [l [FL P]]. destruct (WELL chosen l FL) as [NL WL].
    destruct (sort_by_path_lemma path_of l (sols ++ filter (fun n => negb (path_in (path_of n) (map path_of chosen))) items) WL NL P) as [E1 [E2 E3]].
    exists chosen, (sort_by_path path_of l), (List.length usable). split; auto. split; [intros c I; apply US; apply (subseq_in _ _ c S I)|].
    split; [apply tally_ok, potential_iff|]. split; auto. split.
    + exists l. split; auto. split; auto. symmetry. exact E2.
    + unfold built, unselected, count_solution. rewrite SHAPE, app_nil_r, E1. reflexivity.
  - intros [chosen [out [n [NC [CH [TL [F [[l [FL [P S]]] ->]]]]]]]].
    assert (n = List.length usable) by (eapply tally_fun; [exact TL|apply tally_ok, potential_iff]). subst n.
    assert (INC : forall c, In c chosen -> In c items) by (intros c I; apply CH; auto).
    (* the chosen ones, in the order of the sorted list *)
    set (sel := filter (fun c => path_in (path_of c) (map path_of chosen)) sorted).
    assert (SELIN : forall c, In c sel <-> In c chosen).
    { intro c. unfold sel. rewrite filter_In, US, path_in_iff. split.
      - intros [[I _] J]. apply in_map_iff in J. destruct J as [d [E J]]. rewrite <- (same_sibling items d c); auto. apply SB.
      - intro I. split; [apply CH; auto|apply in_map; auto]. }
    assert (NDSEL : NoDup sel) by (apply NoDup_filter; exact NDS).
    assert (PSEL : Permutation sel chosen) by (apply NoDup_Permutation; auto).
    assert (FL' : Forall2 (stands ord cx sel) items l).
    { clear - FL SELIN. clearbody sel. clear sorted usable. induction FL as [|c x t l ST F IH]; constructor; auto. destruct ST as [[I J]|[I J]]; [left|right]; rewrite SELIN; auto. }
    destruct (disassemble ord cx items sel l SB NDSEL) as [sols [SO PL]]; [intros c I; apply INC, SELIN; exact I|exact FL'|].
    exists (map (child_of ord cx) sel), sols. split; [apply subseq_map; apply subseq_filter|]. split; [|split].
    + rewrite map_length. eapply fits_length; [exact F|]. apply Permutation_length. symmetry. exact PSEL.
    + apply solves_nodes. exact SO.
    + unfold built, unselected, count_solution. rewrite SHAPE, app_nil_r. f_equal.
      destruct (WELL sel l FL') as [NL WL]. destruct (sort_by_path_lemma path_of l _ WL NL PL) as [E1 [E2 E3]]. rewrite <- E1.
      apply sorted_before_unique; auto; [|eapply perm_trans; [symmetry; exact P|symmetry; exact E2]]. eapply Permutation_NoDup; [|exact NL]. apply Permutation_map. exact P.
Qed.

(** ** every solution, per class *)
Lemma waived_ok cx l p : cx_exc cx = group_exceptions l -> (waived cx p = true <-> waived_at l p).
Proof. intro EX. unfold waived. rewrite waived_iff, EX. destruct (get_waive _ _); split; congruence. Qed.
Lemma waived_no cx l p : cx_exc cx = group_exceptions l -> (waived cx p = false <-> ~ waived_at l p).
Proof. intro EX. rewrite <- (waived_ok cx l p EX). destruct (waived cx p); split; congruence. Qed.
Lemma solutions_count ord cx k i items : solutions ord cx (NCount k i items) = count_solutions cx i items (map (child_of ord cx) items).
Proof. reflexivity. Qed.

(** ** what a rule without an exception yields *)
Lemma dedup_by_length {A} (f : A -> A -> bool) l : (List.length (dedup f l) <= List.length l)%nat.
Proof.
  induction l as [|x l IH]; cbn [dedup List.length]; [lia|]. assert (H := filter_len (fun y => negb (f x y)) (dedup f l)). lia.
Qed.
Lemma potential_children_len cx cs pot : potential_children cx cs = Ok pot -> (List.length pot <= List.length cs)%nat.
Proof.
  unfold potential_children. destruct (filter_res _ _) as [l|] eqn:F; cbn [bind]; [|discriminate]. intro H. injection H as <-.
  apply filter_res_items in F. destruct F as [-> _]. eapply Nat.le_trans; [apply dedup_by_length|]. apply filter_len.
Qed.
Lemma zrange_cons a b : (a < b)%Z -> zrange a b = a :: zrange (a + 1) b.
Proof.
  intro H. unfold zrange. replace (Z.to_nat (b - a)) with (S (Z.to_nat (b - (a + 1)))) by lia. cbn [seq map]. f_equal; [lia|].
  rewrite <- seq_shift, map_map. apply map_ext. intro. lia.
Qed.
Lemma count_run_neg i len items results other : (n_count i < 0)%Z -> (0 <= len)%Z -> g_exn (count_run i len items results other) <> None.
Proof.
  intros C L. unfold count_run. rewrite zrange_cons by (destruct (n_at_most i); lia).
  assert (X : make_combinations i items results other (n_count i) = gfail ValueErr).
  { unfold make_combinations, combinations. destruct (n_count i <? 0)%Z eqn:E; [reflexivity|]. apply Z.ltb_ge in E. lia. }
  unfold gflat. cbn [gret g_items g_exn gflat_list]. rewrite X. cbn. discriminate.
Qed.
Lemma count_run_some ord cx i items : waived cx (n_path i) = false ->
  g_exn (count_solutions cx i items (map (child_of ord cx) items)) = None ->
  g_items (count_solutions cx i items (map (child_of ord cx) items)) <> [].
Proof.
  intros W. unfold count_solutions. rewrite W. destruct (potential_children cx _) as [pot|] eqn:PC; [|discriminate]. intro N.
  apply potential_children_len in PC. rewrite map_length in PC.
  destruct (Z.lt_ge_cases (n_count i) 0) as [NEG|C0]; [exfalso; eapply count_run_neg; [exact NEG| |exact N]; lia|].
  apply (count_run_ok i _ _ _ _ (NReq KRule (mkReq [] false EmptyString false false false None) None) C0) in N; [apply N|].
  rewrite (Permutation_length (perm_sort child_path pot)). lia.
Qed.

(** ** where the parts of a solution come from *)
Lemma product_gen_from {A} (gs : list (gen A)) t : In t (g_items (product_gen gs)) -> Forall2 (fun g x => In x (g_items g)) gs t.
Proof.
  revert t. induction gs as [|g gs IH]; cbn [product_gen]; intros t I.
  - destruct I as [<-|[]]. constructor.
  - apply gflat_in in I. destruct I as [x [Ix I]]. cbn [gmap g_items] in I. apply in_map_iff in I. destruct I as [r [<- I]]. constructor; auto.
Qed.
Lemma lazy_run_from {A} (gs : list (gen A)) t : In t (g_items (lazy_run gs)) -> Forall2 (fun g x => In x (g_items g)) gs t.
Proof. unfold lazy_run. destruct (first_failure gs); [intros []|]. apply product_gen_from. Qed.
Lemma count_run_from i len items results other s : In s (g_items (count_run i len items results other)) ->
  exists selected sols, (forall c, In c selected -> In c items) /\ solves selected sols /\ s = built i results other selected sols.
Proof.
  assert (M : forall z s, In s (g_items (make_combinations i items results other z)) ->
    exists selected sols, (forall c, In c selected -> In c items) /\ solves selected sols /\ s = built i results other selected sols).
  { intros z x I. unfold make_combinations in I. apply gflat_in in I. destruct I as [sel [J I]]. cbn [gmap g_items] in I. apply in_map_iff in I. destruct I as [sols [<- I]].
    exists sel, sols. split; [|split; [|reflexivity]].
    - unfold combinations in J. destruct (z <? 0)%Z; [destruct J|]. cbn in J. apply in_combs in J. intros c IC. eapply subseq_in; [apply J|exact IC].
    - apply solves_run. apply lazy_run_from. exact I. }
  unfold count_run. set (run := gflat _ _).
  assert (RUN : forall s, In s (g_items run) -> exists selected sols, (forall c, In c selected -> In c items) /\ solves selected sols /\ s = built i results other selected sols).
  { intros x I. unfold run in I. apply gflat_in in I. destruct I as [z [_ I]]. eapply M; eauto. }
  assert (LAST : In s [count_solution i (sort_by_path path_of (other ++ results)) false] ->
    exists selected sols, (forall c, In c selected -> In c items) /\ solves selected sols /\ s = built i results other selected sols).
  { intros [<-|[]]. exists [], []. split; [intros ? []|]. split; [constructor|]. unfold built, unselected. rewrite filter_all_true by auto. reflexivity. }
  destruct run as [[|x t] [e|]]; auto; cbv zeta. destruct items as [|c items']; [exact LAST|].
  specialize (M (Z.of_nat (List.length (c :: items')))). destruct (make_combinations _ _ _ _ _) as [[|x t] [e|]]; auto.
Qed.
Lemma part_trans a b c : part_of a b -> part_of b c -> part_of a c.
Proof.
  intros H K. induction H; auto; [eapply pt_count; eauto|apply pt_req; auto|apply pt_true; auto|apply pt_false; auto].
Qed.
Lemma dedup_incl {A} (f : A -> A -> bool) l x : In x (dedup f l) -> In x l.
Proof. induction l as [|y l IH]; cbn [dedup In]; auto. intros [H|H]; auto. apply filter_In in H. right. apply IH, H. Qed.
Lemma sort_in {A} (f : A -> path) l x : In x (sort_by_path f l) <-> In x l.
Proof. split; apply Permutation_in; [apply perm_sort|symmetry; apply perm_sort]. Qed.
Lemma solves_in selected sols x : solves selected sols -> In x sols -> exists c, In c selected /\ In x (g_items (snd c)).
Proof. intro F. induction F as [|c y t l I F IH]; [intros []|]. intros [<-|J]; [exists c; split; simpl; auto|]. destruct (IH J) as [d [D E]]. exists d. simpl. auto. Qed.
Lemma parts_from ord cx n : rule_tree n -> forall s x, In s (g_items (solutions ord cx n)) -> part_of s x -> kind_of x = KSol ->
  exists m, part_of n m /\ In x (g_items (solutions ord cx m)).
Proof.
  induction n as [k r|k q|k i items IH|k i o IH|k i t f IHt IHf|k i c] using node_induction; intros RT s x I P K.
  - assert (E := I). cbn [solutions gmap g_items] in E. apply in_map_iff in E. destruct E as [y [<- _]]. inversion P; subst. exists (NCourse k r). split; [constructor|exact I].
  - assert (E := I). cbn [solutions gmap g_items] in E. apply in_map_iff in E. destruct E as [y [<- _]]. inversion P; subst. exists (NQuery k q). split; [constructor|exact I].
  - assert (E := I). rewrite solutions_count in E. unfold count_solutions in E. destruct (waived cx (n_path i)).
    + destruct E as [<-|[]]. unfold count_solution in P. inversion P as [|k' i' it y z Iy Pz| | |]; subst; [exists (NCount k i items); split; [constructor|exact I]|].
      exfalso. assert (X := RT x (pt_count k i items _ _ Iy Pz)). congruence.
    + destruct (potential_children cx _) as [pot|] eqn:PC; [|destruct E]. apply count_run_from in E. destruct E as [sel [sols [SI [SO ->]]]].
      unfold built, count_solution in P. inversion P as [|k' i' it y z Iy Pz| | |]; subst; [exists (NCount k i items); split; [constructor|exact I]|].
      rewrite sort_in, !in_app_iff in Iy. destruct Iy as [Iy|[Iy|[]]].
      * destruct (solves_in _ _ _ SO Iy) as [c [Ic J]]. apply SI in Ic. rewrite sort_in in Ic.
        assert (IC : exists c', In c' items /\ c = child_of ord cx c').
        { unfold potential_children in PC. destruct (filter_res _ _) as [fl|] eqn:FR; cbn [bind] in PC; [|discriminate]. injection PC as <-.
          apply filter_res_items in FR. destruct FR as [-> _]. apply dedup_incl in Ic. apply filter_In in Ic. destruct Ic as [Ic _].
          apply in_map_iff in Ic. destruct Ic as [c' [<- Ic]]. eauto. }
        destruct IC as [c' [Ic' ->]]. cbn [child_of snd] in J. 
        destruct (IH c' Ic' (fun z Pz => RT z (pt_count k i items c' z Ic' Pz)) y x J Pz K) as [m [Pm Im]]. exists m. split; auto. eapply pt_count; eauto.
      * exfalso. unfold unselected in Iy. apply filter_In in Iy. destruct Iy as [Iy _]. unfold children_set in Iy. apply dedup_incl in Iy.
        assert (X := RT x (pt_count k i items _ _ Iy Pz)). congruence.
  - assert (E := I). cbn [solutions] in E. destruct (waived cx (e_path i)).
    + destruct E as [<-|[]]. unfold req_solution in P. inversion P; subst; [exists (NReq k i o); split; [constructor|exact I]|].
      exfalso. match goal with Q : part_of ?z x |- _ => assert (X := RT x (pt_req k i z x Q)) end. congruence.
    + destruct o as [z|]; [|destruct E as [<-|[]]; inversion P; subst; exists (NReq k i None); split; [constructor|exact I]].
      cbn [gmap g_items] in E. apply in_map_iff in E. destruct E as [y [<- J]]. unfold req_solution in P. inversion P; subst; [exists (NReq k i (Some z)); split; [constructor|exact I]|].
      destruct (IH z eq_refl (fun w Pw => RT w (pt_req k i z w Pw)) y x J) as [m [Pm Im]]; auto. exists m. split; auto. constructor. auto.
  - assert (E := I). cbn [solutions] in E. destruct (e_result (d_cond i)) as [[|]|]; [|destruct f as [z|]; [|destruct E]|destruct E].
    + cbn [gmap g_items] in E. apply in_map_iff in E. destruct E as [y [<- J]]. inversion P; subst.
      * exists (NCond k i t f). split; [constructor|exact I].
      * destruct (IHt (fun w Pw => RT w (pt_true k i t f w Pw)) y x J) as [m [Pm Im]]; auto. exists m. split; auto. constructor. auto.
      * exfalso. match goal with Q : part_of ?z x |- _ => assert (X := RT x (pt_false k i t z x Q)) end. congruence.
    + cbn [gmap g_items] in E. apply in_map_iff in E. destruct E as [y [<- J]]. inversion P; subst.
      * exists (NCond k i t (Some z)). split; [constructor|exact I].
      * exfalso. match goal with Q : part_of t x |- _ => assert (X := RT x (pt_true k i t (Some z) x Q)) end. congruence.
      * destruct (IHf z eq_refl (fun w Pw => RT w (pt_false k i t z w Pw)) y x J) as [m [Pm Im]]; auto. exists m. split; auto. apply pt_false. auto.
  - assert (E := I). cbn [solutions] in E. unfold prof_solutions in E. assert (x = s).
    { destruct (solutions_keep ord cx (NProf k i c) s I) as [_ _]. destruct (waived cx (f_path i)); [destruct E as [<-|[]]; inversion P; auto|].
      destruct c as [[k' r]|]; [|destruct E as [<-|[]]; inversion P; auto]. destruct (gnext _); [|destruct E]. destruct E as [<-|[]]; inversion P; auto. }
    subst. exists (NProf k i c). split; [constructor|exact I].
Qed.
Lemma part_block p k n m : part_of (block p k n) m -> exists m0, part_of n m0 /\ m = block p k m0.
Proof.
  remember (block p k n) as b. intro P. revert n Heqb. induction P as [b|kd i items x y I P IH|kd i x y P IH|kd i t f y P IH|kd i t x y P IH]; intros n E.
  - exists n. split; [constructor|exact E].
  - destruct n; try discriminate E. injection E as -> -> ->. apply in_map_iff in I. destruct I as [z [<- I]]. destruct (IH z eq_refl) as [m0 [P0 ->]]. exists m0. split; auto. econstructor; eauto.
  - destruct n as [| | |? ? [z|]| |]; try discriminate E. injection E as -> -> ->. destruct (IH z eq_refl) as [m0 [P0 ->]]. exists m0. split; auto. constructor; auto.
  - destruct n; try discriminate E. injection E as -> -> -> _. destruct (IH _ eq_refl) as [m0 [P0 ->]]. exists m0. split; auto. constructor; auto.
  - destruct n as [| | | |? ? ? [z|]|]; try discriminate E. injection E as -> -> -> ->. destruct (IH _ eq_refl) as [m0 [P0 ->]]. exists m0. split; auto. apply pt_false; auto.
Qed.

(** ** how many children are solved *)
Lemma tally_perm {A} (P : A -> Prop) l l' n : Permutation l l' -> tally P l n -> tally P l' n.
Proof.
  intro H. revert n. induction H as [|x l l' H IH|x y l|l l' l'' H1 IH1 H2 IH2]; intros n T; auto.
  - inversion T; subst; [apply t_yes|apply t_no]; auto.
  - inversion T as [|? ? ? X T1|? ? ? X T1]; subst; inversion T1; subst; repeat (first [apply t_yes; [assumption|]|apply t_no; [assumption|]]); assumption.
Qed.
Lemma tally_stands ord cx chosen items m : Forall (fun c => kind_of c = KRule) items -> Forall2 (stands ord cx chosen) items m ->
  forall n, tally (fun c => In c chosen) items n -> tally (fun x => kind_of x = KSol) m n.
Proof.
  intros KR FL. induction FL as [|c x t m ST FL IH]; intros n T; inversion KR; subst; inversion T; subst; constructor; auto.
  - destruct ST as [[_ J]|[N _]]; [apply solutions_keep in J; apply J|contradiction].
  - destruct ST as [[J _]|[_ ->]]; [contradiction|congruence].
Qed.
Lemma tally_chosen (chosen items : list node) : NoDup (map path_of items) -> NoDup chosen -> (forall c, In c chosen -> In c items) ->
  tally (fun c => In c chosen) items (List.length chosen).
Proof.
  intros ND NC INC. set (f := fun c => path_in (path_of c) (map path_of chosen)).
  assert (F : forall c, In c items -> (f c = true <-> In c chosen)).
  { intros c I. unfold f. rewrite path_in_iff. split; [|apply in_map]. intro J. apply in_map_iff in J. destruct J as [d [E J]]. rewrite <- (same_sibling items d c); auto. }
  assert (P : Permutation (filter f items) chosen).
  { apply NoDup_Permutation; [apply NoDup_filter; eapply NoDup_map_inv; eauto|auto|]. intro c. rewrite filter_In. split; [intros [I J]; apply F; auto|intro I; split; [auto|apply F; auto]]. }
  rewrite <- (Permutation_length P). clear P ND NC INC. induction items as [|c t IH]; [constructor|]. cbn [filter].
  assert (IH' := IH (fun d I => F d (or_intror I))). destruct (f c) eqn:E; cbn [List.length]; [apply t_yes|apply t_no]; auto; [apply F; simpl; auto|].
  intro J. apply F in J; [congruence|simpl; auto].
Qed.
Lemma solved_tally ord cx chosen items m : NoDup (map path_of items) -> Forall (fun c => kind_of c = KRule) items -> Forall2 (stands ord cx chosen) items m ->
  NoDup chosen -> (forall c, In c chosen -> In c items) -> tally (fun x => kind_of x = KSol) m (List.length chosen).
Proof. intros. eapply tally_stands; eauto. apply tally_chosen; auto. Qed.

(** ** the class of a solution *)
Lemma solutions_class_not_course ord cx n r : In (NCourse KSol r) (g_items (solutions ord cx n)) ->
  match n with NCourse _ _ => True | _ => False end.
Proof.
  destruct n as [k q|k q|k i items|k i o|k i t f|k i c]; intro I; auto.
  - cbn [solutions gmap g_items] in I. apply in_map_iff in I. destruct I as [? [D _]]. discriminate.
  - rewrite solutions_count in I. unfold count_solutions in I. destruct (waived _ _); [destruct I as [D|[]]; discriminate|].
    destruct (potential_children _ _); [|destruct I]. apply count_run_shape in I. destruct I as [out D]. discriminate.
  - cbn [solutions] in I. destruct (waived _ _); [destruct I as [D|[]]; discriminate|]. destruct o; [|destruct I as [D|[]]; discriminate].
    cbn [gmap g_items] in I. apply in_map_iff in I. destruct I as [? [D _]]. discriminate.
  - cbn [solutions] in I. destruct (e_result (d_cond i)) as [[|]|]; [|destruct f; [|destruct I]|destruct I]; cbn [gmap g_items] in I; apply in_map_iff in I; destruct I as [? [D _]]; discriminate.
  - cbn [solutions] in I. unfold prof_solutions in I. destruct (waived _ _); [destruct I as [D|[]]; discriminate|]. destruct c as [[k' r']|]; [|destruct I as [D|[]]; discriminate].
    destruct (gnext _); [destruct I as [D|[]]; discriminate|destruct I].
Qed.
Lemma solutions_class_not_query ord cx n r : In (NQuery KSol r) (g_items (solutions ord cx n)) ->
  match n with NQuery _ _ => True | _ => False end.
Proof.
  destruct n as [k q|k q|k i items|k i o|k i t f|k i c]; intro I; auto.
  - cbn [solutions gmap g_items] in I. apply in_map_iff in I. destruct I as [? [D _]]. discriminate.
  - rewrite solutions_count in I. unfold count_solutions in I. destruct (waived _ _); [destruct I as [D|[]]; discriminate|].
    destruct (potential_children _ _); [|destruct I]. apply count_run_shape in I. destruct I as [out D]. discriminate.
  - cbn [solutions] in I. destruct (waived _ _); [destruct I as [D|[]]; discriminate|]. destruct o; [|destruct I as [D|[]]; discriminate].
    cbn [gmap g_items] in I. apply in_map_iff in I. destruct I as [? [D _]]. discriminate.
  - cbn [solutions] in I. destruct (e_result (d_cond i)) as [[|]|]; [|destruct f; [|destruct I]|destruct I]; cbn [gmap g_items] in I; apply in_map_iff in I; destruct I as [? [D _]]; discriminate.
  - cbn [solutions] in I. unfold prof_solutions in I. destruct (waived _ _); [destruct I as [D|[]]; discriminate|]. destruct c as [[k' r']|]; [|destruct I as [D|[]]; discriminate].
    destruct (gnext _); [destruct I as [D|[]]; discriminate|destruct I].
Qed.
Lemma q_solutions_source ord cx q s : In s (g_items (q_solutions ord cx q)) -> q_source s = q_source q.
Proof.
  unfold q_solutions. destruct (q_overridden q); [intros [<-|[]]; reflexivity|]. destruct (q_filtered cx q) as [[[data ins] forced]|]; [|intros []].
  destruct (q_source q) eqn:E; try (intros [<-|[]]; exact E). destruct (mapr as_course data); [|intros []].
  destruct (gflat _ _) as [[|x t] [e|]]; cbn [gmap g_items gret]; intro I; [destruct I|destruct I as [<-|[]]; exact E| |];
    (apply in_map_iff in I; destruct I as [o [<- _]]; exact E).
Qed.

(** ** when a count raises nothing *)
Lemma filter_res_total {A} (f : A -> res bool) l : (forall x, In x l -> exists b, f x = Ok b) -> exists r, filter_res f l = Ok r.
Proof.
  induction l as [|x l IH]; intro H; cbn [filter_res]; [eauto|]. destruct (H x (or_introl eq_refl)) as [b ->]. destruct (IH (fun y I => H y (or_intror I))) as [r R].
  cbn [bind]. rewrite R. cbn [bind]. eauto.
Qed.
Lemma make_combinations_none i items results other size : (0 <= size)%Z ->
  (forall c, In c items -> g_exn (snd c) = None /\ g_items (snd c) <> []) -> g_exn (make_combinations i items results other size) = None.
Proof.
  intros S H. unfold make_combinations. apply gflat_none.
  - unfold combinations. destruct (size <? 0)%Z eqn:L; [apply Z.ltb_lt in L; lia|reflexivity].
  - intros sel I. cbn [gmap g_exn]. apply lazy_run_none. intros g J. apply in_map_iff in J. destruct J as [c [<- J]]. apply H.
    unfold combinations in I. destruct (size <? 0)%Z; [destruct I|]. cbn [gret g_items] in I. apply in_combs in I. eapply subseq_in; [apply I|exact J].
Qed.
Lemma count_run_none i len items results other : (0 <= n_count i)%Z ->
  (forall c, In c items -> g_exn (snd c) = None /\ g_items (snd c) <> []) -> g_exn (count_run i len items results other) = None.
Proof.
  intros C H. unfold count_run. set (run := gflat _ _).
  assert (R : g_exn run = None).
  { apply gflat_none; [reflexivity|]. intros z I. cbn [gret g_items] in I. apply make_combinations_none; auto. destruct (n_at_most i); apply LimitProofs.zrange_in in I; lia. }
  destruct run as [[|x t] [e|]]; try discriminate R; [|reflexivity]. cbv zeta. destruct items as [|c t]; [reflexivity|].
  assert (M := make_combinations_none i (c :: t) results other (Z.of_nat (List.length (c :: t))) ltac:(lia) H).
  destruct (make_combinations _ _ _ _ _) as [[|x l] [e|]]; try discriminate M; reflexivity.
Qed.
Lemma count_run_listable ord cx i items : (0 <= n_count i)%Z ->
  (forall c, In c items -> potential cx c = Ok true -> g_exn (solutions ord cx c) = None /\ g_items (solutions ord cx c) <> []) ->
  (forall c, In c items -> exists b, potential cx c = Ok b) ->
  g_exn (match potential_children cx (map (child_of ord cx) items) with
         | Err e => gfail e
         | Ok pot => count_run i (Z.of_nat (List.length items)) (sort_by_path child_path pot) [] (children_set items)
         end) = None.
Proof.
  intros C H T. unfold potential_children.
  match goal with |- context [filter_res ?f ?l] => destruct (filter_res_total f l) as [r R] end.
  { intros x I. apply in_map_iff in I. destruct I as [c [<- I]]. cbn. auto. }
  rewrite R. cbn [bind]. apply count_run_none; auto. intros c I. rewrite sort_in in I. apply dedup_incl in I.
  apply filter_res_items in R. destruct R as [-> _]. apply filter_In in I. destruct I as [I P]. apply in_map_iff in I. destruct I as [d [<- I]]. cbn [child_of fst snd] in *.
  apply H; auto. destruct (potential cx d) as [[|]|]; congruence.
Qed.
