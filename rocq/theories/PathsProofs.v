From Coq Require Import List Bool ZArith String Ascii Lia Permutation Sorted.
From Verif Require Import Prelude Dec ListFacts Paths StrFacts PathsSpec ClaimsProofs.
Import ListNotations.

Lemma convert_index n : convert (index_comp n) = Ok (CInt (Z.of_nat n)).
Proof.
  unfold index_comp, convert. rewrite Ascii.eqb_refl. rewrite drop_last_app, py_int_str by lia. reflexivity.
Qed.

Lemma convert_name s : is_name s -> convert s = Ok (CStr s).
Proof.
  intro N. destruct s as [|c s]; [reflexivity|].
  unfold convert. destruct (Ascii.eqb_spec c "["%char) as [->|_]; [exfalso; eapply N|]; reflexivity.
Qed.

Lemma index_comp_inj n m : index_comp n = index_comp m -> n = m.
Proof.
  intro H. assert (convert (index_comp n) = convert (index_comp m)) by congruence.
  rewrite !convert_index in H0. injection H0. lia.
Qed.

Lemma index_not_name n : ~ is_name (index_comp n).
Proof. intro H. eapply H. reflexivity. Qed.

(** key of a component *)
Definition ckey_lt (a b : comp) : bool :=
  match a, b with
  | CInt x, CInt y => (x <? y)%Z
  | CInt _, CStr _ => true
  | CStr _, CInt _ => false
  | CStr x, CStr y => String.ltb x y
  end.

Lemma comp_cases s t : wf_component s -> wf_component t ->
  s = t \/ (comp_before s t /\ exists a b, convert s = Ok a /\ convert t = Ok b /\ a <> b /\ ckey_lt a b = true /\ ckey_lt b a = false)
        \/ (comp_before t s /\ exists a b, convert s = Ok a /\ convert t = Ok b /\ a <> b /\ ckey_lt a b = false /\ ckey_lt b a = true).
Proof.
  intros [[n ->]|Ns] [[m ->]|Nt].
  - destruct (lt_eq_lt_dec n m) as [[L| -> ]|L]; [|auto|].
    + right; left. split; [constructor; auto|]. rewrite !convert_index. eexists _, _. repeat (split; [reflexivity|]).
      split; [intros [= C]; lia|]. simpl. lia.
    + right; right. split; [constructor; auto|]. rewrite !convert_index. eexists _, _. repeat (split; [reflexivity|]).
      split; [intros [= C]; lia|]. simpl. lia.
  - right; left. split; [constructor; auto|]. rewrite convert_index, convert_name by auto.
    eexists _, _. repeat (split; [reflexivity|]). split; [discriminate|]. auto.
  - right; right. split; [constructor; auto|]. rewrite convert_index, convert_name by auto.
    eexists _, _. repeat (split; [reflexivity|]). split; [discriminate|]. auto.
  - rewrite !convert_name by auto. destruct (String.compare s t) eqn:E.
    + left. apply str_compare_eq. exact E.
    + right; left. split; [constructor 3; auto|]. eexists _, _. repeat (split; [reflexivity|]).
      split; [intros [= ->]; rewrite str_compare_refl in E; discriminate|].
      simpl. unfold String.ltb. rewrite E. apply str_compare_lt_gt in E. rewrite E. auto.
    + right; right. split; [constructor 3; auto; apply str_compare_lt_gt; exact E|]. eexists _, _. repeat (split; [reflexivity|]).
      split; [intros [= ->]; rewrite str_compare_refl in E; discriminate|].
      simpl. unfold String.ltb. rewrite E. apply str_compare_lt_gt in E. rewrite E. auto.
Qed.

Lemma wf_convert s : wf_component s -> exists a, convert s = Ok a.
Proof. intros [[n ->]|N]; [rewrite convert_index|rewrite convert_name by auto]; eauto. Qed.

Lemma convert_same a : match a with CInt x => (x =? x)%Z | CStr s => String.eqb s s end = true.
Proof. destruct a; [apply Z.eqb_refl|apply String.eqb_refl]. Qed.

Lemma lt_loop_cons s t p q a b : convert s = Ok a -> convert t = Ok b -> a <> b ->
  lt_loop (s :: p) (t :: q) = Ok (ckey_lt a b).
Proof.
  intros E1 E2 N. simpl. rewrite E1, E2. simpl. destruct a as [x|x], b as [y|y]; simpl; try reflexivity.
  - destruct (Z.eqb_spec x y); [congruence|reflexivity].
  - destruct (String.eqb_spec x y); [congruence|reflexivity].
Qed.

Lemma lt_loop_same s p q : wf_component s -> lt_loop (s :: p) (s :: q) = lt_loop p q.
Proof.
  intro W. destruct (wf_convert s W) as [a E]. simpl. rewrite E. simpl.
  destruct a; [rewrite Z.eqb_refl|rewrite String.eqb_refl]; reflexivity.
Qed.

Lemma b_cons s p q : before p q -> before (s :: p) (s :: q).
Proof. intros [p' q' L|pre a b p' q' C L]; [constructor; simpl; lia|]. apply (b_diff (s :: pre)); auto. Qed.

Lemma lt_loop_spec p : forall q, wf_path p -> wf_path q -> List.length p = List.length q -> p <> q ->
  exists b, lt_loop p q = Ok b /\ (if b then before p q else before q p).
Proof.
  induction p as [|s p IH]; intros [|t q] W1 W2 L N; try discriminate; try congruence.
  inversion W1; subst. inversion W2; subst. simpl in L.
  destruct (comp_cases s t H1 H3) as [E|[(CB & a & b & E1 & E2 & D & K & _)|(CB & a & b & E1 & E2 & D & K & _)]].
  - subst t. rewrite lt_loop_same by auto. destruct (IH q) as (b & E & B); auto; [congruence|].
    exists b. split; [exact E|]. destruct b; apply b_cons; exact B.
  - rewrite (lt_loop_cons _ _ _ _ a b) by auto. rewrite K. eexists. split; [reflexivity|]. simpl.
    apply (b_diff []); auto; lia.
  - rewrite (lt_loop_cons _ _ _ _ a b) by auto. rewrite K. eexists. split; [reflexivity|]. simpl.
    apply (b_diff []); auto; lia.
Qed.

Lemma comp_before_inv s t : comp_before s t ->
  (exists n m, s = index_comp n /\ t = index_comp m /\ n < m) \/
  (exists n, s = index_comp n /\ is_name t) \/
  (is_name s /\ is_name t /\ String.compare s t = Lt).
Proof. destruct 1; eauto 8. Qed.

Lemma comp_before_irrefl s : ~ comp_before s s.
Proof.
  intro H. destruct (comp_before_inv _ _ H) as [(n & m & E1 & E2 & L)|[(n & E & N)|(_ & _ & C)]].
  - subst s. apply index_comp_inj in E2. lia.
  - subst s. eapply index_not_name; eauto.
  - rewrite str_compare_refl in C. discriminate.
Qed.

Lemma comp_before_trans s t u : comp_before s t -> comp_before t u -> comp_before s u.
Proof.
  intros H1 H2.
  destruct (comp_before_inv _ _ H1) as [(n & m & E1 & E2 & L)|[(n & E1 & N)|(N1 & N2 & C)]];
  destruct (comp_before_inv _ _ H2) as [(n' & m' & E1' & E2' & L')|[(n' & E1' & N')|(N1' & N2' & C')]].
  - subst. apply index_comp_inj in E1'. subst. constructor. lia.
  - subst. constructor. auto.
  - subst. exfalso. eapply index_not_name; eauto.
  - subst. exfalso. eapply index_not_name; eauto.
  - subst. exfalso. eapply index_not_name; eauto.
  - subst. constructor. auto.
  - subst. exfalso. eapply index_not_name; eauto.
  - subst. exfalso. eapply index_not_name; eauto.
  - constructor 3; auto. eapply str_lt_trans; eauto.
Qed.

(** inversion of [before] on equally long non-empty paths *)
Lemma before_cons_inv s t p q : List.length p = List.length q -> before (s :: p) (t :: q) ->
  comp_before s t \/ (s = t /\ before p q).
Proof.
  intros L H. inversion H as [? ? L' E1 E2|pre a b p' q' C L' E1 E2]; subst.
  - simpl in L'. lia.
  - destruct pre as [|x pre]; simpl in *.
    + injection E1 as -> ->. injection E2 as -> ->. auto.
    + injection E1 as -> <-. injection E2 as -> <-. right. split; [reflexivity|]. apply b_diff; auto.
Qed.

Lemma before_len p q : before p q -> List.length p <= List.length q.
Proof. intros [p' q' L|pre a b p' q' C L]; [lia|]. rewrite !app_length. simpl. lia. Qed.

Lemma before_irrefl p : ~ before p p.
Proof.
  induction p as [|s p IH]; intro H.
  - inversion H as [? ? L|pre ? ? ? ? ? ? E]; [simpl in L; lia|]. destruct pre; discriminate.
  - apply before_cons_inv in H as [H|[_ H]]; auto. eapply comp_before_irrefl; eauto.
Qed.

Lemma before_trans p : forall q r, before p q -> before q r -> before p r.
Proof.
  induction p as [|s p IH]; intros q r H1 H2; pose proof (before_len _ _ H1); pose proof (before_len _ _ H2).
  - destruct r as [|u r]; [|constructor; simpl; lia]. destruct q; [|simpl in *; lia]. exact H1.
  - destruct (Nat.eq_dec (List.length (s :: p)) (List.length r)) as [E|N]; [|constructor; lia].
    destruct q as [|t q]; [simpl in *; lia|]. destruct r as [|u r]; [simpl in *; lia|]. simpl in *.
    apply before_cons_inv in H1; [|lia]. apply before_cons_inv in H2; [|lia].
    destruct H1 as [C1|[-> B1]], H2 as [C2|[-> B2]].
    + apply (b_diff []); [eapply comp_before_trans; eauto|lia].
    + apply (b_diff []); [auto|lia].
    + apply (b_diff []); [auto|lia].
    + apply b_cons. eauto.
Qed.

Lemma before_asym p q : before p q -> ~ before q p.
Proof. intros H1 H2. eapply before_irrefl, before_trans; eauto. Qed.

Lemma compare_paths_lemma p q : wf_path p -> wf_path q ->
  (p = q /\ compare_paths p q = Ok 0%Z) \/
  (before p q /\ compare_paths p q = Ok (-1)%Z) \/
  (before q p /\ compare_paths p q = Ok 1%Z).
Proof.
  intros W1 W2. unfold compare_paths. destruct (path_eqb p q) eqn:E.
  - left. apply path_eqb_spec in E. auto.
  - right. assert (N : p <> q) by (intro C; apply path_eqb_spec in C; congruence).
    unfold path_lt. destruct (Nat.ltb_spec (List.length p) (List.length q)).
    + left. split; [constructor; auto|reflexivity].
    + destruct (Nat.ltb_spec (List.length q) (List.length p)).
      * right. split; [constructor; auto|reflexivity].
      * destruct (lt_loop_spec p q W1 W2 ltac:(lia) N) as (b & -> & B). simpl. destruct b; auto.
Qed.

Lemma path_leb_spec p q : wf_path p -> wf_path q -> (path_leb p q = true <-> p = q \/ before p q).
Proof.
  intros W1 W2. unfold path_leb. destruct (compare_paths_lemma p q W1 W2) as [[H ->]|[[H ->]|[H ->]]]; simpl.
  - tauto.
  - tauto.
  - split; [discriminate|]. intros [->|C]; [exfalso; eapply before_irrefl; eauto|exfalso; eapply before_asym; eauto].
Qed.

(** sorting: the library lemmas need totality for all paths, so compare on the list only *)
Lemma insert_wf_sorted {A} (f : A -> path) x l :
  wf_path (f x) -> Forall (fun y => wf_path (f y)) l ->
  StronglySorted (fun a b => f a = f b \/ before (f a) (f b)) l ->
  StronglySorted (fun a b => f a = f b \/ before (f a) (f b)) (insert (fun a b => path_leb (f a) (f b)) x l).
Proof.
  intros W. induction l as [|y l IH]; intros WL S; simpl; [repeat constructor|].
  inversion WL; subst. inversion S; subst. destruct (path_leb (f x) (f y)) eqn:E.
  - constructor; [exact S|]. apply path_leb_spec in E; auto. constructor; [exact E|].
    rewrite Forall_forall in H4 |- *. intros z Hz. specialize (H4 z Hz).
    destruct E as [E|E], H4 as [H4|H4]; rewrite ?E, ?H4 in *; auto.
    right. eapply before_trans; eauto.
  - constructor; [auto|]. eapply Permutation_Forall; [symmetry; apply insert_perm|]. constructor; [|exact H4].
    destruct (compare_paths_lemma (f x) (f y) W H1) as [[C Ec]|[[C Ec]|[C Ec]]]; auto.
    unfold path_leb in E. rewrite Ec in E. discriminate.
Qed.

Lemma sort_wf_sorted {A} (f : A -> path) l : Forall (fun y => wf_path (f y)) l ->
  StronglySorted (fun a b => f a = f b \/ before (f a) (f b)) (sort_by_path f l).
Proof.
  induction 1; [constructor|]. unfold sort_by_path in *. simpl. apply insert_wf_sorted; auto.
  eapply Permutation_Forall; [symmetry; apply isort_perm|]. auto.
Qed.

Lemma sorted_unique {A} (f : A -> path) l1 : forall l2,
  (forall x y, In x l1 -> In y l1 -> f x = f y -> x = y) ->
  StronglySorted (fun a b => f a = f b \/ before (f a) (f b)) l1 ->
  StronglySorted (fun a b => f a = f b \/ before (f a) (f b)) l2 ->
  Permutation l1 l2 -> l1 = l2.
Proof.
  induction l1 as [|x l1 IH]; intros l2 I S1 S2 P.
  - apply Permutation_nil in P. auto.
  - destruct l2 as [|y l2]; [symmetry in P; apply Permutation_nil in P; discriminate|].
    inversion S1; subst. inversion S2; subst.
    assert (Hx : In x (y :: l2)) by (eapply Permutation_in; [exact P|simpl; auto]).
    assert (Hy : In y (x :: l1)) by (eapply Permutation_in; [symmetry; exact P|simpl; auto]).
    assert (E : x = y).
    { rewrite Forall_forall in H2, H4. destruct Hx as [->|Hx]; [reflexivity|].
      destruct Hy as [->|Hy]; [reflexivity|].
      destruct (H2 y Hy) as [C|C]; [apply I; simpl; auto|].
      destruct (H4 x Hx) as [C'|C']; [symmetry; apply I; simpl; auto|].
      exfalso. eapply before_asym; eauto. }
    subst y. f_equal. apply IH; auto.
    + intros a b Ha Hb. apply I; simpl; auto.
    + eapply Permutation_cons_inv; eauto.
Qed.

Lemma sort_by_path_lemma {A} (f : A -> path) l1 l2 :
  Forall (fun y => wf_path (f y)) l1 -> NoDup (map f l1) -> Permutation l1 l2 ->
  sort_by_path f l1 = sort_by_path f l2 /\
  Permutation (sort_by_path f l1) l1 /\
  StronglySorted (fun a b => before (f a) (f b)) (sort_by_path f l1).
Proof.
  intros W ND P.
  assert (INJ : forall x y, In x l1 -> In y l1 -> f x = f y -> x = y).
  { clear -ND. induction l1 as [|a l IH]; simpl; [tauto|]. inversion ND; subst.
    intros x y [->|Hx] [->|Hy] E; auto.
    - exfalso. apply H1. rewrite E. apply in_map. auto.
    - exfalso. apply H1. rewrite <- E. apply in_map. auto. }
  split; [|split].
  - apply (sorted_unique f).
    + intros x y Hx Hy. unfold sort_by_path in *. rewrite in_isort in Hx, Hy. auto.
    + apply sort_wf_sorted; auto.
    + apply sort_wf_sorted. eapply Permutation_Forall; eauto.
    + unfold sort_by_path. rewrite !isort_perm. exact P.
  - apply isort_perm.
  - pose proof (sort_wf_sorted f l1 W) as S.
    assert (ND' : NoDup (map f (sort_by_path f l1))).
    { eapply Permutation_NoDup; [|exact ND]. apply Permutation_map. symmetry. apply isort_perm. }
    revert S ND'. generalize (sort_by_path f l1). induction 1 as [|x l SS IH FA]; intro ND'; constructor.
    + apply IH. inversion ND'; auto.
    + inversion ND'; subst. rewrite Forall_forall in *. intros y Hy. destruct (FA y Hy) as [E|B]; auto.
      exfalso. apply H1. rewrite E. apply in_map. auto.
Qed.
