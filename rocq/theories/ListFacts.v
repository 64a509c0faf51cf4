(** Facts about the list and generator vocabulary of Prelude. *)
From Coq Require Import List Bool Arith Lia Permutation Sorted.
From Verif Require Import Prelude.
Import ListNotations.

(** ** subsequences and combinations *)

(** [subseq s l]: [s] is obtained from [l] by deleting positions. *)
Inductive subseq {A} : list A -> list A -> Prop :=
| ss_nil : subseq [] []
| ss_keep x s l : subseq s l -> subseq (x :: s) (x :: l)
| ss_drop x s l : subseq s l -> subseq s (x :: l).

Lemma subseq_nil_l {A} (l : list A) : subseq [] l.
Proof. induction l; constructor; auto. Qed.

Lemma subseq_refl {A} (l : list A) : subseq l l.
Proof. induction l; constructor; auto. Qed.

Lemma subseq_in {A} (s l : list A) x : subseq s l -> In x s -> In x l.
Proof. induction 1; simpl; intuition. Qed.

Lemma subseq_length {A} (s l : list A) : subseq s l -> List.length s <= List.length l.
Proof. induction 1; simpl; lia. Qed.

Lemma subseq_NoDup {A} (s l : list A) : subseq s l -> NoDup l -> NoDup s.
Proof.
  induction 1; intro H0; auto; inversion H0; subst; auto.
  constructor; auto. intro C. eapply subseq_in in C; eauto.
Qed.

Lemma subseq_filter {A} (f : A -> bool) l : subseq (filter f l) l.
Proof. induction l; simpl; [constructor|]. destruct (f a); constructor; auto. Qed.

Lemma subseq_trans {A} (a b c : list A) : subseq a b -> subseq b c -> subseq a c.
Proof.
  intros H1 H2. revert a H1. induction H2; intros a H1; auto.
  - inversion H1; subst; [apply ss_keep | apply ss_drop]; auto.
  - apply ss_drop; auto.
Qed.

Lemma subseq_filter_mono {A} (f : A -> bool) s l : subseq s l -> subseq (filter f s) (filter f l).
Proof. induction 1; simpl; [constructor| |]; destruct (f x); try constructor; auto. Qed.

Lemma in_combs {A} k (l s : list A) :
  In s (combs k l) <-> subseq s l /\ List.length s = k.
Proof.
  revert k s. induction l as [|x l IH]; intros [|k] s; simpl.
  - split; [intros [<-|[]]; split; constructor | intros [H _]; inversion H; auto].
  - split; [tauto | intros [H L]; inversion H; subst; discriminate].
  - split; [intros [<-|[]]; split; [apply subseq_nil_l|reflexivity] | intros [_ L]; left; destruct s; [reflexivity|discriminate]].
  - rewrite in_app_iff, in_map_iff, IH. split.
    + intros [(s' & <- & H)|[H L]].
      * apply IH in H as [H L]. split; [constructor; auto| simpl; auto].
      * split; [constructor; auto|auto].
    + intros [H L]. inversion H; subst.
      * left. exists s0. split; [reflexivity|]. apply IH. split; [auto|]. simpl in L. lia.
      * right. split; [auto|reflexivity || exact L].
Qed.

Lemma NoDup_app {A} (a b : list A) :
  NoDup a -> NoDup b -> (forall x, In x a -> ~ In x b) -> NoDup (a ++ b).
Proof.
  induction a; simpl; auto. intros H1 H2 H3. inversion H1; subst. constructor.
  - rewrite in_app_iff. intros [C|C]; [auto|]. eapply H3; eauto.
  - apply IHa; auto.
Qed.

Lemma NoDup_map_inj {A B} (f : A -> B) l :
  (forall x y, In x l -> In y l -> f x = f y -> x = y) -> NoDup l -> NoDup (map f l).
Proof.
  induction l; simpl; intros I H; [constructor|]. inversion H; subst. constructor.
  - rewrite in_map_iff. intros (y & E & Hy). assert (y = a) by (apply I; auto). subst. auto.
  - apply IHl; auto.
Qed.

Lemma combs_NoDup {A} k (l : list A) : NoDup l -> NoDup (combs k l).
Proof.
  revert k. induction l as [|x l IH]; intros [|k] H; simpl; try (constructor; [tauto|constructor]); try constructor.
  inversion H; subst. apply NoDup_app; auto.
  - apply NoDup_map_inj; auto. intros; congruence.
  - intros s Hs. rewrite in_map_iff in Hs. destruct Hs as (s' & <- & _).
    intro C. apply in_combs in C as [C _]. eapply subseq_in in C; [|simpl; eauto]. auto.
Qed.

Lemma combs_0 {A} (l : list A) : combs 0 l = [[]].
Proof. destruct l; reflexivity. Qed.

Lemma combs_all {A} (l : list A) : combs (List.length l) l = [l].
Proof.
  induction l as [|x l IH]; simpl; [reflexivity|]. rewrite IH. simpl.
  assert (combs (S (List.length l)) l = []) as ->.
  { destruct (combs (S (List.length l)) l) as [|s r] eqn:E; [reflexivity|].
    assert (In s (combs (S (List.length l)) l)) by (rewrite E; simpl; auto).
    apply in_combs in H as [H L]. apply subseq_length in H. lia. }
  reflexivity.
Qed.

Lemma combs_nonempty {A} k (l : list A) : k <= List.length l -> combs k l <> [].
Proof.
  revert k. induction l as [|x l IH]; intros [|k] H; simpl in *; try discriminate; try lia.
  intro C. apply app_eq_nil in C as [C _]. apply map_eq_nil in C. apply (IH k); [lia|auto].
Qed.

Lemma combs_too_long {A} k (l : list A) : List.length l < k -> combs k l = [].
Proof.
  intro H. destruct (combs k l) as [|s r] eqn:E; [reflexivity|].
  assert (I : In s (combs k l)) by (rewrite E; simpl; auto).
  apply in_combs in I as [I L]. apply subseq_length in I. lia.
Qed.

(** ** insertion sort *)
Section Sort.
  Context {A : Type} (leb : A -> A -> bool).

  Lemma insert_perm x l : Permutation (insert leb x l) (x :: l).
  Proof.
    induction l as [|y l IH]; simpl; [reflexivity|]. destruct (leb x y); [reflexivity|].
    rewrite IH. apply perm_swap.
  Qed.

  Lemma isort_perm l : Permutation (isort leb l) l.
  Proof.
    induction l as [|x l IH]; simpl; [reflexivity|]. rewrite insert_perm. now constructor.
  Qed.

  Lemma in_isort x l : In x (isort leb l) <-> In x l.
  Proof. split; apply Permutation_in; [|symmetry]; apply isort_perm. Qed.

  Lemma isort_length l : List.length (isort leb l) = List.length l.
  Proof. apply Permutation_length, isort_perm. Qed.

  Lemma isort_NoDup l : NoDup l -> NoDup (isort leb l).
  Proof. apply Permutation_NoDup. symmetry. apply isort_perm. Qed.

  Definition lebP (x y : A) : Prop := leb x y = true.

  Hypothesis total : forall x y, leb x y = true \/ leb y x = true.
  Hypothesis trans : forall x y z, leb x y = true -> leb y z = true -> leb x z = true.

  Lemma insert_sorted x l : StronglySorted lebP l -> StronglySorted lebP (insert leb x l).
  Proof.
    induction 1 as [|y l SS IH FA]; simpl.
    - repeat constructor.
    - destruct (leb x y) eqn:E.
      + constructor; [constructor; auto|]. constructor; [exact E|].
        eapply Forall_impl; [|exact FA]. intros z Hz. eapply trans; eauto.
      + constructor; [exact IH|]. eapply Permutation_Forall; [symmetry; apply insert_perm|].
        constructor; [|exact FA]. destruct (total x y); [congruence|exact H].
  Qed.

  Lemma isort_sorted l : StronglySorted lebP (isort leb l).
  Proof. induction l; simpl; [constructor|]. now apply insert_sorted. Qed.

  Lemma sorted_insert_id x l : StronglySorted lebP (x :: l) -> insert leb x l = x :: l.
  Proof.
    intro H. inversion H; subst. destruct l as [|y l]; [reflexivity|]. simpl.
    inversion H3; subst. unfold lebP in H4. now rewrite H4.
  Qed.

  Lemma isort_id l : StronglySorted lebP l -> isort leb l = l.
  Proof.
    induction 1 as [|x l SS IH FA]; simpl; [reflexivity|]. rewrite IH.
    apply sorted_insert_id. constructor; auto.
  Qed.

  (** two sorted permutations agree when ties are equalities *)
  Lemma sorted_perm_unique l1 : forall l2,
    (forall x y, In x l1 -> In y l1 -> leb x y = true -> leb y x = true -> x = y) ->
    StronglySorted lebP l1 -> StronglySorted lebP l2 -> Permutation l1 l2 -> l1 = l2.
  Proof.
    induction l1 as [|x l1 IH]; intros l2 AS S1 S2 P.
    - apply Permutation_nil in P. auto.
    - destruct l2 as [|y l2]; [symmetry in P; apply Permutation_nil in P; discriminate|].
      inversion S1; subst. inversion S2; subst.
      assert (E : x = y).
      { assert (In x (y :: l2)) as Hx by (eapply Permutation_in; [exact P|simpl; auto]).
        assert (In y (x :: l1)) as Hy by (eapply Permutation_in; [symmetry; exact P|simpl; auto]).
        rewrite Forall_forall in H2, H4.
        destruct Hx as [->|Hx]; [reflexivity|]. destruct Hy as [->|Hy]; [reflexivity|].
        apply AS; simpl; auto; [apply H2|apply H4]; auto. }
      subst y. f_equal. apply IH; auto.
      + intros a b Ha Hb. apply AS; simpl; auto.
      + eapply Permutation_cons_inv; eauto.
  Qed.

  Lemma isort_perm_unique l1 l2 :
    (forall x y, In x l1 -> In y l1 -> leb x y = true -> leb y x = true -> x = y) ->
    Permutation l1 l2 -> isort leb l1 = isort leb l2.
  Proof.
    intros AS P. apply sorted_perm_unique; try apply isort_sorted.
    - intros x y Hx Hy. rewrite in_isort in Hx, Hy. apply AS; auto.
    - rewrite !isort_perm. exact P.
  Qed.
End Sort.

Lemma sorted_head_least {A} (leb : A -> A -> bool) x l : StronglySorted (lebP leb) (x :: l) ->
  Forall (fun y => leb x y = true) l.
Proof. intro H. inversion H; subst; auto. Qed.

Lemma subseq_sorted {A} (R : A -> A -> Prop) s l : subseq s l -> StronglySorted R l -> StronglySorted R s.
Proof.
  induction 1; intro HS; auto; inversion HS; subst; auto. constructor; auto.
  rewrite Forall_forall in *. intros y Hy. apply H3. eapply subseq_in; eauto.
Qed.

(** ** dedup *)
Section Dedup.
  Context {A : Type} (eqb : A -> A -> bool).
  Hypothesis eqb_spec : forall x y, eqb x y = true <-> x = y.

  Lemma in_dedup x l : In x (dedup eqb l) <-> In x l.
  Proof.
    induction l as [|y l IH]; simpl; [tauto|]. rewrite filter_In, IH.
    destruct (eqb y x) eqn:E; simpl.
    - apply eqb_spec in E. subst. intuition.
    - intuition.
  Qed.

  Lemma dedup_NoDup l : NoDup (dedup eqb l).
  Proof.
    induction l as [|y l IH]; simpl; constructor.
    - rewrite filter_In. intros [_ C]. assert (eqb y y = true) by (apply eqb_spec; reflexivity).
      rewrite H in C. discriminate.
    - apply NoDup_filter. exact IH.
  Qed.

  Lemma dedup_id l : NoDup l -> dedup eqb l = l.
  Proof.
    induction 1 as [|x l H1 H2 IH]; simpl; [reflexivity|]. rewrite IH. f_equal.
    clear IH H2. induction l as [|y l IHl]; simpl; [reflexivity|].
    destruct (eqb x y) eqn:E.
    - apply eqb_spec in E. subst. exfalso. apply H1. simpl. auto.
    - simpl. f_equal. apply IHl. intro C. apply H1. simpl. auto.
  Qed.

  Lemma dedup_subseq l : subseq (dedup eqb l) l.
  Proof.
    induction l as [|x l IH]; simpl; constructor.
    eapply subseq_trans; [apply subseq_filter|exact IH].
  Qed.

  Lemma memb_In x l : memb eqb x l = true <-> In x l.
  Proof.
    unfold memb. rewrite existsb_exists. split.
    - intros (y & H & E). apply eqb_spec in E. subst. exact H.
    - intro H. exists x. split; [exact H|]. apply eqb_spec. reflexivity.
  Qed.

  Lemma memb_false x l : memb eqb x l = false <-> ~ In x l.
  Proof.
    rewrite <- memb_In. destruct (memb eqb x l); split; congruence || tauto.
  Qed.
End Dedup.

(** ** generators *)
Lemma gapp_nil_r {A} (g : gen A) : gapp g gnil = g.
Proof. destruct g as [l [e|]]; unfold gapp; simpl; [reflexivity|]. now rewrite app_nil_r. Qed.

Lemma gapp_nil_l {A} (g : gen A) : gapp gnil g = g.
Proof. destruct g. reflexivity. Qed.

Lemma gapp_assoc {A} (a b c : gen A) : gapp (gapp a b) c = gapp a (gapp b c).
Proof.
  destruct a as [la [e|]], b as [lb [e'|]], c as [lc ec]; unfold gapp; simpl; try reflexivity.
  now rewrite app_assoc.
Qed.

Lemma gmap_app {A B} (f : A -> B) a b : gmap f (gapp a b) = gapp (gmap f a) (gmap f b).
Proof. destruct a as [la [e|]], b as [lb eb]; unfold gapp, gmap; simpl; [reflexivity|]. now rewrite map_app. Qed.

Lemma gmap_ext {A B} (f h : A -> B) g : (forall x, f x = h x) -> gmap f g = gmap h g.
Proof. intro H. unfold gmap. f_equal. apply map_ext. exact H. Qed.

Lemma gmap_gmap {A B C} (f : A -> B) (h : B -> C) g : gmap h (gmap f g) = gmap (fun x => h (f x)) g.
Proof. unfold gmap. simpl. now rewrite map_map. Qed.

Lemma gmap_id {A} (g : gen A) : gmap (fun x => x) g = g.
Proof. destruct g. unfold gmap. simpl. now rewrite map_id. Qed.

Lemma gflat_list_last {A B} (f : A -> gen B) l e :
  gflat_list f l e = gapp (gflat_list f l None) (Gen [] e).
Proof.
  induction l as [|x l IH]; simpl.
  - reflexivity.
  - rewrite IH, gapp_assoc. reflexivity.
Qed.

Lemma gflat_app {A B} (f : A -> gen B) a b : gflat f (gapp a b) = gapp (gflat f a) (gflat f b).
Proof.
  unfold gflat. destruct a as [la [e|]], b as [lb eb]; unfold gapp at 1 2; simpl.
  - rewrite (gflat_list_last f la). rewrite gapp_assoc. f_equal.
  - induction la as [|x la IH]; simpl.
    + unfold gapp. simpl. destruct (gflat_list f lb eb) as [? [?|]]; reflexivity.
    + now rewrite IH, gapp_assoc.
Qed.

Lemma gflat_gmap {A B C} (f : A -> B) (h : B -> gen C) g : gflat h (gmap f g) = gflat (fun x => h (f x)) g.
Proof.
  unfold gflat, gmap. simpl. induction (g_items g) as [|x l IH]; simpl; [reflexivity|]. now rewrite IH.
Qed.

Lemma gmap_gflat {A B C} (f : A -> gen B) (h : B -> C) g : gmap h (gflat f g) = gflat (fun x => gmap h (f x)) g.
Proof.
  unfold gflat. induction (g_items g) as [|x l IH]; simpl; [reflexivity|]. now rewrite gmap_app, IH.
Qed.

Lemma gflat_ext {A B} (f h : A -> gen B) g : (forall x, f x = h x) -> gflat f g = gflat h g.
Proof.
  intro H. unfold gflat. induction (g_items g) as [|x l IH]; simpl; [reflexivity|]. now rewrite H, IH.
Qed.

Lemma gflat_gflat {A B C} (f : A -> gen B) (h : B -> gen C) g :
  gflat h (gflat f g) = gflat (fun x => gflat h (f x)) g.
Proof.
  destruct g as [l e]. unfold gflat at 2 3. simpl. induction l as [|x l IH]; simpl.
  - reflexivity.
  - now rewrite gflat_app, IH.
Qed.

Lemma gflat_ret_items {A B} (f : A -> gen B) (l : list A) :
  (forall x, In x l -> g_exn (f x) = None) ->
  gflat_list f l None = gret (flat_map (fun x => g_items (f x)) l).
Proof.
  induction l as [|x l IH]; intro H; simpl; [reflexivity|].
  rewrite IH by (intros; apply H; simpl; auto). unfold gapp. rewrite H by (simpl; auto). reflexivity.
Qed.
