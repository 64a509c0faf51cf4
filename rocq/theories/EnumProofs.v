From Coq Require Import List Bool Arith ZArith Lia Permutation.
From Verif Require Import Prelude ListFacts LazyProduct Ncr EnumSpec.
Import ListNotations.

(** ** lazy_product *)
Section LP.
  Context {A : Type} (fs : list (gen A)).

  (** tuples still to come after the current one, reversed *)
  Fixpoint future (rs : list (slot A)) : gen (list A) :=
    match rs with
    | [] => gnil
    | s :: rest =>
      gapp (gmap (fun x => x :: map sl_val rest) (sl_rest s))
           (gflat (fun t => gmap (fun x => x :: t) (factory fs (sl_idx s))) (future rest))
    end.

  Definition live (s : slot A) : Prop := g_items (factory fs (sl_idx s)) <> [].

  Lemma gcons_app {B} (x : B) t e g : gapp (Gen (x :: t) e) g = Gen (x :: g_items (gapp (Gen t e) g)) (g_exn (gapp (Gen t e) g)).
  Proof. destruct e; reflexivity. Qed.

  Lemma advance_spec rs : Forall live rs ->
    match lp_advance fs rs with
    | Ok None => future rs = gnil
    | Err e => future rs = gfail e
    | Ok (Some rs') => Forall live rs' /\
        future rs = Gen (map sl_val rs' :: g_items (future rs')) (g_exn (future rs'))
    end.
  Proof.
    induction rs as [|s rest IH]; intro H; simpl; [reflexivity|].
    inversion H as [|? ? L LR]; subst. destruct (sl_rest s) as [[|x t] e] eqn:R; simpl.
    - destruct e as [e|]; simpl.
      + reflexivity.
      + unfold gnext_or_raise. unfold live in L.
        destruct (factory fs (sl_idx s)) as [[|y t] e'] eqn:F; simpl; [simpl in L; congruence|].
        specialize (IH LR). change (gmap _ (Gen [] None)) with (@gnil (list A)). rewrite gapp_nil_l.
        destruct (lp_advance fs rest) as [[rest'|]|e]; simpl.
        * destruct IH as [LR' E]. rewrite E. split.
          -- constructor; [|exact LR']. unfold live. simpl. rewrite F. discriminate.
          -- rewrite F. unfold gflat at 1. simpl. unfold gmap at 1. simpl. rewrite gcons_app. reflexivity.
        * rewrite IH. reflexivity.
        * rewrite IH. reflexivity.
    - split; [constructor; [|exact LR]; unfold live in *; simpl; exact L|].
      change (gmap ?f (Gen (x :: t) e)) with (Gen (f x :: map f t) e). rewrite gcons_app. reflexivity.
  Qed.

  Lemma loop_spec n : forall rs, Forall live rs -> List.length (g_items (future rs)) < n ->
    lp_loop fs n rs = Some (Gen (rev (map sl_val rs) :: map (@rev A) (g_items (future rs))) (g_exn (future rs))).
  Proof.
    induction n as [|n IH]; intros rs H L; [lia|]. simpl.
    pose proof (advance_spec rs H) as S. destruct (lp_advance fs rs) as [[rs'|]|e].
    - destruct S as [H' E]. rewrite E in *. simpl in *. rewrite IH; [reflexivity|exact H'|lia].
    - rewrite S. reflexivity.
    - rewrite S. reflexivity.
  Qed.

  (** reversed product of reversed factors *)
  Fixpoint rproduct (gs : list (gen A)) : gen (list A) :=
    match gs with
    | [] => gret [[]]
    | g :: t => gflat (fun tl => gmap (fun x => x :: tl) g) (rproduct t)
    end.

  Definition started (s : slot A) : Prop :=
    factory fs (sl_idx s) = Gen (sl_val s :: g_items (sl_rest s)) (g_exn (sl_rest s)).

  Lemma start_spec rs : Forall started rs ->
    rproduct (map (fun s => factory fs (sl_idx s)) rs) =
    Gen (map sl_val rs :: g_items (future rs)) (g_exn (future rs)).
  Proof.
    induction rs as [|s rest IH]; intro H; simpl; [reflexivity|].
    inversion H as [|? ? S SR]; subst. rewrite (IH SR). unfold gflat at 1. simpl.
    unfold started in S. rewrite S. destruct (sl_rest s) as [t e].
    unfold gmap at 1. simpl. rewrite gcons_app. reflexivity.
  Qed.
End LP.

Lemma rproduct_snoc {A} (gs : list (gen A)) g :
  rproduct (gs ++ [g]) = gflat (fun x => gmap (fun t => t ++ [x]) (rproduct gs)) g.
Proof.
  induction gs as [|h gs IH]; simpl.
  - destruct g as [l e]. unfold gflat, gmap. simpl.
    change (Gen [] None) with (@gnil (list A)). rewrite gapp_nil_r.
    induction l as [|x l IHl]; simpl; [reflexivity|]. rewrite <- IHl. reflexivity.
  - rewrite IH, gflat_gflat. apply gflat_ext. intro x. rewrite gflat_gmap, gmap_gflat.
    apply gflat_ext. intro t. rewrite gmap_gmap. reflexivity.
Qed.

Lemma rproduct_product {A} (gs : list (gen A)) :
  gmap (@rev A) (rproduct (rev gs)) = product_gen gs.
Proof.
  induction gs as [|g gs IH]; simpl; [reflexivity|].
  rewrite rproduct_snoc, gmap_gflat. apply gflat_ext. intro x. rewrite <- IH, !gmap_gmap.
  apply gmap_ext. intro t. rewrite rev_app_distr. reflexivity.
Qed.

Lemma nth_concat_repeat {A} (fs : list A) d k i : i < k * List.length fs ->
  nth i (List.concat (List.repeat fs k)) d = nth (i mod List.length fs) fs d.
Proof.
  revert i. induction k as [|k IH]; intros i H; [simpl in H; lia|]. simpl.
  assert (List.length fs <> 0) by (intro E; rewrite E, Nat.mul_0_r in H; lia).
  destruct (lt_dec i (List.length fs)) as [L|L].
  - rewrite app_nth1 by exact L. now rewrite Nat.mod_small by exact L.
  - rewrite app_nth2 by lia. rewrite IH by (simpl in H; lia). f_equal.
    replace i with ((i - List.length fs) + 1 * List.length fs) at 2 by lia.
    now rewrite Nat.mod_add.
Qed.

Lemma concat_repeat_length {A} (fs : list A) k : List.length (List.concat (List.repeat fs k)) = k * List.length fs.
Proof. induction k; simpl; [reflexivity|]. rewrite app_length. lia. Qed.

Lemma init_list_spec {A} (fs : list (gen A)) gs : forall n,
  (forall i, i < List.length gs -> nth i gs gnil = factory fs (n + i)) ->
  match mapr (fun ig => let! (x, r) := gnext_or_raise (snd ig) in Ok (mkSlot (fst ig) x r))
             (combine (seq n (List.length gs)) gs) with
  | Err e => first_failure gs = Some e
  | Ok slots => first_failure gs = None /\ Forall (started fs) slots /\
                map (fun s => factory fs (sl_idx s)) slots = gs
  end.
Proof.
  induction gs as [|g gs IH]; intros n H; simpl; [auto|].
  assert (G : g = factory fs n) by (specialize (H 0 ltac:(simpl; lia)); simpl in H; rewrite Nat.add_0_r in H; exact H).
  assert (H' : forall i, i < List.length gs -> nth i gs gnil = factory fs (S n + i)).
  { intros i L. specialize (H (S i) ltac:(simpl; lia)). simpl in H. rewrite H. f_equal. lia. }
  specialize (IH (S n) H'). unfold gnext_or_raise. destruct g as [[|x t] e]; simpl.
  - destruct e; reflexivity.
  - destruct (mapr _ _) as [slots|e']; simpl; [|exact IH].
    destruct IH as (F & S & M). split; [exact F|]. split.
    + constructor; [|exact S]. unfold started. simpl. rewrite <- G. reflexivity.
    + simpl. rewrite <- G, M. reflexivity.
Qed.

Lemma lazy_product_lemma {A} (k : nat) (fs : list (gen A)) :
  let gs := List.concat (List.repeat fs k) in
  exists n, forall fuel, n <= fuel ->
    lazy_product k fs fuel =
      Some (match first_failure gs with Some e => gfail e | None => product_gen gs end).
Proof.
  intro gs. unfold lazy_product, lp_init.
  assert (L : List.length gs = k * List.length fs) by apply concat_repeat_length.
  pose proof (init_list_spec fs gs 0) as S. rewrite L in S.
  destruct (mapr _ _) as [slots|e] eqn:M.
  - destruct S as (F & ST & MP).
    { intros i Hi. simpl. unfold factory. apply nth_concat_repeat. exact Hi. }
    exists (S (List.length (g_items (future fs (rev slots))))). intros fuel Hf.
    rewrite F. rewrite loop_spec; [|rewrite Forall_forall in *|lia].
    + f_equal. rewrite <- rproduct_product. rewrite <- MP.
      rewrite <- (map_rev (fun s => factory fs (sl_idx s)) slots).
      rewrite start_spec by (apply Forall_rev; exact ST). reflexivity.
    + intros s Hs. rewrite <- in_rev in Hs. specialize (ST s Hs). unfold live. unfold started in ST.
      rewrite ST. discriminate.
  - exists 0. intros. rewrite S; [reflexivity|].
    intros i Hi. simpl. unfold factory. apply nth_concat_repeat. exact Hi.
Qed.

(** ** the product *)
Lemma product_gen_pure {A} (ls : list (list A)) : product_gen (map gret ls) = gret (product ls).
Proof.
  induction ls as [|l ls IH]; simpl; [reflexivity|]. rewrite IH.
  unfold gflat. simpl. rewrite gflat_ret_items; [reflexivity|]. reflexivity.
Qed.

Lemma first_failure_pure {A} (ls : list (list A)) :
  first_failure (map gret ls) = if existsb (fun l => match l with [] => true | _ => false end) ls
                                then Some RuntimeErr else None.
Proof. induction ls as [|[|x l] ls IH]; simpl; auto. Qed.

Lemma in_product {A} (ls : list (list A)) t :
  In t (product ls) <-> Forall2 (fun x l => In x l) t ls.
Proof.
  revert t. induction ls as [|l ls IH]; intro t; simpl.
  - split; [intros [<-|[]]; constructor | intro H; inversion H; auto].
  - rewrite in_flat_map. split.
    + intros (x & Hx & H). apply in_map_iff in H as (t' & <- & H). constructor; [auto|]. now apply IH.
    + intro H. inversion H; subst. exists x. split; [auto|]. apply in_map_iff. exists l0.
      split; [reflexivity|]. now apply IH.
Qed.

Lemma product_length {A} (ls : list (list A)) :
  List.length (product ls) = fold_right Nat.mul 1 (map (@List.length A) ls).
Proof.
  induction ls as [|l ls IH]; simpl; [reflexivity|]. rewrite <- IH.
  induction l as [|x l IHl]; simpl; [reflexivity|]. rewrite app_length, map_length, IHl. reflexivity.
Qed.

Lemma product_NoDup {A} (ls : list (list A)) : Forall (@NoDup A) ls -> NoDup (product ls).
Proof.
  induction 1 as [|l ls ND F IH]; simpl; [constructor; [tauto|constructor]|].
  induction ND as [|x l NI ND IHl]; simpl; [constructor|]. apply NoDup_app; auto.
  - apply NoDup_map_inj; [|exact IH]. intros; congruence.
  - intros t Ht C. apply in_map_iff in Ht as (t' & <- & _).
    apply in_flat_map in C as (y & Hy & C). apply in_map_iff in C as (t'' & [= -> ->] & _). auto.
Qed.

(** ** ncr *)
Lemma binom_0 n : binom n 0 = 1. Proof. destruct n; reflexivity. Qed.
Lemma binom_gt n k : n < k -> binom n k = 0.
Proof.
  revert k. induction n as [|n IH]; intros [|k] H; simpl; try lia. rewrite !IH; lia.
Qed.
Lemma binom_nn n : binom n n = 1.
Proof. induction n; simpl; [reflexivity|]. rewrite IHn, binom_gt; lia. Qed.

Lemma combs_length {A} k (l : list A) : List.length (combs k l) = binom (List.length l) k.
Proof.
  revert k. induction l as [|x l IH]; intros [|k]; simpl; auto.
  rewrite app_length, map_length, IH. f_equal. apply IH.
Qed.

Lemma binom_sym n k : k <= n -> binom n k = binom n (n - k).
Proof.
  revert k. induction n as [|n IH]; intros k H.
  - replace k with 0 by lia. reflexivity.
  - destruct k as [|k].
    + rewrite Nat.sub_0_r, binom_nn. reflexivity.
    + simpl (S n - S k). destruct (Nat.eq_dec k n) as [->|N].
      * rewrite Nat.sub_diag, binom_nn. reflexivity.
      * destruct (n - k) as [|m] eqn:E; [lia|]. simpl.
        rewrite (IH k) by lia. rewrite (IH (S k)) by lia.
        rewrite E. replace (n - S k) with m by lia. lia.
Qed.

Lemma binom_absorb n k : S k * binom (S n) (S k) = S n * binom n k.
Proof.
  revert k. induction n as [|n IH]; intros k.
  - destruct k as [|[|k]]; simpl; lia.
  - destruct k as [|k].
    + change (binom (S (S n)) 1) with (binom (S n) 0 + binom (S n) 1).
      specialize (IH 0). rewrite binom_0 in *. lia.
    + change (binom (S (S n)) (S (S k))) with (binom (S n) (S k) + binom (S n) (S (S k))).
      pose proof (IH k) as H1. pose proof (IH (S k)) as H2.
      change (binom (S n) (S k)) with (binom n k + binom n (S k)) in *. nia.
Qed.

Fixpoint falling (n r : nat) : nat :=
  match r with O => 1 | S r' => n * falling (n - 1) r' end.

Lemma falling_binom r : forall n, r <= n -> falling n r = binom n r * fact r.
Proof.
  induction r as [|r IH]; intros n H; simpl.
  - now rewrite binom_0.
  - destruct n as [|n]; [lia|]. simpl (S n - 1). rewrite Nat.sub_0_r, IH by lia.
    pose proof (binom_absorb n r) as B. change (fact r + r * fact r) with (S r * fact r).
    change (binom n r + binom n (S r)) with (binom (S n) (S r)). nia.
Qed.

Local Open Scope Z_scope.
Lemma fold_mul_acc l a : fold_left Z.mul l a = a * fold_left Z.mul l 1.
Proof.
  revert a. induction l as [|x l IH]; intro a; cbn [fold_left]; [lia|].
  rewrite (IH (a * x)), (IH (1 * x)). lia.
Qed.

Lemma mult_cons x l : mult (x :: l) = x * mult l.
Proof. unfold mult. cbn [fold_left]. rewrite fold_mul_acc. lia. Qed.

Lemma mult_app a b : mult (a ++ b) = mult a * mult b.
Proof. induction a as [|x a IH]; [cbn [app]; change (mult []) with 1; lia|]. cbn [app]. rewrite !mult_cons, IH. lia. Qed.

Lemma mult_down n r : (r <= n)%nat ->
  mult (zrange_down (Z.of_nat n) (Z.of_nat n - Z.of_nat r)) = Z.of_nat (falling n r).
Proof.
  unfold zrange_down. intro H. replace (Z.to_nat (Z.of_nat n - (Z.of_nat n - Z.of_nat r))) with r by lia.
  revert n H. induction r as [|r IH]; intros n H; [reflexivity|].
  cbn [seq map]. rewrite mult_cons. cbn [falling]. rewrite Nat2Z.inj_mul.
  replace (Z.of_nat n - Z.of_nat 0) with (Z.of_nat n) by lia. f_equal.
  rewrite <- (IH (n - 1)%nat) by lia. rewrite <- seq_shift, map_map. f_equal. apply map_ext. intro i. lia.
Qed.

Lemma mult_up r : mult (zrange 1 (Z.of_nat r + 1)) = Z.of_nat (fact r).
Proof.
  unfold zrange. replace (Z.to_nat (Z.of_nat r + 1 - 1)) with r by lia.
  induction r as [|r IH]; [reflexivity|].
  rewrite seq_S, map_app, mult_app, IH. cbn [map]. rewrite mult_cons. change (mult []) with 1.
  change (fact (S r)) with (fact r + r * fact r)%nat. nia.
Qed.

Lemma ncr_binom n r : (r <= n)%nat -> ncr (Z.of_nat n) (Z.of_nat r) = Z.of_nat (binom n r).
Proof.
  intro H. unfold ncr.
  assert (G : forall s, (s <= n)%nat -> Z.min (Z.of_nat r) (Z.of_nat n - Z.of_nat r) = Z.of_nat s ->
    mult (zrange_down (Z.of_nat n) (Z.of_nat n - Z.min (Z.of_nat r) (Z.of_nat n - Z.of_nat r))) /
    mult (zrange 1 (Z.min (Z.of_nat r) (Z.of_nat n - Z.of_nat r) + 1)) = Z.of_nat (binom n s)).
  { intros s Hs ->. rewrite mult_down, mult_up, falling_binom by exact Hs.
    rewrite Nat2Z.inj_mul. apply Z.div_mul. pose proof (lt_O_fact s). lia. }
  destruct (le_lt_dec r (n - r)) as [L|L].
  - rewrite (G r); [reflexivity|exact H|lia].
  - rewrite (G (n - r)%nat) by lia. f_equal. symmetry. apply binom_sym. exact H.
Qed.

Lemma ncr_outside n r : r < 0 \/ n < r -> ncr n r = 1.
Proof.
  intro H. unfold ncr, zrange_down, zrange.
  replace (Z.to_nat (n - (n - Z.min r (n - r)))) with 0%nat by lia.
  replace (Z.to_nat (Z.min r (n - r) + 1 - 1)) with 0%nat by lia. reflexivity.
Qed.
