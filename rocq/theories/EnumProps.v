(** C10 and C11. *)
From Coq Require Import List Bool Arith ZArith Lia.
From Verif Require Import Prelude ListFacts LazyProduct Ncr EnumSpec EnumProofs.
Import ListNotations.

(** C10. For factories producing the finite sequences [ls], lazy_product yields exactly
    the tuples of the Cartesian product, in order, and stops; it raises (and yields
    nothing) when some sequence is empty. *)
Theorem lazy_product_is_product :
  forall (A : Type) (ls : list (list A)),
  exists n, forall fuel, n <= fuel ->
    lazy_product 1 (map gret ls) fuel =
      Some (if existsb (fun l => match l with [] => true | _ => false end) ls
            then gfail RuntimeErr else gret (product ls)).
Proof.
  intros A ls. destruct (lazy_product_lemma 1 (map gret ls)) as [n H]. exists n. intros fuel L.
  rewrite (H fuel L). cbn [repeat concat]. rewrite app_nil_r, first_failure_pure, product_gen_pure.
  destruct (existsb _ ls); reflexivity.
Qed.

(** C10, general: factories that may raise, and the repeat option. *)
Theorem lazy_product_with_exceptions :
  forall (A : Type) (k : nat) (fs : list (gen A)),
  exists n, forall fuel, n <= fuel ->
    lazy_product k fs fuel =
      Some (match first_failure (List.concat (List.repeat fs k)) with
            | Some e => gfail e
            | None => product_gen (List.concat (List.repeat fs k))
            end).
Proof. exact @lazy_product_lemma. Qed.

(** What the tuples of the product are: one item of each sequence, each choice once,
    and as many as the product of the lengths. *)
Theorem product_tuples :
  forall (A : Type) (ls : list (list A)),
  (forall t, In t (product ls) <-> Forall2 (fun x l => In x l) t ls) /\
  List.length (product ls) = fold_right Nat.mul 1 (map (@List.length A) ls) /\
  (Forall (@NoDup A) ls -> NoDup (product ls)).
Proof.
  intros A ls. split; [intro; apply in_product|]. split; [apply product_length|apply product_NoDup].
Qed.

(** C11. *)
Theorem ncr_counts_combinations :
  forall (A : Type) (l : list A) (r : nat), r <= List.length l ->
  ncr (Z.of_nat (List.length l)) (Z.of_nat r) = Z.of_nat (List.length (combs r l)) /\
  ncr (Z.of_nat (List.length l)) (Z.of_nat r) = Z.of_nat (binom (List.length l) r).
Proof.
  intros A l r H. rewrite combs_length. split; apply ncr_binom; exact H.
Qed.

(** The combinations counted are exactly the sub-selections of the given size. *)
Theorem combinations_are_subselections :
  forall (A : Type) (l : list A) (r : nat),
  (forall s, In s (combs r l) <-> subseq s l /\ List.length s = r) /\
  (NoDup l -> NoDup (combs r l)).
Proof. intros A l r. split; [intro; apply in_combs | apply combs_NoDup]. Qed.

(** Outside of that range the function returns 1, not 0 (recorded as a finding). *)
Theorem ncr_out_of_range_is_one : forall n r, (r < 0 \/ n < r)%Z -> ncr n r = 1%Z.
Proof. exact ncr_outside. Qed.

Example ex_product :
  lazy_product 1 (map gret [[1; 2]; [3]; [4; 5]]) 100
  = Some (gret [[1; 3; 4]; [1; 3; 5]; [2; 3; 4]; [2; 3; 5]]).
Proof. reflexivity. Qed.
Example ex_product_empty : lazy_product 1 (map gret [[1; 2]; []; [4; 5]]) 100 = Some (gfail RuntimeErr).
Proof. reflexivity. Qed.
Example ex_product_raise :
  lazy_product 1 [gret [1; 2]; Gen [3; 4] (Some ValueErr)] 100
  = Some (Gen [[1; 3]; [1; 4]] (Some ValueErr)).
Proof. reflexivity. Qed.
Example ex_ncr : ncr 52 5 = 2598960%Z /\ List.length (combs 2 [1; 2; 3; 4]) = 6.
Proof. split; reflexivity. Qed.

Print Assumptions lazy_product_is_product.
Print Assumptions lazy_product_with_exceptions.
Print Assumptions product_tuples.
Print Assumptions ncr_counts_combinations.
Print Assumptions combinations_are_subselections.
Print Assumptions ncr_out_of_range_is_one.
