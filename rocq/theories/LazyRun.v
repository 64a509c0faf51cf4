(** The finished run of lazy_product, used by the modules that iterate over it. *)
From Coq Require Import List Bool Arith.
From Verif Require Import Prelude ListFacts LazyProduct EnumSpec EnumProofs.
Import ListNotations.

(** dp/lazy_product.py:6-76 [lazy_product( *fs )], run to its end; see [lazy_run_is_lazy_product]. *)
Definition lazy_run {A} (fs : list (gen A)) : gen (list A) :=
  match first_failure fs with
  | Some e => gfail e
  | None => product_gen fs
  end.

Lemma lazy_run_is_lazy_product {A} (fs : list (gen A)) :
  exists n, forall fuel, n <= fuel -> lazy_product 1 fs fuel = Some (lazy_run fs).
Proof.
  destruct (lazy_product_lemma 1 fs) as [n H]. exists n. intros fuel L. rewrite (H fuel L).
  simpl. rewrite app_nil_r. unfold lazy_run. destruct (first_failure fs); reflexivity.
Qed.

Lemma lazy_run_pure {A} (ls : list (list A)) :
  lazy_run (map gret ls) =
    if existsb (fun l => match l with [] => true | _ => false end) ls then gfail RuntimeErr else gret (product ls).
Proof.
  unfold lazy_run. rewrite first_failure_pure, product_gen_pure. destruct (existsb _ ls); reflexivity.
Qed.
