(** dp/lazy_product.py *)
From Coq Require Import List Bool Arith.
From Verif Require Import Prelude.
Import ListNotations.

(** [next(i)] on an iterator whose remaining behaviour is [g] *)
Inductive next_res (A : Type) :=
| NItem (x : A) (rest : gen A)
| NStop
| NRaise (e : err).
Arguments NItem {A}. Arguments NStop {A}. Arguments NRaise {A}.

Definition gnext {A} (g : gen A) : next_res A :=
  match g_items g, g_exn g with
  | x :: t, e => NItem x (Gen t e)
  | [], None => NStop
  | [], Some e => NRaise e
  end.

(** [next(i)] outside of a try: StopIteration leaves the generator as RuntimeError (PEP 479) *)
Definition gnext_or_raise {A} (g : gen A) : res (A * gen A) :=
  match gnext g with
  | NItem x r => Ok (x, r)
  | NStop => Err RuntimeErr
  | NRaise e => Err e
  end.

(** One entry of the parallel lists [values] and [iterables]. *)
Record slot (A : Type) := mkSlot { sl_idx : nat; sl_val : A; sl_rest : gen A }.
Arguments mkSlot {A}. Arguments sl_idx {A}. Arguments sl_val {A}. Arguments sl_rest {A}.

(** [iter_funcs[index % len(iter_funcs)]()]; a factory is deterministic, as the docstring
    of lazy_product demands *)
Definition factory {A} (fs : list (gen A)) (index : nat) : gen A :=
  nth (index mod List.length fs) fs gnil.

(** dp/lazy_product.py:63-64: [iterables] and [values] *)
Definition lp_init {A} (repeat : nat) (fs : list (gen A)) : res (list (slot A)) :=
  mapr (fun ig => let! (x, r) := gnext_or_raise (snd ig) in Ok (mkSlot (fst ig) x r))
       (combine (seq 0 (repeat * List.length fs)) (List.concat (List.repeat fs repeat))).

(** dp/lazy_product.py:68-76, the [for ... else] loop; the slots are given last index
    first. [Ok None] is the [else: return]. *)
Fixpoint lp_advance {A} (fs : list (gen A)) (rslots : list (slot A)) : res (option (list (slot A))) :=
  match rslots with
  | [] => Ok None
  | s :: rest =>
    match gnext (sl_rest s) with
    | NItem x r => Ok (Some (mkSlot (sl_idx s) x r :: rest))
    | NRaise e => Err e
    | NStop =>
      let! (x, r) := gnext_or_raise (factory fs (sl_idx s)) in
      let! o := lp_advance fs rest in
      match o with
      | None => Ok None
      | Some rest' => Ok (Some (mkSlot (sl_idx s) x r :: rest'))
      end
    end
  end.

(** dp/lazy_product.py:66-76, [while True]; [None] when the fuel runs out *)
Fixpoint lp_loop {A} (fs : list (gen A)) (fuel : nat) (rslots : list (slot A)) : option (gen (list A)) :=
  match fuel with
  | O => None
  | S n =>
    let cur := rev (map sl_val rslots) in
    match lp_advance fs rslots with
    | Err e => Some (Gen [cur] (Some e))
    | Ok None => Some (Gen [cur] None)
    | Ok (Some r') =>
      match lp_loop fs n r' with
      | Some g => Some (Gen (cur :: g_items g) (g_exn g))
      | None => None
      end
    end
  end.

(** dp/lazy_product.py:6-76 lazy_product, run for at most [fuel] yields *)
Definition lazy_product {A} (repeat : nat) (fs : list (gen A)) (fuel : nat) : option (gen (list A)) :=
  match lp_init repeat fs with
  | Err e => Some (gfail e)
  | Ok slots => lp_loop fs fuel (rev slots)
  end.
