(** What products and binomial coefficients are, independently of the code. *)
From Coq Require Import List Arith.
From Verif Require Import Prelude.
Import ListNotations.

(** Pascal's triangle *)
Fixpoint binom (n k : nat) : nat :=
  match n, k with
  | _, O => 1
  | O, S _ => 0
  | S n', S k' => binom n' k' + binom n' (S k')
  end.

(** [itertools.product]: the rightmost factor varies fastest. *)
Fixpoint product {A} (ls : list (list A)) : list (list A) :=
  match ls with
  | [] => [[]]
  | l :: t => flat_map (fun x => map (cons x) (product t)) l
  end.

(** The same for factors that may raise after yielding some items: the tuples yielded
    before the first raise, then the exception. *)
Fixpoint product_gen {A} (gs : list (gen A)) : gen (list A) :=
  match gs with
  | [] => gret [[]]
  | g :: t => gflat (fun x => gmap (cons x) (product_gen t)) g
  end.

(** The first factory (from the left) whose first item cannot be obtained, and why. *)
Fixpoint first_failure {A} (gs : list (gen A)) : option err :=
  match gs with
  | [] => None
  | Gen [] None :: _ => Some RuntimeErr
  | Gen [] (Some e) :: _ => Some e
  | Gen (_ :: _) _ :: t => first_failure t
  end.
