(** dp/ncr.py *)
From Coq Require Import List ZArith.
From Verif Require Import Prelude.
Import ListNotations.
Local Open Scope Z_scope.

(** dp/ncr.py:13-14 mult, and [reduce(op.mul, it, 1)] of lines 8-9 *)
Definition mult (l : list Z) : Z := fold_left Z.mul l 1.

(** [range(a, b, -1)] *)
Definition zrange_down (a b : Z) : list Z :=
  map (fun i => a - Z.of_nat i) (seq 0 (Z.to_nat (a - b))).

(** dp/ncr.py:6-10 ncr *)
Definition ncr (n r : Z) : Z :=
  let r := Z.min r (n - r) in
  let numer := mult (zrange_down n (n - r)) in
  let denom := mult (zrange 1 (r + 1)) in
  numer / denom.
