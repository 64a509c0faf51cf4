(** Division of [decimal.Decimal] in the default context: the exact quotient rounded half
    to even to 28 significant digits. *)
From Coq Require Import ZArith QArith Bool.
From Verif Require Import Dec.
Local Open Scope Z_scope.

(** 10^x, and 1 for a negative x *)
Definition p10 (x : Z) : Z := 10 ^ Z.max x 0.

(** number of decimal digits of a positive integer *)
Fixpoint ndig_fuel (fuel : nat) (z : Z) : Z :=
  match fuel with
  | O => 0
  | S f => if z <=? 0 then 0 else 1 + ndig_fuel f (z / 10)
  end.
Definition ndig (z : Z) : Z := ndig_fuel (S (Z.to_nat (Z.log2 z))) z.

(** the exponent of the leading digit of n/d, for positive n and d *)
Definition lead (n d : Z) : Z :=
  let e := ndig n - ndig d in
  if d * p10 e <=? n * p10 (- e) then e else e - 1.

(** n/d to the nearest integer, ties to even, for non-negative n and positive d *)
Definition round_even (n d : Z) : Z :=
  match 2 * (n mod d) ?= d with
  | Lt => n / d
  | Gt => n / d + 1
  | Eq => if Z.even (n / d) then n / d else n / d + 1
  end.

(** the quotient of non-negative n by positive d with 28 significant digits *)
Definition div28 (n d : Z) : dec :=
  if n =? 0 then mkDec 0 0
  else let k := 27 - lead n d in
       mkDec (round_even (n * p10 k) (d * p10 (- k))) (- k).
