(** [decimal.Decimal]: finite decimals. Simplification: NaN, infinities and signed zero
    are left out, and arithmetic is exact (python rounds to 28 significant digits; the
    quantities of this code base are sums of credits, points and small quotients). *)
From Coq Require Import ZArith QArith String Ascii List Bool.
Import ListNotations.
Local Open Scope Z_scope.

(** [Decimal] as written: coefficient and exponent, value coef * 10^exp. *)
Record dec := mkDec { dcoef : Z; dexp : Z }.

Definition dec_eq_dec : forall a b : dec, {a = b} + {a <> b}.
Proof. decide equality; apply Z.eq_dec. Defined.

(** numeric value *)
Definition dval (d : dec) : Q :=
  if 0 <=? dexp d
  then inject_Z (dcoef d * 10 ^ dexp d)
  else Qmake (dcoef d) (Z.to_pos (10 ^ (- dexp d))).

Definition dec_of_Z (z : Z) : dec := mkDec z 0.

(** ROUND_DOWN (towards zero) to hundredths: the number of hundredths in
    [q.quantize(Decimal('1.00'), rounding=ROUND_DOWN)]. *)
Definition trunc2 (q : Q) : Z := Z.quot (Qnum q * 100) (Zpos (Qden q)).

(** a number of hundredths, as the Decimal with two fractional digits *)
Definition hundredths (z : Z) : dec := mkDec z (-2).

(** comparison of values *)
Definition Qltb (a b : Q) : bool := negb (Qle_bool b a).
Definition Qleb (a b : Q) : bool := Qle_bool a b.
Definition Qeqb (a b : Q) : bool := Qeq_bool a b.
Definition Qminb (a b : Q) : Q := if Qltb b a then b else a.
Definition Qmaxb (a b : Q) : Q := if Qltb a b then b else a.

Definition Qsum (l : list Q) : Q := fold_right Qplus 0%Q l.

(** decimal digits of a non-negative integer, [str(int)] *)
Definition digit_ascii (d : Z) : ascii := ascii_of_nat (48 + Z.to_nat d).

Fixpoint zdigits (fuel : nat) (z : Z) (acc : string) : string :=
  match fuel with
  | O => acc
  | S f =>
    let acc' := String (digit_ascii (z mod 10)) acc in
    if z <? 10 then acc' else zdigits f (z / 10) acc'
  end.

(** [str(n)] for an int. The fuel is the bit length plus one, always enough. *)
Definition str_of_Z (z : Z) : string :=
  if z <? 0
  then String "-"%char (zdigits (S (Z.to_nat (Z.log2 (- z)))) (- z) EmptyString)
  else zdigits (S (Z.to_nat (Z.log2 z))) z EmptyString.

Fixpoint zeros (n : nat) : string :=
  match n with O => EmptyString | S k => String "0"%char (zeros k) end.

(** [str(Decimal)]: the "to-scientific-string" of the decimal specification
    (CPython Lib/_pydecimal.py Decimal.__str__, non-special values). *)
Definition str_of_dec (d : dec) : string :=
  let sign := if dcoef d <? 0 then "-"%string else ""%string in
  let ds := str_of_Z (Z.abs (dcoef d)) in
  let len := Z.of_nat (String.length ds) in
  let leftdigits := dexp d + len in
  let dotplace := if (dexp d <=? 0) && (-6 <? leftdigits) then leftdigits else 1 in
  let intpart :=
    if dotplace <=? 0 then "0"%string
    else if len <=? dotplace then append ds (zeros (Z.to_nat (dotplace - len)))
    else substring 0 (Z.to_nat dotplace) ds in
  let fracpart :=
    if dotplace <=? 0 then append "."%string (append (zeros (Z.to_nat (- dotplace))) ds)
    else if len <=? dotplace then ""%string
    else append "."%string (substring (Z.to_nat dotplace) (String.length ds) ds) in
  let exppart :=
    if leftdigits =? dotplace then ""%string
    else append "E"%string
           (append (if leftdigits - dotplace <? 0 then ""%string else "+"%string)
              (str_of_Z (leftdigits - dotplace))) in
  append sign (append intpart (append fracpart exppart)).

Example str_of_dec_ex :
  map str_of_dec [mkDec 100 (-2); mkDec 10 (-1); mkDec 1 0; mkDec (-5) (-3); mkDec 1 3; mkDec 12345 (-2); mkDec 1 (-8); mkDec 0 0]
  = ["1.00"; "1.0"; "1"; "-0.005"; "1E+3"; "123.45"; "1E-8"; "0"]%string.
Proof. vm_compute. reflexivity. Qed.
Example str_of_Z_ex : map str_of_Z [0; 7; 10; 300; -42; 123456789] = ["0"; "7"; "10"; "300"; "-42"; "123456789"]%string.
Proof. vm_compute. reflexivity. Qed.
