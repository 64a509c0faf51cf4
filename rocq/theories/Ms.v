(** dp/ms.py: durations in milliseconds. A duration is a non-negative rational, as a
    numerator and a positive denominator. *)
From Coq Require Import List ZArith QArith Qround Bool String Ascii.
From Verif Require Import Dec Round.
Import ListNotations.
Local Open Scope Z_scope.

(** dp/ms.py:16-19 *)
Definition one_day : Z := 86400000.
Definition one_hour : Z := 3600000.
Definition one_minute : Z := 60000.
Definition one_second : Z := 1000.

(** [Decimal.__mod__] of a non-negative number (the remainder is exact) *)
Definition qmod (q : Q) (m : Z) : Q := (q - inject_Z (m * Qfloor (q / inject_Z m)))%Q.

(** dp/ms.py:12-13 to_zero, of a non-negative number *)
Definition to_zero (q : Q) : Z := Qfloor q.

(** dp/ms.py:22-30 Ms *)
Record msec := mkMs { days : Z; hours : Z; minutes : Z; seconds : Z; millis : Z; micros : Z; nanos : Z }.
(** dp/ms.py:35-40 Ms.ms *)
Definition ms_total (m : msec) : Z :=
  days m * one_day + hours m * one_hour + minutes m * one_minute + seconds m * one_second + millis m.

(** dp/ms.py:43-52 parse_ms. The products by 1000 and 1000000 are exact for durations
    written with at most 22 digits. *)
Definition parse_ms (n d : Z) : msec :=
  let q := (inject_Z n / inject_Z d)%Q in
  mkMs (to_zero (dval (div28 n (d * one_day))))
       (to_zero (qmod (dval (div28 n (d * one_hour))) 24))
       (to_zero (qmod (dval (div28 n (d * one_minute))) 60))
       (to_zero (qmod (dval (div28 n (d * one_second))) 60))
       (to_zero (qmod q 1000))
       (to_zero (qmod (q * inject_Z 1000) 1000))
       (to_zero (qmod (q * inject_Z 1000000) 1000)).

(** the keyword arguments of pretty_ms *)
Record style := mkStyle { unit_count : option nat; compact : bool; verbose : bool; sec_digits : nat;
                          separate_ms : bool; sub_ms : bool }.
Definition default_style : style := mkStyle None false false 1 false false.

Local Open Scope string_scope.
(** dp/ms.py:93-99 add *)
Definition add_part (st : style) (zero one : bool) (long short text : string) : list string :=
  if zero then []
  else [text ++ (if verbose st then " " ++ (if one then long else long ++ "s") else short)].
Definition add_Z (st : style) (v : Z) (long short : string) : list string :=
  add_part st (v =? 0)%Z (v =? 1)%Z long short (str_of_Z v).

Fixpoint pad_left (n : nat) (s : string) : string :=
  match n with O => s | S k => if (String.length s <? n)%nat then String "0"%char (pad_left k s) else s end.
(** [format(q, ".kf")] with a zero fraction taken off (dp/ms.py:125-126); [z] is the number
    of units of the last place *)
Definition fixed_text (z : Z) (k : nat) : string :=
  let u := (10 ^ Z.of_nat k)%Z in
  if (z mod u =? 0)%Z then str_of_Z (z / u) else str_of_Z (z / u) ++ "." ++ pad_left k (str_of_Z (z mod u)).

(** dp/ms.py:76-139 pretty_ms of the duration n/d *)
Definition parts (st0 : style) (n0 d : Z) : list string :=
  let st := if compact st0 then mkStyle (unit_count st0) true (verbose st0) 0 (separate_ms st0) (sub_ms st0) else st0 in
  let diff := (inject_Z 1000 - qmod (inject_Z n0 / inject_Z d) 1000)%Q in
  let n := (if (sec_digits st <? 1)%nat && Qltb diff (inject_Z 500) then (n0 / d + 1000 - (n0 / d) mod 1000) * d else n0)%Z in
  let p := parse_ms n d in
  let q := (inject_Z n / inject_Z d)%Q in
  List.app (add_Z st (days p / 365) "year" "y")
  (List.app (add_Z st (days p mod 365) "day" "d")
  (List.app (add_Z st (hours p) "hour" "h")
  (List.app (add_Z st (minutes p) "minute" "m")
  (if separate_ms st || sub_ms st || Qltb q (inject_Z 1000) then
     List.app (add_Z st (seconds p) "second" "s")
     (if sub_ms st then
        List.app (add_Z st (millis p) "millisecond" "ms")
        (List.app (add_Z st (micros p) "microsecond" "us")
        (add_Z st (nanos p) "nanosecond" "ns"))
      else
        let below := (inject_Z (millis p) + inject_Z (micros p) / inject_Z 1000 + inject_Z (nanos p) / inject_Z 1000000)%Q in
        add_Z st (Qceiling below) "millisecond" "ms")
   else
     let sec := Qred (qmod (q / inject_Z 1000) 60) in
     let u := (10 ^ Z.of_nat (sec_digits st))%Z in
     let z := round_even (Qnum sec * u) (Zpos (Qden sec)) in
     add_part st (z =? 0)%Z (z =? u)%Z "second" "s" (fixed_text z (sec_digits st)))))).

Definition pretty_ms (st : style) (n d : Z) : string :=
  match parts st n d with
  | [] => if verbose st then "0 milliseconds" else "ms"
  | x :: r =>
    if compact st then "~" ++ x
    else match unit_count st with
         | Some k => "~" ++ String.concat " " (firstn k (x :: r))
         | None => String.concat " " (x :: r)
         end
  end.
