(** dp/ms.py:55-73: a duration read from text, and dp/testbed/batch.py:37-83: what the option
    [--min] of the testbed is worth. Text is ascii ([\d] and [\s] also match other digits and
    blanks). *)
From Coq Require Import List ZArith QArith Bool String Ascii.
From Verif Require Import Dec Paths Keys Ms.
Import ListNotations.
Local Open Scope Z_scope.
Local Open Scope string_scope.

(** dp/ms.py:60 [re.sub(r'\s', '', string)] *)
Fixpoint no_white (s : string) : string :=
  match s with "" => "" | String c t => if white c then no_white t else String c (no_white t) end.

Definition is_digit (c : ascii) : bool := match digit_val c with Some _ => true | None => false end.
(** [[^-0-9]] *)
Definition is_other (c : ascii) : bool := negb (Ascii.eqb c "-") && negb (is_digit c).
(** the longest beginning of such characters, and the rest *)
Fixpoint span (p : ascii -> bool) (s : string) : string * string :=
  match s with
  | "" => ("", "")
  | String c t => if p c then let (a, b) := span p t in (String c a, b) else ("", s)
  end.
Definition take_minus (s : string) : bool * string :=
  match s with String c t => if Ascii.eqb c "-" then (true, t) else (false, s) | "" => (false, s) end.
(** [int(...)] of a sign and digits *)
Definition int_of (minus : bool) (ds : string) : Z :=
  match digits_val ds 0 with Some z => if minus then - z else z | None => 0 end.

(** dp/ms.py:61-62 [re.match(r'-?\d+$', cleaned)] *)
Definition whole (s : string) : Z :=
  let (minus, s1) := take_minus s in
  let (ds, r) := span is_digit s1 in
  match ds, r with String _ _, "" => int_of minus ds | _, _ => 0 end.

(** dp/ms.py:64 chunks, and [chunks.get(b, 0)] *)
Definition chunk (u : string) : Z :=
  if u =? "ms" then 1 else if u =? "s" then 1000 else if u =? "m" then 60 * 1000
  else if u =? "h" then 3600 * 1000 else if u =? "d" then 86400 * 1000 else 0.

(** a match of [-?\d+[^-0-9]+] at the beginning (dp/ms.py:66-68): the number, the unit, the rest *)
Definition token (s : string) : option (Z * string * string) :=
  let (minus, s1) := take_minus s in
  let (ds, s2) := span is_digit s1 in
  let (u, r) := span is_other s2 in
  match ds, u with String _ _, String _ _ => Some (int_of minus ds, u, r) | _, _ => None end.
(** dp/ms.py:66-69: [re.finditer] goes on after a match, or one character on; the fuel is the
    length of the text *)
Fixpoint chunks (fuel : nat) (s : string) : Z :=
  match fuel with
  | O => 0
  | S k =>
    match s with
    | "" => 0
    | String _ t =>
      match token s with
      | Some (z, u, r) => z * chunk u + chunks k r
      | None => chunks k t
      end
    end
  end.
(** dp/ms.py:60-69 *)
Definition text_total (s : string) : Z :=
  let cleaned := no_white s in whole cleaned + chunks (String.length cleaned) cleaned.

(** dp/ms.py:43-52 of a whole number of milliseconds, negative ones too: the divisions are rounded
    alike on both sides of zero and remainders have the sign of the dividend *)
Definition neg_ms (m : msec) : msec :=
  mkMs (- days m) (- hours m) (- minutes m) (- seconds m) (- millis m) (- micros m) (- nanos m).
Definition parse_ms_Z (z : Z) : msec := if (z <? 0)%Z then neg_ms (parse_ms (- z) 1) else parse_ms z 1.
(** dp/ms.py:55-73; what is not text is 0 *)
Definition parse_ms_str (s : option string) : msec :=
  match s with None => parse_ms_Z 0 | Some s => parse_ms_Z (text_total s) end.

(** dp/ms.py:32-33 sec (exact for at most 28 digits) *)
Definition sec (m : msec) : Q := inject_Z (ms_total m) / inject_Z 1000.
