(** Path comparison, dp/base/bases.py:165-233. *)
From Coq Require Import List Bool ZArith String Ascii.
From Verif Require Import Prelude.
Import ListNotations.

(** [int(s)] for decimal digit strings with an optional minus sign. Simplified: python's
    int() also accepts a plus sign, surrounding blanks, underscores and non-ASCII digits;
    no path component of the loader contains those. *)
Definition digit_val (c : ascii) : option Z :=
  let n := nat_of_ascii c in
  if (48 <=? n)%nat && (n <=? 57)%nat then Some (Z.of_nat (n - 48)) else None.
Fixpoint digits_val (s : string) (acc : Z) : option Z :=
  match s with
  | EmptyString => Some acc
  | String c t => match digit_val c with Some d => digits_val t (10 * acc + d)%Z | None => None end
  end.
Definition py_int (s : string) : res Z :=
  match s with
  | EmptyString => Err ValueErr
  | String c t =>
    if Ascii.eqb c "-"%char
    then match t, digits_val t 0 with
         | String _ _, Some z => Ok (- z)%Z
         | _, _ => Err ValueErr
         end
    else match digits_val s 0 with Some z => Ok z | None => Err ValueErr end
  end.

(** [s[1:-1]] *)
Definition drop_first (s : string) : string := match s with EmptyString => EmptyString | String _ t => t end.
Fixpoint drop_last (s : string) : string :=
  match s with
  | EmptyString => EmptyString
  | String _ EmptyString => EmptyString
  | String c t => String c (drop_last t)
  end.

(** A component after the conversion of lines 212-216 *)
Inductive comp := CInt (z : Z) | CStr (s : string).
Definition convert (a : string) : res comp :=
  match a with
  | EmptyString => Ok (CStr a)
  | String c t =>
    if Ascii.eqb c "["%char
    then let! z := py_int (drop_last t) in Ok (CInt z)
    else Ok (CStr a)
  end.

(** lines 210-233, the zip loop *)
Fixpoint lt_loop (pa pb : path) : res bool :=
  match pa, pb with
  | a :: pa', b :: pb' =>
    let! a' := convert a in
    let! b' := convert b in
    match a', b' with
    | CInt x, CInt y => if (x =? y)%Z then lt_loop pa' pb' else Ok (x <? y)%Z
    | CStr x, CStr y => if String.eqb x y then lt_loop pa' pb' else Ok (String.ltb x y)
    | CInt _, CStr _ => Ok true
    | CStr _, CInt _ => Ok false
    end
  | _, _ => Ok true
  end.

(** dp/base/bases.py:181-233 compare_path_tuples__lt (the lru_cache is transparent: the
    function is pure and its keys are tuples of strings) *)
Definition path_lt (pa pb : path) : res bool :=
  if (List.length pa <? List.length pb)%nat then Ok true
  else if (List.length pb <? List.length pa)%nat then Ok false
  else lt_loop pa pb.

(** dp/base/bases.py:165-174 compare_path_tuples, on the paths of the two nodes *)
Definition compare_paths (pa pb : path) : res Z :=
  if path_eqb pa pb then Ok 0%Z
  else let! b := path_lt pa pb in Ok (if b then (-1)%Z else 1%Z).

(** [sorted(l, key=sort_by_path)] places x no later than y when the comparison is not
    positive. A comparison that raises aborts the sort; the model maps it to [false],
    the theorems are about paths on which it does not raise. *)
Definition path_leb (pa pb : path) : bool :=
  match compare_paths pa pb with Ok z => (z <=? 0)%Z | Err _ => false end.
Definition sort_by_path {A} (path_of : A -> path) (l : list A) : list A :=
  isort (fun x y => path_leb (path_of x) (path_of y)) l.
