(** Looking up keys of dictionaries, and [str.strip]: what loaders use in several files of dp. *)
From Coq Require Import Bool Arith String Ascii.
From Verif Require Import Prelude.
Local Open Scope string_scope.

(** [data[key]] *)
Definition key {A} (o : option A) : res A := match o with Some a => Ok a | None => Err KeyErr end.
(** [data.get(key, default)] *)
Definition get {A} (o : option A) (d : A) : A := match o with Some a => a | None => d end.
(** [str.strip()], for ASCII white space *)
Definition white (c : ascii) : bool :=
  let n := nat_of_ascii c in Nat.eqb n 32 || (Nat.leb 9 n && Nat.leb n 13) || (Nat.leb 28 n && Nat.leb n 31).
Fixpoint lstrip (s : string) : string := match s with String c t => if white c then lstrip t else s | "" => "" end.
Fixpoint rstrip (s : string) : string :=
  match s with
  | "" => ""
  | String c t => match rstrip t with "" => if white c then "" else String c "" | r => String c r end
  end.
Definition strip (s : string) : string := rstrip (lstrip s).
