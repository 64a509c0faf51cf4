(** dp/run.py find_area: which specification file is used. *)
From Coq Require Import List ZArith Bool String Ascii.
From Verif Require Import Prelude Dec.
Import ListNotations.
Local Open Scope string_scope.

(** [s[2:]] *)
Definition drop2 (s : string) : string :=
  match s with String _ (String _ t) => t | _ => "" end.

(** dp/run.py:70 max_folder; dp/server/whatif.py:28, dp/bin/expand.py:66 in the same way *)
Definition folder_of (year : Z) : string := str_of_Z year ++ "-" ++ drop2 (str_of_Z (year + 1)).

(** [a <= b] of strings *)
Definition str_le (a b : string) : bool := match String.compare a b with Gt => false | _ => true end.

Fixpoint has_dash (s : string) : bool :=
  match s with "" => false | String c t => Ascii.eqb c "-" || has_dash t end.

(** The folders beneath the root with the files in them. *)
Definition listing := list (string * list string).

(** dp/run.py:73-77: [root.glob('*-*/CODE.yaml')] and the filter, for a code without
    wildcard characters; the paths found differ in their folders only *)
Definition matching (l : listing) (max_folder code : string) : list string :=
  map fst (filter (fun f => has_dash (fst f) && existsb (String.eqb (code ++ ".yaml")) (snd f) && str_le (fst f) max_folder) l).

(** [max(paths)] *)
Fixpoint str_max (x : string) (l : list string) : string :=
  match l with
  | [] => x
  | y :: t => str_max (if str_le y x then x else y) t
  end.

(** dp/run.py:69-84 find_area: the folder of the file *)
Definition find_area (l : listing) (catalog : Z) (code : string) : option string :=
  match matching l (folder_of catalog) code with
  | [] => None
  | x :: t => Some (str_max x t)
  end.
