(** Reading settings from a file into the environment: dp/dotenv/dotenv.py. *)
From Coq Require Import List Bool String Ascii.
From Verif Require Import Prelude Keys Claims.
Import ListNotations.
Local Open Scope string_scope.

(** [s.split(c)] where [p] tells [c] *)
Fixpoint cut (p : ascii -> bool) (s : string) : list string :=
  match s with
  | "" => [""]
  | String c t => if p c then "" :: cut p t
                  else match cut p t with h :: r => String c h :: r | [] => [String c ""] end
  end.
(** a file opened as text gives "\n", "\r" and "\r\n" as the end of a line; the empty line that
    taking "\r\n" apart adds is skipped below *)
Definition line_end (c : ascii) : bool :=
  Ascii.eqb c "010"%char || Ascii.eqb c "013"%char.

(** dp/dotenv/dotenv.py:11-25, one line *)
Definition read_line (args : list (string * string)) (l : string) : res (list (string * string)) :=
  let l := strip l in
  if String.prefix "#" l then Ok args
  else if String.eqb l "" then Ok args
  else match cut (Ascii.eqb "=") l with
       | [k; v] => let k := strip k in let v := strip v in
                   if String.eqb k "" then Err AssertErr else Ok (dset args k v)
       | _ => Err ValueErr
       end.
Fixpoint read_lines (args : list (string * string)) (ls : list string) : res (list (string * string)) :=
  match ls with
  | [] => Ok args
  | l :: t => let! a := read_line args l in read_lines a t
  end.
(** dp/dotenv/dotenv.py:6-30 read; [None]: there is no such file *)
Definition read (file : option string) : res (list (string * string)) :=
  match file with
  | None => Ok []
  | Some text => read_lines [] (cut line_end text)
  end.
(** dp/dotenv/dotenv.py:33-37 load, from the environment before to the one after. Simplified:
    the system takes every name and value. *)
Definition load (env : list (string * string)) (file : option string) : res (list (string * string)) :=
  let! args := read file in
  Ok (fold_left (fun e kv => dset e (fst kv) (snd kv)) args env).
