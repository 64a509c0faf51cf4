(** The messages of requirements as HTML: dp/autop/autop.py. *)
From Coq Require Import List Bool String Ascii.
From Verif Require Import Prelude Keys Dotenv.
Import ListNotations.
Local Open Scope string_scope.

Definition newline : ascii := "010"%char.
Definition is_newline (c : ascii) : bool := Ascii.eqb c newline.
(** [ \t] *)
Definition indenting (c : ascii) : bool := Ascii.eqb c " " || Ascii.eqb c "009"%char.

(** ** [textwrap.dedent] of python's library *)
(** the white space a line starts with; [None] if there is nothing else *)
Fixpoint lead (l : string) : option string :=
  match l with
  | "" => None
  | String c t => if indenting c then match lead t with Some w => Some (String c w) | None => None end else Some ""
  end.
Fixpoint common (a b : string) : string :=
  match a, b with
  | String c s, String d t => if Ascii.eqb c d then String c (common s t) else ""
  | _, _ => ""
  end.
Fixpoint margin (ls : list string) : option string :=
  match ls with
  | [] => None
  | l :: t => match lead l, margin t with
              | Some w, Some m => Some (common w m)
              | Some w, None => Some w
              | None, m => m
              end
  end.
(** [l] without [m] at its start *)
Fixpoint less (m l : string) : string :=
  match m, l with
  | "", _ => l
  | String c s, String d t => if Ascii.eqb c d then less s t else l
  | _, "" => l
  end.
Definition unindent (m l : string) : string := if String.prefix m l then less m l else l.
Definition dedent (s : string) : string :=
  let ls := map (fun l => match lead l with None => "" | Some _ => l end) (cut is_newline s) in
  String.concat (String newline "") (match margin ls with Some m => map (unindent m) ls | None => ls end).

(** [s.split('\n\n')] *)
Fixpoint paragraphs (s : string) : list string :=
  match s with
  | "" => [""]
  | String c t =>
    let other := match paragraphs t with h :: r => String c h :: r | [] => [String c ""] end in
    match t with
    | String d u => if is_newline c && is_newline d then "" :: paragraphs u else other
    | "" => other
    end
  end.
(** [' '.join(para.split('\n'))] *)
Definition one_line (s : string) : string := String.concat " " (cut is_newline s).
(** dp/autop/autop.py:16-20 wrap_untagged *)
Definition wrap_untagged (s : string) : string :=
  if String.prefix "<" s then s else "<p>" ++ s ++ "</p>".
(** dp/autop/autop.py:4-13 autop *)
Definition autop (s : string) : string :=
  String.concat "" (map wrap_untagged (map one_line (map strip (paragraphs (dedent s))))).
