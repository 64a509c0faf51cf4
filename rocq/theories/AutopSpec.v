(** What the HTML of a message should be. *)
From Coq Require Import List Bool Arith String Ascii.
From Verif Require Import Prelude LabelSpec StudentSpec DotenvSpec.
Import ListNotations.
Local Open Scope string_scope.

Definition nl : string := one "010".
Definition spaces_or_tabs : list ascii := [" "%char; "009"%char].
Definition indentation (s : string) : Prop := all_in spaces_or_tabs s.

(** the lines of a text are joined by newlines and have none *)
Definition has_lines (s : string) (ls : list string) : Prop :=
  ls <> [] /\ Forall (without "010") ls /\ s = String.concat nl ls.
(** [m] starts every line that is not empty; it is the longest such indentation *)
Definition starts_all (m : string) (ls : list string) : Prop :=
  indentation m /\ forall l, In l ls -> ~ indentation l -> exists t, l = m ++ t.
Definition margin_of (m : string) (ls : list string) : Prop :=
  starts_all m ls /\ forall m', starts_all m' ls -> (exists l, In l ls /\ ~ indentation l) -> String.length m' <= String.length m.
(** the same text with its margin taken away *)
Definition dedented (s d : string) : Prop :=
  exists ls ls' m, has_lines s ls /\ has_lines d ls' /\ margin_of m ls /\
    Forall2 (fun l l' => (indentation l -> l' = "") /\ (~ indentation l -> l = m ++ l')) ls ls'.
(** paragraphs end at the first two newlines in a row *)
Inductive in_paragraphs : list string -> string -> Prop :=
| ip_last p : (forall a b, p <> a ++ nl ++ nl ++ b) -> in_paragraphs [p] p
| ip_more p ps t : (forall a b, p ++ nl <> a ++ nl ++ nl ++ b) -> in_paragraphs ps t -> in_paragraphs (p :: ps) (p ++ nl ++ nl ++ t).
(** a paragraph on one line, without white space around it *)
Definition flat (p c : string) : Prop :=
  exists t ls, trimmed p t /\ has_lines t ls /\ c = String.concat " " ls.
Definition block (c b : string) : Prop :=
  (exists t, c = "<" ++ t) /\ b = c \/ (forall t, c <> "<" ++ t) /\ b = "<p>" ++ c ++ "</p>".
Definition html (s h : string) : Prop :=
  exists d ps cs bs, dedented s d /\ in_paragraphs ps d /\ Forall2 flat ps cs /\ Forall2 block cs bs /\ h = String.concat "" bs.

(** the characters of a text that are not white space *)
Definition ink (s : string) : list ascii := filter (fun c => negb (existsb (Ascii.eqb c) blanks)) (list_ascii_of_string s).
(** the same message further to the right *)
Definition indented (w s s' : string) : Prop :=
  indentation w /\ exists ls ls', has_lines s ls /\ has_lines s' ls' /\
    Forall2 (fun l l' => indentation l /\ indentation l' \/ ~ indentation l /\ l' = w ++ l) ls ls'.
