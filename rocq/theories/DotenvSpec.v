(** What a file of settings says, apart from the reader. *)
From Coq Require Import List Bool String Ascii.
From Verif Require Import Prelude LabelSpec StudentSpec.
Import ListNotations.
Local Open Scope string_scope.

Definition without (c : ascii) (s : string) : Prop := ~ In c (list_ascii_of_string s).
Definition bare (s : string) : Prop := ~ starts_blank s /\ ~ ends_blank s.

(** what one line says: nothing, or that a name has a value *)
Inductive says : string -> option (string * string) -> Prop :=
| says_blank l : all_in blanks l -> says l None
| says_comment a t : all_in blanks a -> says (a ++ "#" ++ t) None
| says_setting a k b c v d :
    all_in blanks a -> all_in blanks b -> all_in blanks c -> all_in blanks d ->
    k <> "" -> bare k -> bare v -> without "=" k -> without "=" v -> (forall t, k <> "#" ++ t) ->
    says (a ++ k ++ b ++ "=" ++ c ++ v ++ d) (Some (k, v)).

(** the lines of a text: "\n" and "\r" end one *)
Inductive lines_of : list string -> string -> Prop :=
| lo_last l : without "010" l -> without "013" l -> lines_of [l] l
| lo_more l c ls t : without "010" l -> without "013" l -> In c ["010"%char; "013"%char] ->
    lines_of ls t -> lines_of (l :: ls) (l ++ one c ++ t).

(** the last line about a name decides *)
Definition latest (ls : list string) (k v : string) : Prop :=
  exists before l after, ls = (before ++ l :: after)%list /\ says l (Some (k, v)) /\
    forall l' w, In l' after -> ~ says l' (Some (k, w)).
Definition unmentioned (ls : list string) (k : string) : Prop := forall l v, In l ls -> ~ says l (Some (k, v)).
Definition readable (ls : list string) : Prop := forall l, In l ls -> exists o, says l o.
