(** The intended order of result paths. *)
From Coq Require Import List ZArith String Ascii.
From Verif Require Import Prelude Dec.
Import ListNotations.

(** The component for list index n, "[n]". *)
Definition index_comp (n : nat) : string :=
  String "["%char (str_of_Z (Z.of_nat n) ++ "]")%string.

Definition is_name (s : string) : Prop := forall t, s <> String "["%char t.

(** Well-formed components: an index, or a name that does not look like one. *)
Definition wf_component (s : string) : Prop := (exists n, s = index_comp n) \/ is_name s.
Definition wf_path (p : path) : Prop := Forall wf_component p.

(** indices by number, then names alphabetically *)
Inductive comp_before : string -> string -> Prop :=
| cb_index n m : n < m -> comp_before (index_comp n) (index_comp m)
| cb_index_name n s : is_name s -> comp_before (index_comp n) s
| cb_name s t : is_name s -> is_name t -> String.compare s t = Lt -> comp_before s t.

(** shorter paths first, then by the first differing component *)
Inductive before : path -> path -> Prop :=
| b_shorter p q : List.length p < List.length q -> before p q
| b_diff pre s t p q : comp_before s t -> List.length p = List.length q ->
                       before (pre ++ s :: p) (pre ++ t :: q).
