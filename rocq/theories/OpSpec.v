(** What the comparison operators mean, independently of the code. *)
From Coq Require Import List ZArith QArith Bool String.
From Verif Require Import Prelude Dec Course Op.
Import ListNotations.

Definition non_null (s : scalar) : Prop := s <> SNone.

(** Text compares as text (the other operand is rendered), numbers as numbers, grades and
    grade options by identity. *)
Inductive same_value : scalar -> scalar -> Prop :=
| sv_text a b : is_str a = true \/ is_str b = true -> py_str a = py_str b -> same_value a b
| sv_num a b x y : num a = Some x -> num b = Some y -> x == y -> same_value a b
| sv_grade g : same_value (SGrade g) (SGrade g)
| sv_opt o : same_value (SOpt o) (SOpt o).

(** Grades from worst to best; the codes without a quality come first. *)
Definition grades_ascending : list grade_code :=
  [G_BC; G_AB; G_NG; G_IP; G_I; G_P; G_N; G_S; G_U; G_AU; G_UA; G_WF; G_WP; G_W; G_REG;
   GF; GDminus; GD; GDplus; GCminus; GC; GCplus; GBminus; GB; GBplus; GAminus; GA; GAplus].
Definition worse (a b : grade_code) : Prop :=
  exists x y z, grades_ascending = x ++ a :: y ++ b :: z.

Definition is_num (s : scalar) : bool :=
  match s with SBool _ | SInt _ | SDec _ => true | _ => false end.

(** Kinds whose members can be ordered among each other. *)
Inductive kind := KNum | KText | KGrade.
Definition of_kind (k : kind) (s : scalar) : Prop :=
  match k, s with
  | KNum, SBool _ | KNum, SInt _ | KNum, SDec _ => True
  | KText, SStr _ => True
  | KGrade, SGrade _ => True
  | _, _ => False
  end.

(** The intended order within a kind. *)
Inductive less : scalar -> scalar -> Prop :=
| ls_num a b x y : num a = Some x -> num b = Some y -> (x < y)%Q -> less a b
| ls_text a b : String.compare a b = Lt -> less (SStr a) (SStr b)
| ls_grade a b : worse a b -> less (SGrade a) (SGrade b).

(** Calls that involve no coercion of a number, grade, ... to text. *)
Definition scalars (v : value) : list scalar := match v with VS s => [s] | VT l => l end.
Definition uncoerced (l r : value) : Prop :=
  (Forall (fun s => is_str s = true) (scalars l) /\ Forall (fun s => is_str s = true) (scalars r)) \/
  (Forall (fun s => is_str s = false) (scalars l) /\ Forall (fun s => is_str s = false) (scalars r) /\
   ~ (exists a b, l = VT a /\ r = VT b)).
