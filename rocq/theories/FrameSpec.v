(** Where the audit of an area looks for exceptions: the paths of the parts of its rules. *)
From Coq Require Import List Bool String.
From Verif Require Import Transcript Prelude Status Course Claims Exceptions Context CondExpr Paths Assertion Query CourseRule Tree TreeSolSpec.
Import ListNotations.

(** the paths of a part itself *)
Definition places (n : node) : list path :=
  match n with
  | NCourse _ r => [r_path r]
  | NQuery _ q => [q_path q]
  | NCount _ i _ => [n_path i]
  | NReq _ i _ => [e_path i]
  | NCond _ _ _ _ => []
  | NProf _ i c => f_path i :: match c with Some (_, r) => [r_path r] | None => [] end
  end.
(** the assertions of a part itself *)
Definition own_assertions (n : node) : list any_assertion :=
  match n with NQuery _ q => q_asserts q | NCount _ i _ => n_audits i | _ => [] end.
Definition variants (a : any_assertion) : list assertion :=
  match a with
  | APlain x => [x]
  | AIf _ _ t (Some e) => [t; e]
  | AIf _ _ t None => [t]
  | AWhen _ _ t => [t]
  end.
(** the paths that name a part of a rule, or one of its assertions *)
Definition names_part (n : node) (p : path) : Prop := exists x, part_of n x /\ In p (places x).
Definition names_assertion (n : node) (p : path) : Prop :=
  exists x a v, part_of n x /\ In a (own_assertions x) /\ In v (variants a) /\ p = as_path v.
(** the conditions of the assertions have been looked at, as the loader does *)
Definition decided_assertion (a : any_assertion) : Prop := match a with AIf _ c _ _ => e_result c <> None | _ => True end.
Definition decided (n : node) : Prop := forall x a, part_of n x -> In a (own_assertions x) -> decided_assertion a.
(** one path is at or above the other *)
Definition above (p q : path) : Prop := exists r, q = (p ++ r)%list.
(** the parts that are asked whether anything could help them: all but the count at the top *)
Inductive asked_beneath : node -> path -> Prop :=
| ab_count k i items x p : In x items -> names_part x p -> asked_beneath (NCount k i items) p
| ab_true k i t f p : asked_beneath t p -> asked_beneath (NCond k i t f) p
| ab_false k i t x p : asked_beneath x p -> asked_beneath (NCond k i t (Some x)) p
| ab_other n p : match n with NCount _ _ _ | NCond _ _ _ _ => False | _ => True end -> names_part n p -> asked_beneath n p.
