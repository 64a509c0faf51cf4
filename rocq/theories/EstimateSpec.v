(** What the estimates are compared with, stated without the functions that compute them *)
From Coq Require Import List Bool Arith ZArith String.
From Verif Require Import Prelude Transcript Course Context Query CourseRule Tree TreeSpec TreeSolSpec Solve Area.
Import ListNotations.
Local Open Scope string_scope.
Local Open Scope list_scope.

(** the names of a path, separated by arrows, tell the children of a rule apart *)
Definition told_apart (l : list node) : Prop :=
  forall c d, In c l -> In d l -> String.concat " → " (path_of c) = String.concat " → " (path_of d) -> path_of c = path_of d.
(** a course rule offers at most one candidate *)
Definition one_candidate (ord : list course -> list course) (cx : ctx) (x : node) : Prop :=
  match x with NCourse _ r => (List.length (g_items (solutions ord cx x)) <= 1)%nat | _ => True end.
(** a query is marked as waived when it is waived *)
Definition in_order (cx : ctx) (x : node) : Prop :=
  match x with
  | NQuery _ q => q_overridden q = waived cx (q_path q)
  | NCount _ _ items => told_apart items
  | _ => True
  end.
(** the whole tree *)
Definition orderly (cx : ctx) (n : node) : Prop := forall x, part_of n x -> in_order cx x.
Definition unrepeated (ord : list course -> list course) (cx : ctx) (n : node) : Prop := forall x, part_of n x -> one_candidate ord cx x.
(** a course rule offers one candidate; the number of solutions of a query is what is
    estimated; a conditional has a branch for its condition *)
Definition leaf_exact (ord : list course -> list course) (cx : ctx) (x : node) : Prop :=
  match x with
  | NCourse _ _ => exists s, solutions ord cx x = Gen [s] None
  | NQuery _ q => g_exn (q_solutions ord cx q) = None /\
                  q_estimate ord cx q = Ok (Z.of_nat (List.length (g_items (q_solutions ord cx q))))
  | NProf _ _ _ => g_exn (solutions ord cx x) = None
  | NCond _ i t f => exists y, in_force i t f y
  | _ => True
  end.
Definition exact_leaves (ord : list course -> list course) (cx : ctx) (n : node) : Prop := forall x, part_of n x -> leaf_exact ord cx x.
