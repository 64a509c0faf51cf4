(** Which parts of a result are marked as waived. *)
From Coq Require Import List Bool String.
From Verif Require Import Prelude Exceptions Query CourseRule Tree.
From Verif Require Import CourseRuleSpec TreeSpec TreeSolSpec.
Import ListNotations.

(** the parts whose class looks at the exceptions when it is loaded, rather than when it is
    solved *)
Definition marked_early (x : node) : Prop := match x with NQuery _ _ | NCond _ _ _ _ => True | _ => False end.
(** the mark [b] of something solved is right; that of a rule is still missing *)
Definition mark (l : list exc) (solved : Prop) (b : bool) (p : path) : Prop :=
  (solved -> (b = true <-> waived_at l p)) /\ (~ solved -> b = false).
(** the mark of a part of a tree is right, and so is that of the course of a proficiency *)
Definition marked (l : list exc) (x : node) : Prop :=
  mark l (kind_of x <> KRule \/ marked_early x) (overridden x) (path_of x) /\
  forall k i k' r, x = NProf k i (Some (k', r)) -> mark l (k' <> KRule) (r_overridden r) (r_path r).
Definition all_marked (l : list exc) (n : node) : Prop := forall x, part_of n x -> marked l x.
(** no course rule of the tree is to be waived of its own accord; the loader never marks one
    like this *)
Definition none_auto (n : node) : Prop :=
  (forall k r, part_of n (NCourse k r) -> r_auto_waived r = false) /\
  (forall k i k' r, part_of n (NProf k i (Some (k', r))) -> r_auto_waived r = false).
