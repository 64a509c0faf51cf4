(** What limits mean, independently of the search in dp/limit.py. *)
From Coq Require Import List ZArith QArith Bool String.
From Verif Require Import Prelude Dec Course Op Context Predicate Limit.
Import ListNotations.

Definition matches (l : limit) (c : course) : Prop := apply_pred (ICourse c) (lm_where l) = Ok true.
(** the where clause raises nothing on this course *)
Definition decided (l : limit) (c : course) : Prop := exists b, apply_pred (ICourse c) (lm_where l) = Ok b.
Definition forced (F : list string) (c : course) : Prop := In (c_clbid c) F.

(** limits that python finds equal are the same limit *)
Definition coherent (ls : list limit) : Prop :=
  forall a b, In a ls -> In b ls -> lm_id a = lm_id b -> a = b.
(** no limit is listed twice *)
Definition distinct (ls : list limit) : Prop := NoDup (map lm_id ls).

(** the courses of [t] that a limit restricts *)
Definition restricted (F : list string) (l : limit) (t : list course) : list course :=
  filter (fun c => negb (existsb (String.eqb (c_clbid c)) F) &&
                   match apply_pred (ICourse c) (lm_where l) with Ok b => b | Err _ => false end) t.

Definition count (l : list course) : Q := inject_Z (Z.of_nat (List.length l)).
Definition total_credits (l : list course) : Q := fold_right Qplus 0 (map (fun c => dval (c_credits c)) l).

Definition same_set (a b : list course) : Prop := forall c, In c a <-> In c b.

(** a course that some limit may remove *)
Definition removable (F : list string) (ls : list limit) (c : course) : Prop :=
  ~ forced F c /\ exists l, In l ls /\ matches l c.

(** sorted by type group, then year, then term, then clbid *)
Definition before (a b : course) : Prop := course_cmp a b <> Gt.
