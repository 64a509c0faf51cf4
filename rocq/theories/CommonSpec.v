(** What the rules common to all majors ask for. *)
From Coq Require Import List ZArith QArith Bool String.
From Verif Require Import Prelude Dec Course Claims Exceptions Op Context Predicate.
From Verif Require Import ListFacts PredicateSpec TranscriptSpec Apply AssertionSpec.
Import ListNotations.
Local Open Scope string_scope.
Local Open Scope list_scope.

(** no exception is aimed at the common rules *)
Definition no_common_exceptions (es : list exc) : Prop :=
  forall e s, In e es -> ex_path e <> ["$"; "%Common Requirements"] ++ s.
(** [cs] are the members of [l] that have the property, in the order of [l] *)
Definition those (P : course -> Prop) (l cs : list course) : Prop :=
  exists f, (forall c, In c l -> (f c = true <-> P c)) /\ cs = filter f l.

(** a grade of C or better, where C- suffices in the covid term; the grade is the one that
    counts, that is the letter behind an S in the covid term *)
Definition c_or_better (c : course) : Prop :=
  exists g, counted_grade c g /\
    (In g [GAplus; GA; GAminus; GBplus; GB; GBminus; GCplus; GC] \/ (g = GCminus /\ c_covid c = true)).
(** what counts towards the six credits *)
Definition for_six_credits (c : course) : Prop :=
  (c_or_better c \/ c_in_progress c = true) /\ (0 < dval (c_credits c))%Q.
(** a full course taken S/U; in music, any course *)
Definition full_course (c : course) : Prop := (dval (c_credits c) == 1)%Q.
Definition taken_su (bm : bool) (c : course) : Prop :=
  c_grade_option c = GoSU /\ (bm = true \/ full_course c).
(** a course that is not in one of the subjects and no placeholder *)
Definition outside_of (subjects : list string) (c : course) : Prop :=
  exists s, counted_subject c s /\ ~ In s subjects /\ s <> "REG" /\ s <> "OFFC".
(** majoring in studio art and art history at once *)
Definition both_arts (code : string) (codes : list string) : Prop :=
  (code = "140" /\ In "135" codes) \/ (code = "135" /\ In "140" codes).

(** ** The three demands, on a list of courses *)
Definition six_credits (l : list course) : Prop := exists cs, those for_six_credits l cs /\ (6 <= credits_of cs)%Q.
Definition few_su (bm : bool) (l : list course) : Prop :=
  exists cs n, those (taken_su bm) l cs /\ how_many (fun c => In c cs) n /\ (n <= (if bm then 0 else 1))%Q.
Definition enough_outside (dept code : string) (codes : list string) (l : list course) : Prop :=
  (both_arts code codes /\ exists cs, those (fun c => outside_of ["ART"] c /\ full_course c) l cs /\ (18 <= credits_of cs)%Q) \/
  (~ both_arts code codes /\ exists cs,
     those (outside_of (if String.eqb code "450" then ["MUSIC"; "MUSPF"; "MUSEN"] else [dept])) l cs /\ (21 <= credits_of cs)%Q).
