(** What the loaded transcript should be, independently of the loading loop. *)
From Coq Require Import List ZArith QArith Bool String.
From Verif Require Import Prelude Dec Course Op Exceptions Context Predicate Transcript.
Import ListNotations.
Local Open Scope string_scope.
Local Open Scope list_scope.

(** [d] is [q] cut after two decimals, towards zero *)
Definition cut_to_hundredths (q : Q) (d : dec) : Prop :=
  exists z, d = mkDec z (-2) /\
  ((0 <= q)%Q -> (0 <= z)%Z /\ (z # 100 <= q)%Q /\ (q < (z + 1) # 100)%Q) /\
  ((q < 0)%Q -> (z <= 0)%Z /\ (q <= z # 100)%Q /\ ((z - 1) # 100 < q)%Q).

Definition points_of (cs : list course) : Q := fold_right Qplus 0%Q (map (fun c => dval (c_gpa_points c)) cs).
Definition credits_of (cs : list course) : Q := fold_right Qplus 0%Q (map (fun c => dval (c_credits c)) cs).

(** rows that never count *)
Definition dropped (c : course) : Prop :=
  c_grade_option c = GoAudit \/
  c_transcript_code c = TcRepeatedLater \/ c_transcript_code c = TcRepeatInProgress \/
  In (c_grade_code c) [G_N; G_U; G_AU; G_UA; G_WF; G_WP; G_W].

(** the first course of a class keeps its class id, later ones get "clbid:schedid"; an id is
    never given twice. [seen]: the ids given so far. *)
Inductive numbered : list string -> list course -> list course -> Prop :=
| nb_nil seen : numbered seen [] []
| nb_first seen c t t' :
    ~ In (c_clbid c) seen -> numbered (c_clbid c :: seen) t t' -> numbered seen (c :: t) (c :: t')
| nb_again seen c k s t t' :
    In (c_clbid c) seen -> s = match c_schedid c with Some s => s | None => "None" end ->
    k = (c_clbid c ++ ":" ++ s)%string -> ~ In k seen ->
    numbered (k :: seen) t t' -> numbered seen (c :: t) (set_clbid c k :: t').

Definition sorted_before (a b : course) : Prop := course_cmp a b <> Gt.

(** [d] is the amount of the last credit override recorded for class [k] *)
Definition last_credit_override (os : list exc) (k : string) (d : dec) : Prop :=
  exists a o b, os = a ++ o :: b /\ ex_act o = ACredits k d /\
    forall o' d', In o' b -> ex_act o' <> ACredits k d'.
Definition no_credit_override (os : list exc) (k : string) : Prop :=
  forall o d, In o os -> ex_act o <> ACredits k d.
Definition last_subject_override (os : list exc) (k : string) (s : string) : Prop :=
  exists a o b, os = a ++ o :: b /\ ex_act o = ASubject k s /\
    forall o' s', In o' b -> ex_act o' <> ASubject k s'.
Definition no_subject_override (os : list exc) (k : string) : Prop :=
  forall o s, In o os -> ex_act o <> ASubject k s.
(** an override about class [k] *)
Definition about (k : string) (o : exc) : Prop :=
  (exists d, ex_act o = ACredits k d) \/ (exists s, ex_act o = ASubject k s).
