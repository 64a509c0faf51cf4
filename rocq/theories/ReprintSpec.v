(** When a result printed again looks as it did at first, said without the printer. *)
From Coq Require Import List ZArith QArith Bool String.
From Verif Require Import Transcript Prelude Course Exceptions Json TranscriptSpec.
Import ListNotations.
Local Open Scope string_scope.

(** the text is somewhere in the value *)
Inductive occurs (k : string) : json -> Prop :=
| oc_here : occurs k (JStr k)
| oc_list l j : In j l -> occurs k j -> occurs k (JList l)
| oc_obj d x j : In (x, j) d -> occurs k j -> occurs k (JObj d).

(** the class is loaded for an audit as the file says: no exception or rule of the area changes it, and
    it is not under way in a known term *)
Definition as_in_the_file (now : option string) (os : list exc) (defaults : list (string * string)) (r : row) : Prop :=
  no_credit_override os (r_clbid r) /\ no_subject_override os (r_clbid r) /\
  (forall t, ~ In ("name=" ++ r_name r, t) defaults) /\
  (now = None \/ now = Some "" \/ (r_grade_code r <> "IP" /\ r_grade_code r <> "I")).
(** the audit leaves the class out: it was audited, repeated, withdrawn from, failed *)
Definition left_out (now : option string) (os : list exc) (defaults : list (string * string)) (r : row) : Prop :=
  exists c, load_course now os defaults r = Ok c /\ (dropped c \/ c_grade_code c = GF).
