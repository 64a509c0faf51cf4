(** What is shown of an audit, up to the context that a result carries along. *)
From Coq Require Import List ZArith QArith Bool String.
From Verif Require Import Transcript Prelude Dec Status Course Claims Exceptions Context Query CourseRule Tree Driver Area.
Import ListNotations.
Local Open Scope list_scope.

(** the same area, the same tree of results, and the same average *)
Definition same_result (v v' : area_result) : Prop := v_area v' = v_area v /\ v_result v' = v_result v /\ area_gpa v' = area_gpa v.
Inductive same_event : event area_result -> event area_result -> Prop :=
| se_audit i : same_event (EAudit i) (EAudit i)
| se_estimate n : same_event (ESay (MEstimate n)) (ESay (MEstimate n))
| se_none : same_event (ESay MNoAudits) (ESay MNoAudits)
| se_progress q j n i : same_event (ESay (MProgress q j n i)) (ESay (MProgress q j n i))
| se_result v v' j n i : same_result v v' -> same_event (ESay (MResult v j n i)) (ESay (MResult v' j n i)).
(** event by event, and with the same exception at the end or none *)
Definition same_trace (a b : trace area_result) : Prop := Forall2 same_event (fst a) (fst b) /\ snd b = snd a.
