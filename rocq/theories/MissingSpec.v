(** What an area without a specification comes to. *)
From Coq Require Import List String.
From Verif Require Import Prelude Status Exceptions TreeSpec CourseRuleSpec.
Import ListNotations.
Local Open Scope string_scope.

(** the rule at the top of such an area, and its only child *)
Definition missing_top : path := ["$"; ".count"].
Definition missing_error : path := ["$"; ".count"; "[0]"; "%Error"].
(** the status of such an area with the exceptions [es] *)
Inductive missing_status (es : list exc) : status -> Prop :=
| ms_top : waived_at es missing_top -> missing_status es Waived
| ms_error : ~ waived_at es missing_top -> waived_at es missing_error -> missing_status es Done
| ms_neither : ~ waived_at es missing_top -> ~ waived_at es missing_error -> missing_status es Empty.
(** no exception adds a class to such an area *)
Definition nothing_added (es : list exc) : Prop := forall e k f, In e es -> ex_path e = missing_top -> ex_act e <> AInsert k f.
