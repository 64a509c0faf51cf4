(** dp/status.py *)
From Coq Require Import List Bool.
Import ListNotations.

(** dp/status.py:5-13 ResultStatus *)
Inductive status :=
| Empty | PendingApproval | NeedsMoreItems | PendingRegistered | PendingCurrent
| Done | Waived | FailedInvariant.

Definition status_eqb (a b : status) : bool :=
  match a, b with
  | Empty, Empty | PendingApproval, PendingApproval | NeedsMoreItems, NeedsMoreItems
  | PendingRegistered, PendingRegistered | PendingCurrent, PendingCurrent
  | Done, Done | Waived, Waived | FailedInvariant, FailedInvariant => true
  | _, _ => false
  end.

(** dp/status.py:16 PassingStatuses *)
Definition passing_statuses := [Waived; Done; PendingCurrent; PendingRegistered].
(** dp/status.py:21-26 *)
Definition WAIVED_ONLY := [Waived].
Definition WAIVED_AND_DONE := WAIVED_ONLY ++ [Done].
Definition WAIVED_DONE_CURRENT := WAIVED_AND_DONE ++ [PendingCurrent].
Definition WAIVED_DONE_CURRENT_PENDING := WAIVED_DONE_CURRENT ++ [PendingRegistered].
Definition WAIVED_DONE_CURRENT_PENDING_INCOMPLETE :=
  WAIVED_DONE_CURRENT_PENDING ++ [NeedsMoreItems].
Definition EMPTY_AND_DEPARTMENTAL := [Empty; PendingApproval].

(** python [s in S] *)
Definition inS (s : status) (S : list status) : bool := existsb (status_eqb s) S.
(** python [A.issubset(B)] *)
Definition subS (A B : list status) : bool := forallb (fun s => inS s B) A.
(** python [A == B] on sets *)
Definition eqS (A B : list status) : bool := subS A B && subS B A.
