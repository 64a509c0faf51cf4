(** The specification used when there is no file: load_area of dp/run.py. *)
From Coq Require Import List ZArith Bool String.
From Verif Require Import Prelude Loader AreaLoad.
Import ListNotations.
Local Open Scope string_scope.
Local Open Scope list_scope.

(** dp/run.py:101-105, one entry of "all"; the message is only displayed *)
Definition error_rule : rdata :=
  mkRd None None None None None None (Some ("Error", mkRbody None None true false true None false)) None.
(** dp/run.py:95-107, from the stem of the name of the file *)
Definition missing_area (stem : string) : aspec :=
  mkAspec (Some stem) (Some "error") None (Some stem) []
    (Some (mkRd None None None None None (Some (mkRcount (Some [error_rule]) None None None None None false None false)) None None))
    None None [] false.
(** dp/run.py:87-107 load_area: [file] is what the file holds, if there is one *)
Definition read_area (file : option aspec) (stem : string) : aspec :=
  match file with Some s => s | None => missing_area stem end.
