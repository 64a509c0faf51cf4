(** Printing a stored result again: dp/bin/print.py. *)
From Coq Require Import List ZArith QArith Bool String.
From Verif Require Import Transcript Prelude Course Paths Json Report.
Import ListNotations.

(** dp/bin/print.py:24-30: the classes of the student's file, without the current term and
    without overrides; the dictionary by class id is [on_transcript] *)
Definition reprint_transcript (rows : list row) : res (list course) := mapr (load_course None [] []) rows.
(** dp/bin/print.py:13-31 main: the lines that are printed. The output of [dp --json] has been read
    from its file; paths and ranks are shown and no path is asked for
    (dp/stringify_v3.py:60-67). *)
Definition reprint (repr quote : string -> string) (g4 dtext : Q -> string) (data : json) (rows : list row) : res (list string) :=
  let! cs := reprint_transcript rows in
  print_result repr quote g4 dtext cs true true None 0 data.
