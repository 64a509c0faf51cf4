(** What fetching promises, said of rows. *)
From Coq Require Import List ZArith Bool String.
From Verif Require Import Prelude Testbed Server Fetch.
Import ListNotations.

(** the run that is asked for: none ([None]: the active results), the one named, the one typed *)
Inductive selection (latest : bool) (run answer : option Z) : option Z -> Prop :=
| sel_latest : latest = true -> selection latest run answer None
| sel_run n : latest = false -> run = Some n -> n <> 0%Z -> selection latest run answer (Some n)
| sel_answer n : latest = false -> run = None \/ run = Some 0%Z -> answer = Some n -> selection latest run answer (Some n).
Definition belongs (sel : option Z) (r : remote) : Prop :=
  m_result r <> None /\ match sel with Some n => m_run r = n | None => m_active r = true end.
Definition same_row (r : remote) (l : copied) : Prop :=
  l_key l = m_key r /\ l_run l = m_run r /\ m_result r = Some (l_result l) /\ m_input r = Some (l_input l) /\ m_rest r = Some (l_rest l).
(** the rows that belong, one after the other *)
Inductive copies (sel : option Z) : list remote -> list copied -> Prop :=
| cp_nil : copies sel [] []
| cp_yes r rs l ls : belongs sel r -> same_row r l -> copies sel rs ls -> copies sel (r :: rs) (l :: ls)
| cp_no r rs ls : ~ belongs sel r -> copies sel rs ls -> copies sel (r :: rs) ls.
Definition unique_keys (t : list copied) : Prop := NoDup (map l_key t).

(** the table of results of the server (dp/server/audit.py:70-150) as it is read; [inp] and [rest]
    are columns that [Server] leaves out *)
Definition published (inp : rrow -> string) (rest : rrow -> outcome) (d : database) : list remote :=
  map (fun r => mkRemote (mkTKey (r_student r) (r_catalog r) (r_code r)) (r_run r) (r_active r) (Some (r_result r)) (Some (inp r)) (Some (rest r))) (results d).
Definition fits (o : option string) (x : string) : Prop := forall y, o = Some y -> x = y.
