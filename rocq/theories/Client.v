(** Those who listen to the messages of a run: the server (dp/server/audit.py), the testbed
    (dp/testbed/audit.py, run.py, render.py) and the command line (dp/__main__.py). Durations and the texts of log
    lines are left out, the time is looked at only where the testbed gives up. *)
From Coq Require Import List ZArith QArith Bool String.
From Verif Require Import Transcript Prelude Dec Status Course Exceptions Paths Context Predicate Tree Loader Driver Area AreaLoad Label StudentLoad Run Json Report Claimed.
Import ListNotations.
Local Open Scope string_scope.
Local Open Scope list_scope.

(** what [for msg in run(...)] meets: messages, and the exception that ends them. The reports of
    --transcript and --gpa are printed by run itself (dp/run.py:36-50). *)
Fixpoint spoken {R} (l : list (event R)) : list (message R) :=
  match l with [] => [] | ESay m :: t => m :: spoken t | EAudit _ :: t => spoken t end.
Definition messages (r : res shown) : list (message area_result) * option err :=
  match r with
  | Err e => ([], Some e)
  | Ok (ShAudit tr) => (spoken (fst tr), snd tr)
  | Ok (ShTranscript _) | Ok (ShGpa _) => ([], None)
  end.

(** ** The server (dp/server/audit.py:15-162) *)

(** what the student's data holds under "name", "name_sort", "classification" and "class" *)
Record person := mkPerson { pn_name : option string; pn_name_sort : option string; pn_classification : option string; pn_class : option string }.
(** the arguments beside the student and the area *)
Record job := mkJob { jb_stnum : string; jb_code : string; jb_catalog : string; jb_run : Z; jb_expires : option string; jb_link_only : bool }.
(** the row that is inserted, dp/server/audit.py:71-150 *)
Record server_row := mkServerRow {
  sv_student : string; sv_code : string; sv_catalog : string; sv_run : Z; sv_expires : option string;
  sv_link_only : bool; sv_active : bool; sv_version : json; sv_iterations : Z; sv_rank : json; sv_max_rank : json;
  sv_result : json; sv_ok : json; sv_gpa : json; sv_claimed : list (string * list path); sv_status : json;
  sv_classification : string; sv_class : option string; sv_name : option string; sv_name_sort : option string }.
(** SQL's nullif(x, '') *)
Definition nullif_empty (s : string) : option string := if s =? "" then None else Some s.
(** dp/server/audit.py:42-152 *)
Definition server_row_of (p : person) (b : job) (v : area_result) (iters : Z) : res server_row :=
  let! j := area_json v in
  let! d := jobj j in
  let! rank := jkey d "rank" in
  let! max_rank := jkey d "max_rank" in
  let! gpa := jkey d "gpa" in
  let! ok := jkey d "ok" in
  let! status := jkey d "status" in
  let! name := key (pn_name p) in
  let! sort := key (pn_name_sort p) in
  let! classification := key (pn_classification p) in
  let! class := key (pn_class p) in
  let! version := jkey d "version" in
  Ok (mkServerRow (jb_stnum b) (jb_code b) (jb_catalog b) (jb_run b) (jb_expires b) (jb_link_only b) (negb (jb_link_only b))
        version iters rank max_rank j ok gpa (keyed_claims v) status
        classification (if class =? "None" then None else Some class) (nullif_empty name) (nullif_empty sort)).
(** dp/server/cli.py:36-45: what the command line of the server asks for. Its option --link-only is
    read (line 24) and not used. *)
Definition cli_job (link_only : bool) (run_id : Z) (stnum catalog code : string) : job :=
  mkJob stnum code catalog run_id None true.
(** log lines *)
Inductive note := NothingDone | Failed (e : err).
(** dp/server/audit.py:31-162: the first result is stored, an exception is logged. What the
    statements do to the database is in Server. *)
Fixpoint server_listens (p : person) (b : job) (l : list (message area_result)) (e : option err) : list note * option server_row :=
  match l with
  | [] => (match e with Some x => [Failed x] | None => [] end, None)
  | MNoAudits :: t => let '(ns, r) := server_listens p b t e in (NothingDone :: ns, r)
  | MEstimate _ :: t | MProgress _ _ _ _ :: t => server_listens p b t e
  | MResult v _ iters _ :: _ =>
    match server_row_of p b v iters with Ok r => ([], Some r) | Err x => ([Failed x], None) end
  end.

(** ** The testbed (dp/testbed/audit.py) *)

(** json.dumps(..., sort_keys=True) *)
Definition pair_leb (a b : string * json) : bool := str_leb (fst a) (fst b).
Fixpoint sort_keys (j : json) : json :=
  match j with
  | JList l => JList (map sort_keys l)
  | JObj d => JObj (isort pair_leb (map (fun kv => (fst kv, sort_keys (snd kv))) d))
  | _ => j
  end.
(** dp/testbed/audit.py:49-63, without the duration *)
Record testbed_row := mkTestbedRow {
  tb_run : string; tb_stnum : string; tb_catalog : string; tb_code : string; tb_iterations : Z;
  tb_gpa : json; tb_ok : json; tb_rank : json; tb_max_rank : json; tb_result : json; tb_status : json; tb_version : Z }.
Definition testbed_row_of (run_id stnum catalog code : string) (v : area_result) (iters : Z) : res testbed_row :=
  let! j := area_json v in
  let! d := jobj j in
  let! gpa := jkey d "gpa" in
  let! ok := jkey d "ok" in
  let! rank := jkey d "rank" in
  let! max_rank := jkey d "max_rank" in
  let! status := jkey d "status" in
  Ok (mkTestbedRow run_id stnum catalog code iters gpa ok rank max_rank (sort_keys j) status 3).
Inductive testbed_end := TbRaised (e : err) | TbLate | TbNone | TbRow (r : testbed_row).
(** dp/testbed/audit.py:65: [timeout and elapsed >= timeout] *)
Definition late (timeout : option Q) (elapsed : Q) : bool :=
  match timeout with Some t => negb (Qeq_bool t 0) && Qle_bool t elapsed | None => false end.
(** dp/testbed/audit.py:46-69; [clock n] is the time that has passed when the [n]th message that is
    not a result has come *)
Fixpoint testbed_listens (run_id stnum catalog code : string) (timeout : option Q) (clock : nat -> Q) (n : nat)
    (l : list (message area_result)) (e : option err) : testbed_end :=
  match l with
  | [] => match e with Some x => TbRaised x | None => TbNone end
  | MResult v _ iters _ :: _ =>
    match testbed_row_of run_id stnum catalog code v iters with Ok r => TbRow r | Err x => TbRaised x end
  | _ :: t => if late timeout (clock n) then TbLate else testbed_listens run_id stnum catalog code timeout clock (S n) t e
  end.
(** dp/testbed/audit.py:72-105 estimate *)
Definition testbed_estimate (l : list (message area_result)) (e : option err) : res (option Z) :=
  match l with
  | MEstimate n :: _ => Ok (Some n)
  | _ :: _ => Err AssertErr
  | [] => match e with Some x => Err x | None => Ok None end
  end.
Definition estimate_args : arguments := mkArgs true false [] None 1000 1.
Definition no_switches : switches := mkSwitches false false.

(** ** The command line (dp/__main__.py:22-164) *)

Record cli_options := mkCli {
  co_quiet : bool; co_json : bool; co_both : bool; co_gpa : bool; co_claimed : bool;
  co_paths : bool; co_ranks : bool; co_only : option path }.
(** what is printed: on stderr the estimate and progress, on stdout results *)
Inductive printed :=
| PEstimate (n : Z)
| PProgress (best : Q) (best_i iters total : Z)
| PGpa (g : dec)
| PClaimed (text : string)
| PJson (j : json)
| PBoth (transcript : list course) (j : json)
| PReport (lines : list string).

Section Cli.
  Variables (repr quote : string -> string) (g4 dtext : Q -> string).
  (** dp/__main__.py:116-164 result_str; [transcript] is that of the message (dp/audit.py:136,158) *)
  Definition result_str (o : cli_options) (transcript : list course) (v : area_result) : res printed :=
    if co_gpa o then Ok (PGpa (area_gpa v))
    else if co_claimed o then let! t := claimed_list v in Ok (PClaimed t)
    else
      let! j := area_json v in
      if co_json o then Ok (PJson j)
      else if co_both o then Ok (PBoth transcript j)
      else let! l := print_area repr quote g4 dtext (co_paths o) (co_ranks o) transcript (co_only o) v in Ok (PReport l).
  (** dp/__main__.py:74-113: what is printed, and the exit code or the exception *)
  Fixpoint cli_listens (o : cli_options) (transcript : list course) (l : list (message area_result)) (e : option err) : list printed * res Z :=
    match l with
    | [] => ([], match e with Some x => Err x | None => Ok 0%Z end)
    | MNoAudits :: _ => ([], Ok 2%Z)
    | MEstimate n :: t =>
      let '(ps, c) := cli_listens o transcript t e in ((if co_quiet o then [] else [PEstimate n]) ++ ps, c)
    | MProgress q j n i :: t =>
      let '(ps, c) := cli_listens o transcript t e in ((if co_quiet o then [] else [PProgress q j n i]) ++ ps, c)
    | MResult v _ _ _ :: t =>
      if co_quiet o then cli_listens o transcript t e
      else match result_str o transcript v with
           | Err x => ([], Err x)
           | Ok p => let '(ps, c) := cli_listens o transcript t e in (p :: ps, c)
           end
    end.

  (** ** What the testbed prints (dp/testbed/render.py:122-132); format 2 is not modelled *)
  Definition render_result (courses : list course) (result : json) : res (list string) :=
    let! d := jobj result in
    let! version := jkey d "version" in
    match version with
    | JInt 3 => print_result repr quote g4 dtext courses true true None 0 result
    | JInt 2 => Err OtherErr
    | _ => Err ValueErr
    end.
End Cli.

(** ** Whole programs *)
Section Programs.
  Variable tord : list (string * template) -> list (string * template).
  Variable ord : list course -> list course.
  Variable nord : list node -> list node.
  Definition heard (sw : switches) (args : arguments) (d : sdata) (xs : list raw_entry) (s : spec) : list (message area_result) * option err :=
    messages (run tord ord nord sw args d xs s).
  (** dp/server/audit.py:15-162 audit *)
  Definition server_audit (p : person) (b : job) (d : sdata) (xs : list raw_entry) (s : spec) : list note * option server_row :=
    let '(l, e) := heard no_switches default_args d xs s in server_listens p b l e.
  (** dp/testbed/audit.py:11-69 audit: first the estimate *)
  Definition testbed_audit (run_id stnum catalog code : string) (timeout : option Q) (clock : nat -> Q) (d : sdata) (xs : list raw_entry) (s : spec) : testbed_end :=
    let '(l, e) := heard no_switches estimate_args d xs s in
    match testbed_estimate l e with
    | Err x => TbRaised x
    | Ok None => TbRaised AssertErr
    | Ok (Some _) => let '(l, e) := heard no_switches default_args d xs s in testbed_listens run_id stnum catalog code timeout clock 0 l e
    end.
  (** dp/testbed/render.py:86-93: the student is loaded without an area and without exceptions *)
  Definition testbed_render (repr quote : string -> string) (g4 dtext : Q -> string) (d : sdata) (result : json) : res (list string) :=
    let! st := load_student tord d "000" [] [] in
    render_result repr quote g4 dtext (t_courses (sl_student st)) result.
  (** dp/__main__.py:22-113 main, after the options have been read *)
  Definition cli_main (repr quote : string -> string) (g4 dtext : Q -> string) (o : cli_options) (transcript_only : bool) (args : arguments)
      (d : sdata) (xs : list raw_entry) (s : spec) : list printed * res Z :=
    let '(l, e) := heard (mkSwitches transcript_only (co_gpa o)) args d xs s in
    let transcript := match run_student tord d xs s with Ok (_, st) => t_failed (sl_student st) | Err _ => [] end in
    cli_listens repr quote g4 dtext o transcript l e.
End Programs.
