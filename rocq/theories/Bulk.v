(** dp/bin/batch.py: auditing a list of students, one after the other. *)
From Coq Require Import List ZArith QArith Bool String Ascii.
From Verif Require Import Transcript Prelude Dec Keys Status Course Exceptions Paths Context Predicate Tree Loader LimitLoad Driver Area AreaLoad Label StudentLoad Run Json Report Claimed Catalog Client.
Import ListNotations.
Local Open Scope string_scope.
Local Open Scope list_scope.

(** ** What is asked for *)

(** [a <= b] of tuples of strings *)
Fixpoint row_leb (a b : list string) : bool :=
  match a, b with
  | [], _ => true
  | _ :: _, [] => false
  | x :: a, y :: b => if x =? y then row_leb a b else str_le x y
  end.
Fixpoint row_eqb (a b : list string) : bool :=
  match a, b with
  | [], [] => true
  | x :: a, y :: b => (x =? y) && row_eqb a b
  | _, _ => false
  end.
(** batch.py:35 [sorted(set(...)) * n] *)
Definition asked (lines : list string) (n : Z) : list (list string) :=
  List.concat (repeat (isort row_leb (dedup row_eqb (map (fun l => words l "") lines))) (Z.to_nat n)).
(** [s.split('-')[0]] *)
Fixpoint before_dash (s : string) : string :=
  match s with "" => "" | String c t => if Ascii.eqb c "-" then "" else String c (before_dash t) end.

(** ** One audit *)

Record bulk_options := mkBulk { bo_transcript : bool; bo_invocation : bool; bo_quiet : bool; bo_table : bool; bo_paths : bool; bo_ranks : bool }.
(** the files: those of the students by their number, and the specifications, by the folder and
    the code. The exceptions of a student are part of their file. *)
Record world := mkWorld {
  wd_listing : listing;
  wd_student : string -> res (sdata * list raw_entry);
  wd_area : string -> string -> res spec }.
(** what is printed on the standard output; [BTable] has the numbers before they are rounded *)
Inductive bline :=
| BHeader
| BMissing (code catalog : string)
| BInvocation (stnum folder code : string)
| BTranscript (l : list transcript_row)
| BTable (stnum catalog code : string) (gpa rank max_rank : json)
| BReport (l : list string).
(** how an audit ends for the loop: it goes on, or the program ends *)
Definition ends := option (res Z).

Section Bulk.
  Variable tord : list (string * template) -> list (string * template).
  Variable ord : list course -> list course.
  Variable nord : list node -> list node.
  Variables (repr quote : string -> string) (g4 dtext : Q -> string).

  (** batch.py:101-104: the handler mentions the student's number *)
  Definition caught (d : sdata) : ends := Some (match d_stnum d with Some _ => Ok 1%Z | None => Err KeyErr end).
  (** batch.py:76-94: what is printed of a result *)
  Definition bulk_line (o : bulk_options) (stnum catalog code : string) (transcript : list course) (v : area_result) : res bline :=
    if bo_table o then
      let! j := area_json v in
      let! d := jobj j in
      let! gpa := jkey d "gpa" in
      let! rank := jkey d "rank" in
      let! max_rank := jkey d "max_rank" in
      Ok (BTable stnum catalog code gpa rank max_rank)
    else let! l := print_area repr quote g4 dtext (bo_paths o) (bo_ranks o) transcript None v in Ok (BReport l).
  (** batch.py:63-104; what goes to stderr is left out. There are no other messages, lines 96-99. *)
  Fixpoint bulk_listens (o : bulk_options) (d : sdata) (stnum catalog code : string) (transcript : list course)
      (l : list (message area_result)) (e : option err) : list bline * ends :=
    match l with
    | [] => ([], match e with Some _ => caught d | None => None end)
    | MNoAudits :: _ => ([], Some (Ok 2%Z))
    | MEstimate _ :: t | MProgress _ _ _ _ :: t => bulk_listens o d stnum catalog code transcript t e
    | MResult v _ _ _ :: t =>
      match bulk_line o stnum catalog code transcript v with
      | Err _ => ([], caught d)
      | Ok p => let '(ps, c) := bulk_listens o d stnum catalog code transcript t e in (p :: ps, c)
      end
    end.
  (** batch.py:63, run (dp/run.py:19-61) as a whole *)
  Definition bulk_audit (o : bulk_options) (d : sdata) (xs : list raw_entry) (s : spec) (stnum catalog code : string) : list bline * ends :=
    let r := run tord ord nord (mkSwitches (bo_transcript o) false) default_args d xs s in
    let '(l, e) := messages r in
    let transcript := match run_student tord d xs s with Ok (_, st) => t_failed (sl_student st) | Err _ => [] end in
    let '(ps, c) := bulk_listens o d stnum catalog code transcript l e in
    (match r with Ok (ShTranscript rows) => BTranscript rows :: ps | _ => ps end, c).
  (** batch.py:44-104, for one line *)
  Definition bulk_row (o : bulk_options) (w : world) (row : list string) : list bline * ends :=
    match row with
    | [stnum; catalog; code] =>
      match py_int (before_dash catalog) with
      | Err x => ([], Some (Err x))
      | Ok year =>
        match find_area (wd_listing w) year code with
        | None => ([BMissing code catalog], Some (Ok 1%Z))
        | Some folder =>
          if bo_invocation o then ([BInvocation stnum folder code], None)
          else
            match wd_student w stnum with
            | Err x => ([], Some (Err x))
            | Ok (d, xs) =>
              match wd_area w folder code with
              | Err x => ([], Some (Err x))
              | Ok s =>
                match negb (bo_quiet o) && negb (bo_table o), d_stnum d with
                | true, None => ([], Some (Err KeyErr))
                | _, _ => bulk_audit o d xs s stnum catalog code
                end
              end
            end
        end
      end
    | _ => ([], Some (Err ValueErr))
    end.
  (** batch.py:44-106 the loop *)
  Fixpoint bulk_rows (o : bulk_options) (w : world) (rows : list (list string)) : list bline * res Z :=
    match rows with
    | [] => ([], Ok 0%Z)
    | r :: t =>
      let '(ps, c) := bulk_row o w r in
      match c with
      | Some z => (ps, z)
      | None => let '(qs, z) := bulk_rows o w t in (ps ++ qs, z)
      end
    end.
  (** batch.py:15-106 main, after the options have been read *)
  Definition bulk_main (o : bulk_options) (n : Z) (w : world) (lines : list string) : list bline * res Z :=
    match asked lines n with
    | [] => ([], Ok 1%Z)
    | rows => let '(ps, z) := bulk_rows o w rows in ((if bo_table o then [BHeader] else []) ++ ps, z)
    end.
End Bulk.
