(** dp/run.py:19-61 run and 106-143 gpa_only: from the data of a student and the specification of an area to the
    messages of the audit. The rows written by the csv module are given by their values. *)
From Coq Require Import List Bool Arith ZArith QArith String Ascii.
From Verif Require Import Transcript Prelude Dec Paths Status Claims Course Exceptions Context Predicate Tree Loader Label Driver Area AreaLoad Estimate StudentLoad.
Import Transcript.
Import ListNotations.
Local Open Scope string_scope.

(** one of student['exceptions']: what it holds under 'area_code', and the rest *)
Record raw_entry := mkEntry { re_area : option string; re_exc : raw_exc }.
(** dp/exception.py:96-105 load_migrations: every key is needed *)
Record raw_migration := mkRawMig { rm_from : option path; rm_to : option path; rm_comment : option string; rm_date : option string }.
Definition load_migration (m : raw_migration) : res migration :=
  let! f := key (rm_from m) in
  let! t := key (rm_to m) in
  let! _ := key (rm_comment m) in
  let! _ := key (rm_date m) in
  Ok (mkMig f t).
(** the specification of an area, with the keys that only run looks at *)
Record spec := mkSpec { sp_area : aspec; sp_credit : list (string * string); sp_migrations : list raw_migration }.
(** dp/audit.py:16-18: two switches of the arguments that only run looks at *)
Record switches := mkSwitches { sw_transcript : bool; sw_gpa : bool }.

(** dp/run.py:27-31 *)
Fixpoint area_exceptions (code : string) (ms : list migration) (l : list raw_entry) : res (list exc) :=
  match l with
  | [] => Ok []
  | e :: t =>
    let! a := key (re_area e) in
    if a =? code then let! x := load_exception ms (re_exc e) in let! xs := area_exceptions code ms t in Ok (x :: xs)
    else area_exceptions code ms t
  end.
(** dp/run.py:32 [isinstance(e, CourseOverrideException)] *)
Definition is_override (e : exc) : bool := match ex_act e with ACredits _ _ | ASubject _ _ => true | _ => false end.

(** dp/data/course.py:146-147 year_term *)
Definition year_term (c : course) : string := str_of_Z (c_year c) ++ "-" ++ c_term c.
(** dp/run.py:37-44: course, name, clbid, course type, credits, term, kind, grade, in the GPA *)
Record transcript_row := mkTRow {
  tr_course : string; tr_name : string; tr_clbid : string; tr_type : course_type; tr_credits : dec; tr_term : string;
  tr_sub_type : sub_type; tr_grade : grade_code; tr_gpa : bool }.
Definition transcript_row_of (c : course) : transcript_row :=
  mkTRow (c_identity c) (c_name c) (c_clbid c) (c_course_type c) (c_credits c) (year_term c) (c_sub_type c) (c_grade_code c) (c_in_gpa c).

(** ** dp/run.py:110-142 gpa_only *)
Inductive gpa_row :=
| GNoCourses (term : string)
| GTerm (term : string)
| GCourse (course term : string) (grade : grade_code) (points : dec)
| GTermGpa (d : dec)
| GCumGpa (d : dec)
| GOverall (d : dec).
Definition term_leb (a b : string) : bool := match String.compare a b with Gt => false | _ => true end.
(** 129: by year, term, course and id *)
Definition report_cmp (a b : course) : comparison :=
  then_cmp (Z.compare (c_year a) (c_year b))
    (then_cmp (String.compare (c_term a) (c_term b))
       (then_cmp (String.compare (c_identity a) (c_identity b)) (String.compare (c_clbid a) (c_clbid b)))).
Definition report_leb (a b : course) : bool := match report_cmp a b with Gt => false | _ => true end.
Definition course_row (c : course) : gpa_row := GCourse (c_identity c) (year_term c) (c_grade_code c) (c_grade_points c).
(** 116-141; [seen] is [cumulative]. Sets are lists: what is printed of them is sorted or a sum. *)
Fixpoint term_rows (cs : list course) (terms : list string) (seen : list course) : list gpa_row :=
  match terms with
  | [] => []
  | t :: rest =>
    let term_courses := filter (fun c => year_term c =? t) cs in
    let applicable := gpa_items term_courses in
    match applicable with
    | [] => GNoCourses t :: term_rows cs rest seen
    | _ :: _ =>
      let seen := (seen ++ applicable)%list in
      GTerm t :: map course_row (isort report_leb applicable) ++
      GTermGpa (grade_point_average term_courses) :: GCumGpa (grade_point_average seen) :: term_rows cs rest seen
    end
  end.
Definition gpa_report (cs : list course) : list gpa_row :=
  term_rows cs (isort term_leb (dedup String.eqb (map year_term cs))) [] ++ [GOverall (grade_point_average cs)].

(** ** run *)
Inductive shown :=
| ShTranscript (rows : list transcript_row)
| ShGpa (rows : list gpa_row)
| ShAudit (tr : trace area_result).
Section Run.
  Variable tord : list (string * template) -> list (string * template).
  Variable ord : list course -> list course.
  Variable nord : list node -> list node.
  (** dp/run.py:20-34 *)
  Definition run_student (d : sdata) (xs : list raw_entry) (s : spec) : res (list exc * loaded) :=
    let! code := key (ar_code (sp_area s)) in
    let! ms := mapr load_migration (sp_migrations s) in
    let! es := area_exceptions code ms xs in
    let! st := load_student tord d code (filter is_override es) (sp_credit s) in
    Ok (es, st).
  (** dp/audit.py:67-88 for a loaded area *)
  Definition audit_area (args : arguments) (u : study) (st : student) (es : list exc) : trace area_result :=
    let g := area_solutions ord nord u st es in
    audit_driver args (area_estimate ord nord u st es) (map (outcome_of ord u) (g_items g)) (g_exn g).
  (** dp/run.py:19-61 run *)
  Definition run (sw : switches) (args : arguments) (d : sdata) (xs : list raw_entry) (s : spec) : res shown :=
    let! (es, st) := run_student d xs s in
    if sw_transcript sw then Ok (ShTranscript (map transcript_row_of (t_courses (sl_student st))))
    else if sw_gpa sw then Ok (ShGpa (gpa_report (t_failed (sl_student st))))
    else
      let! u := load_area (constants_of st) (templates_as_dict (sl_templates st)) (sl_student st) es false (sp_area s) in
      Ok (ShAudit (audit_area args u (sl_student st) es)).
End Run.
