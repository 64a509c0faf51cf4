(** dp/lib.py, dp/data/course.py load_course, dp/data/student.py load_transcript and the
    course part of Student.load. *)
From Coq Require Import List ZArith QArith Bool String.
From Verif Require Import Prelude Dec Course Op Exceptions Context Predicate.
Import ListNotations.
Local Open Scope string_scope.
Local Open Scope list_scope.

(** dp/lib.py:9-10 grade_point_average_items *)
Definition gpa_items (cs : list course) : list course := filter c_in_gpa cs.

(** dp/lib.py:13-27 grade_point_average. The quotient is exact here; python rounds it to 28
    significant digits before truncating, which can change the truncation only when the
    credits have more than 24 digits. *)
Definition grade_point_average (cs : list course) : dec :=
  let gp := Qsum (map (fun c => dval (c_gpa_points c)) (gpa_items cs)) in
  let cr := Qsum (map (fun c => dval (c_credits c)) (gpa_items cs)) in
  if Qeqb cr 0 then hundredths 0 else hundredths (trunc2 (Qred (gp / cr))).

(** dp/data/course_enums.py:25-34 SubType(value), 45-62 CourseType(value), 15-22
    TranscriptCode(value) *)
Definition of_table {A} (t : list (string * A)) (s : string) : res A :=
  match find (fun p => fst p =? s) t with Some (_, a) => Ok a | None => Err ValueErr end.
Definition sub_type_of_value : string -> res sub_type := of_table
  [("discussion", StDiscussion); ("ensemble", StEnsemble); ("flac", StFlac); ("lab", StLab);
   ("research", StResearch); ("seminar", StSeminar); ("topic", StTopic); ("", StNormal)].
Definition course_type_of_value : string -> res course_type := of_table
  [("SE", CtSemester); ("IN", CtInterim); ("SM", CtSummer); ("CA", CtCarleton);
   ("IE", CtInterimExchange); ("OC", CtOffCampusCourse); ("OP", CtOffCampusProgram);
   ("CE", CtContinuingEducation); ("AP", CtAP); ("PS", CtPSEO); ("AD", CtAdjustment);
   ("GE", CtGeReq); ("OT", CtOther); ("TR", CtTransfer); ("PC", CtParaCollege)].
Definition transcript_code_of_value : string -> res transcript_code := of_table
  [("", TcEmpty); ("#", TcCarleton); ("*", TcWasIncomplete); ("+", TcIndividualMajor);
   ("R", TcRepeatedLater); ("~", TcRepeatInProgress)].

(** One raw row, the dictionary of dp/data/course.py:299-326. Simplified: all mandatory keys
    are present; year and level are given as integers; missing optional keys take their
    default ([attributes] empty, [schedid] none, [su_grade_code] '?'). *)
Record row := mkRow {
  r_attributes : list string; r_clbid : string; r_course_type : string; r_credits : string;
  r_crsid : string; r_gpa : bool; r_incomplete : bool; r_in_progress : bool; r_repeat : bool;
  r_stolaf : bool; r_gereqs : list string; r_grade_code : string; r_grade_option : string;
  r_grade_points : string; r_institution : string; r_level : Z; r_name : string;
  r_number : string; r_schedid : option string; r_section : string; r_sub_type : string;
  r_subject : string; r_su_grade : string; r_term : string; r_transcript_code : string; r_year : Z;
}.

(** dp/data/course.py:328-330: the dictionary comprehension keeps the last override of each
    type among those of this clbid *)
Fixpoint credit_override (os : list exc) (clbid : string) : option dec :=
  match os with
  | [] => None
  | o :: t =>
    match credit_override t clbid with
    | Some d => Some d
    | None => match ex_act o with ACredits k d => if k =? clbid then Some d else None | _ => None end
    end
  end.
Fixpoint subject_override (os : list exc) (clbid : string) : option string :=
  match os with
  | [] => None
  | o :: t =>
    match subject_override t clbid with
    | Some d => Some d
    | None => match ex_act o with ASubject k d => if k =? clbid then Some d else None | _ => None end
    end
  end.
(** [credits_overrides]: a dictionary from text to text *)
Definition sget (d : list (string * string)) (k : string) : option string :=
  match find (fun p => fst p =? k) d with Some (_, v) => Some v | None => None end.

(** dp/data/course.py:332-339: the credits in force *)
Definition row_credits (os : list exc) (defaults : list (string * string)) (r : row) : res dec :=
  match credit_override os (r_clbid r) with
  | Some d => Ok d
  | None => match sget defaults ("name=" ++ r_name r)%string with
            | Some t => dec_of_str t
            | None => dec_of_str (r_credits r)
            end
  end.

(** [f"{year}{term}"] *)
Definition yearterm_of (year : Z) (term : string) : string := (str_of_Z year ++ term)%string.
Definition str_leb (a b : string) : bool := match String.compare a b with Gt => false | _ => true end.
Definition ip_grade (g : grade_code) : bool := match g with G_IP | G_I => true | _ => false end.

(** dp/data/course.py:379-386 suffix *)
Definition suffix (s : sub_type) : string :=
  match s with StLab => ".L" | StFlac => ".F" | StDiscussion => ".D" | _ => "" end.
(** dp/data/course.py:389-397 is_chbi *)
Definition chbi (id : string) : option Z :=
  if id =? "CH/BI 125" then Some 125%Z
  else if id =? "CH/BI 126" then Some 126%Z
  else if id =? "CH/BI 127" then Some 127%Z
  else if id =? "CH/BI 227" then Some 227%Z else None.
Definition truthy (o : option string) : option string :=
  match o with Some "" => None | _ => o end.

(** dp/data/course.py:288-438 load_course (of a dictionary) *)
Definition load_course (current_term : option string) (os : list exc)
    (defaults : list (string * string)) (r : row) : res course :=
  let! credits := row_credits os defaults r in
  let subject := match subject_override os (r_clbid r) with Some s => s | None => r_subject r end in
  let! grade := grade_of_value (r_grade_code r) in
  let! points := dec_of_str (r_grade_points r) in
  let! option := option_of_value (r_grade_option r) in
  let! sub := sub_type_of_value (r_sub_type r) in
  let! ty := course_type_of_value (r_course_type r) in
  let! tc := transcript_code_of_value (r_transcript_code r) in
  let! su := (if r_su_grade r =? "?" then Ok None else let! g := grade_of_value (r_su_grade r) in Ok (Some g)) in
  let yt := yearterm_of (r_year r) (r_term r) in
  let '(this_term, future) :=
    match truthy current_term with
    | Some now => if ip_grade grade then (if str_leb yt now then (true, false) else (false, true)) else (false, false)
    | None => (false, false)
    end in
  let id := (subject ++ " " ++ r_number r ++ suffix sub)%string in
  Ok {| c_clbid := r_clbid r; c_attributes := r_attributes r; c_credits := credits; c_crsid := r_crsid r;
        c_course_type := ty; c_gereqs := r_gereqs r;
        c_gpa_points := hundredths (trunc2 (dval points * dval credits));
        c_grade_code := grade; c_grade_option := option; c_grade_points := points;
        c_institution := r_institution r; c_in_gpa := r_gpa r; c_in_progress := r_in_progress r;
        c_ip_this_term := this_term; c_ip_in_future := future; c_incomplete := r_incomplete r;
        c_repeat := r_repeat r; c_stolaf := r_stolaf r; c_lab := sub_type_eqb sub StLab;
        c_covid := yt =? "20193"; c_level := r_level r; c_name := r_name r; c_number := r_number r;
        c_schedid := r_schedid r; c_section := truthy (Some (r_section r)); c_sub_type := sub;
        c_subject := subject; c_su_grade := su; c_term := r_term r; c_transcript_code := tc;
        c_year := r_year r; c_yearterm := yt; c_identity := id; c_chbi := chbi id |}.

(** [attr.evolve(self, clbid=...)] *)
Definition set_clbid (c : course) (k : string) : course :=
  {| c_clbid := k; c_attributes := c_attributes c; c_credits := c_credits c; c_crsid := c_crsid c;
     c_course_type := c_course_type c; c_gereqs := c_gereqs c; c_gpa_points := c_gpa_points c;
     c_grade_code := c_grade_code c; c_grade_option := c_grade_option c; c_grade_points := c_grade_points c;
     c_institution := c_institution c; c_in_gpa := c_in_gpa c; c_in_progress := c_in_progress c;
     c_ip_this_term := c_ip_this_term c; c_ip_in_future := c_ip_in_future c; c_incomplete := c_incomplete c;
     c_repeat := c_repeat c; c_stolaf := c_stolaf c; c_lab := c_lab c; c_covid := c_covid c;
     c_level := c_level c; c_name := c_name c; c_number := c_number c; c_schedid := c_schedid c;
     c_section := c_section c; c_sub_type := c_sub_type c; c_subject := c_subject c; c_su_grade := c_su_grade c;
     c_term := c_term c; c_transcript_code := c_transcript_code c; c_year := c_year c; c_yearterm := c_yearterm c;
     c_identity := c_identity c; c_chbi := c_chbi c |}.
(** dp/data/course.py:113-114 unique_clbid_via_schedid; [None] prints as "None" *)
Definition unique_clbid (c : course) : course :=
  set_clbid c (c_clbid c ++ ":" ++ (match c_schedid c with Some s => s | None => "None" end))%string.

(** dp/data/student.py:299-307 skip_grades *)
Definition skip_grade (g : grade_code) : bool :=
  match g with G_N | G_U | G_AU | G_UA | G_WF | G_WP | G_W => true | _ => false end.
(** dp/data/student.py:326-343: is the course yielded? *)
Definition yielded (include_failed : bool) (c : course) : bool :=
  negb (match c_grade_option c with GoAudit => true | _ => false end)
  && negb (match c_transcript_code c with TcRepeatedLater | TcRepeatInProgress => true | _ => false end)
  && negb (skip_grade (c_grade_code c))
  && (match c_grade_code c with GF => include_failed | _ => true end).

Definition smem (k : string) (l : list string) : bool := existsb (String.eqb k) l.

(** dp/data/student.py:291-345 load_transcript; [seen] is the set of clbids *)
Section Load.
  Variables (current_term : option string) (os : list exc) (defaults : list (string * string)).
  Fixpoint load_rows (include_failed : bool) (seen : list string) (rows : list row) : gen course :=
    match rows with
    | [] => gnil
    | r :: t =>
      match load_course current_term os defaults r with
      | Err e => gfail e
      | Ok c0 =>
        match (if smem (c_clbid c0) seen
               then let c := unique_clbid c0 in
                    if c_clbid c0 =? c_clbid c then Err AssertErr
                    else if smem (c_clbid c) seen then Err AssertErr else Ok c
               else Ok c0) with
        | Err e => gfail e
        | Ok c =>
          let rest := load_rows include_failed (seen ++ [c_clbid c]) t in
          if yielded include_failed c then gapp (gret [c]) rest else rest
        end
      end
    end.
  Definition load_transcript (include_failed : bool) (rows : list row) : gen course :=
    load_rows include_failed [] rows.
  (** dp/data/student.py:98-102: the sorted transcripts *)
  Definition student_courses (include_failed : bool) (rows : list row) : res (list course) :=
    let g := load_transcript include_failed rows in
    match g_exn g with
    | Some e => Err e
    | None => Ok (isort course_leb (g_items g))
    end.
End Load.

(** dp/data/student.py:92-94: areas dropped in a what-if are left out, unless audited *)
Definition student_areas (code : string) (l : list area_ptr) : list area_ptr :=
  filter (fun a => negb (match a_status a with AsWhatIfDrop => true | _ => false end) || (a_code a =? code)) l.
(** dp/data/student.py:156-164: terms since declaring the current area *)
Definition terms_since_declaring (code : string) (l : list area_ptr) : Z :=
  match find (fun a => a_code a =? code) l with
  | Some a => match a_terms a with Some z => z | None => 0%Z end
  | None => 0%Z
  end.
