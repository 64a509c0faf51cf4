(** The transcript that [--json-with-transcript] stores beside a result, and reading it back:
    dp/data/course.py:74-103 to_dict, dp/__main__.py:144-146, dp/bin/csvify.py:25,
    dp/bin/excelify.py:91. *)
From Coq Require Import List ZArith QArith Bool String.
From Verif Require Import Prelude Dec Course Op Exceptions Context Predicate Transcript Json.
Import ListNotations.
Local Open Scope string_scope.

(** dp/data/course_enums.py:15-22 TranscriptCode, 25-34 SubType, 45-62 CourseType *)
Definition transcript_code_value (t : transcript_code) : string :=
  match t with
  | TcEmpty => "" | TcCarleton => "#" | TcWasIncomplete => "*" | TcIndividualMajor => "+"
  | TcRepeatedLater => "R" | TcRepeatInProgress => "~"
  end.
Definition sub_type_value (s : sub_type) : string :=
  match s with
  | StDiscussion => "discussion" | StEnsemble => "ensemble" | StFlac => "flac" | StLab => "lab"
  | StResearch => "research" | StSeminar => "seminar" | StTopic => "topic" | StNormal => ""
  end.
Definition course_type_value (t : course_type) : string :=
  match t with
  | CtSemester => "SE" | CtInterim => "IN" | CtSummer => "SM" | CtCarleton => "CA"
  | CtInterimExchange => "IE" | CtOffCampusCourse => "OC" | CtOffCampusProgram => "OP"
  | CtContinuingEducation => "CE" | CtAP => "AP" | CtPSEO => "PS" | CtAdjustment => "AD"
  | CtGeReq => "GE" | CtOther => "OT" | CtTransfer => "TR" | CtParaCollege => "PC"
  end.
(** dp/data/course.py:74-103 to_dict, as the row that load_course reads. The keys [gpa_points],
    [flag_lab] and [type] are stored too, but not read. [schedid] and [su_grade_code] are not stored and
    take their defaults. A section that is null reads as an empty one. *)
Definition stored_row (c : course) : row :=
  {| r_attributes := c_attributes c; r_clbid := c_clbid c; r_course_type := course_type_value (c_course_type c);
     r_credits := str_of_dec (c_credits c); r_crsid := c_crsid c; r_gpa := c_in_gpa c; r_incomplete := c_incomplete c;
     r_in_progress := c_in_progress c; r_repeat := c_repeat c; r_stolaf := c_stolaf c; r_gereqs := c_gereqs c;
     r_grade_code := grade_value (c_grade_code c); r_grade_option := option_value (c_grade_option c);
     r_grade_points := str_of_dec (c_grade_points c); r_institution := c_institution c; r_level := c_level c;
     r_name := c_name c; r_number := c_number c; r_schedid := None;
     r_section := match c_section c with Some s => s | None => "" end; r_sub_type := sub_type_value (c_sub_type c);
     r_subject := c_subject c; r_su_grade := "?"; r_term := c_term c;
     r_transcript_code := transcript_code_value (c_transcript_code c); r_year := c_year c |}.
(** dp/bin/csvify.py:25 *)
Definition read_back (cs : list course) : res (list course) := mapr (fun c => Transcript.load_course None [] [] (stored_row c)) cs.
