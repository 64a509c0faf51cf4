(** dp/data/course.py, dp/data/course_enums.py: course instances. *)
From Coq Require Import List ZArith Bool String QArith.
From Verif Require Import Prelude Dec.
Import ListNotations.
Local Open Scope Z_scope.

(** dp/data/course_enums.py:6-12 *)
Inductive grade_option := GoAudit | GoGrade | GoNoGrade | GoPN | GoSU.
(** dp/data/course_enums.py:15-22 *)
Inductive transcript_code := TcEmpty | TcCarleton | TcWasIncomplete | TcIndividualMajor
  | TcRepeatedLater | TcRepeatInProgress.
(** dp/data/course_enums.py:25-34 *)
Inductive sub_type := StDiscussion | StEnsemble | StFlac | StLab | StResearch | StSeminar
  | StTopic | StNormal.
(** dp/data/course_enums.py:45-62 *)
Inductive course_type := CtSemester | CtInterim | CtSummer | CtCarleton | CtInterimExchange
  | CtOffCampusCourse | CtOffCampusProgram | CtContinuingEducation
  | CtAP | CtPSEO | CtAdjustment | CtGeReq | CtOther | CtTransfer | CtParaCollege.
(** dp/data/course_enums.py:88-118 *)
Inductive grade_code :=
| GA | GAplus | GAminus | GB | GBplus | GBminus | GC | GCplus | GCminus
| GD | GDplus | GDminus | GF
| G_BC | G_AB | G_NG | G_IP | G_I | G_P | G_N | G_S | G_U | G_AU | G_UA
| G_WF | G_WP | G_W | G_REG.

Definition grade_option_eq_dec (a b : grade_option) : {a = b} + {a <> b}.
Proof. decide equality. Defined.
Definition transcript_code_eq_dec (a b : transcript_code) : {a = b} + {a <> b}.
Proof. decide equality. Defined.
Definition sub_type_eq_dec (a b : sub_type) : {a = b} + {a <> b}.
Proof. decide equality. Defined.
Definition course_type_eq_dec (a b : course_type) : {a = b} + {a <> b}.
Proof. decide equality. Defined.
Definition grade_code_eq_dec (a b : grade_code) : {a = b} + {a <> b}.
Proof. decide equality. Defined.

(** dp/data/course.py:18-54 CourseInstance (the hash cache field is left out). *)
Record course := mkCourse {
  c_clbid : string;
  c_attributes : list string;
  c_credits : dec;
  c_crsid : string;
  c_course_type : course_type;
  c_gereqs : list string;
  c_gpa_points : dec;
  c_grade_code : grade_code;
  c_grade_option : grade_option;
  c_grade_points : dec;
  c_institution : string;
  c_in_gpa : bool;
  c_in_progress : bool;
  c_ip_this_term : bool;
  c_ip_in_future : bool;
  c_incomplete : bool;
  c_repeat : bool;
  c_stolaf : bool;
  c_lab : bool;
  c_covid : bool;
  c_level : Z;
  c_name : string;
  c_number : string;
  c_schedid : option string;
  c_section : option string;
  c_sub_type : sub_type;
  c_subject : string;
  c_su_grade : option grade_code;
  c_term : string;
  c_transcript_code : transcript_code;
  c_year : Z;
  c_yearterm : string;
  c_identity : string;
  c_chbi : option Z;
}.

(** Equality of all fields (attrs-generated [__eq__], dp/data/course.py:17). Decimals are
    compared as written: two rows that differ only in trailing zeros of a Decimal while
    having the same clbid would be equal in python and different here; clbids of a loaded
    transcript are distinct, so the case does not arise there. *)
Definition course_eq_dec (a b : course) : {a = b} + {a <> b}.
Proof.
  decide equality;
    repeat first [apply string_dec | apply Z.eq_dec | apply Bool.bool_dec
                 | apply dec_eq_dec | apply grade_code_eq_dec | apply grade_option_eq_dec
                 | apply sub_type_eq_dec | apply course_type_eq_dec
                 | apply transcript_code_eq_dec | decide equality].
Defined.

Definition course_eqb (a b : course) : bool := if course_eq_dec a b then true else false.

(** dp/data/course_enums.py:68-85 CourseTypeSortOrder *)
Definition course_type_order (t : course_type) : Z :=
  match t with
  | CtSemester | CtInterim | CtSummer | CtCarleton | CtInterimExchange
  | CtOffCampusCourse | CtOffCampusProgram | CtContinuingEducation => 1
  | CtAP | CtPSEO | CtAdjustment | CtGeReq | CtOther | CtTransfer | CtParaCollege => 2
  end.

(** Lexicographic comparison of python tuples, one component at a time. *)
Definition then_cmp (c : comparison) (k : comparison) : comparison :=
  match c with Eq => k | _ => c end.

(** dp/data/course.py:70-72 sort_order: comparison of (type order, year, term, clbid).
    [year] is an int at run time (dp/data/course.py:344). Strings compare by code point;
    [String.compare] compares bytes, the same order on UTF-8 text. *)
Definition course_cmp (a b : course) : comparison :=
  then_cmp (course_type_order (c_course_type a) ?= course_type_order (c_course_type b))
    (then_cmp (c_year a ?= c_year b)
       (then_cmp (String.compare (c_term a) (c_term b))
          (String.compare (c_clbid a) (c_clbid b)))).
Definition course_leb (a b : course) : bool :=
  match course_cmp a b with Gt => false | _ => true end.

(** dp/data/course.py:116-117 course() *)
Definition course_ident (c : course) : string := c_identity c.

(** numeric credits *)
Definition credits (c : course) : Q := dval (c_credits c).

(** A plain one-credit St. Olaf course for examples, compare
    dp/data/course.py:441-483 course_from_str (the clbid is given instead of a hash). *)
Definition mk_simple (clbid subject number : string) : course :=
  {| c_clbid := clbid; c_attributes := []; c_credits := mkDec 100 (-2);
     c_crsid := String.append "crs-" (String.append subject number);
     c_course_type := CtSemester; c_gereqs := []; c_gpa_points := mkDec 300 (-2);
     c_grade_code := GB; c_grade_option := GoGrade; c_grade_points := mkDec 300 (-2);
     c_institution := "STOLAF"; c_in_gpa := true; c_in_progress := false;
     c_ip_this_term := false; c_ip_in_future := false; c_incomplete := false;
     c_repeat := false; c_stolaf := true; c_lab := false; c_covid := false;
     c_level := 100; c_name := String.append subject (String.append " " number);
     c_number := number; c_schedid := None; c_section := None; c_sub_type := StNormal;
     c_subject := subject; c_su_grade := None; c_term := "1"; c_transcript_code := TcEmpty;
     c_year := 2000; c_yearterm := "20001";
     c_identity := String.append subject (String.append " " number); c_chbi := None |}.
