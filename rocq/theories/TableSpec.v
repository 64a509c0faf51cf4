(** What the codes and names of the registrar's data and of specifications stand for, written
    down apart from the functions that read them. *)
From Coq Require Import List ZArith QArith Bool String.
From Verif Require Import Prelude Dec Course Op Context Predicate Transcript Apply.
Import ListNotations.
Local Open Scope string_scope.

(** a letter, with or without a sign *)
Inductive sign := plain | plus | minus.
Definition sign_code (s : sign) : string := match s with plain => "" | plus => "+" | minus => "-" end.
Definition sign_name (s : sign) : string := match s with plain => "" | plus => "_plus" | minus => "_minus" end.
Inductive letter_grade : string -> sign -> grade_code -> Prop :=
| lg_A : letter_grade "A" plain GA   | lg_Ap : letter_grade "A" plus GAplus | lg_Am : letter_grade "A" minus GAminus
| lg_B : letter_grade "B" plain GB   | lg_Bp : letter_grade "B" plus GBplus | lg_Bm : letter_grade "B" minus GBminus
| lg_C : letter_grade "C" plain GC   | lg_Cp : letter_grade "C" plus GCplus | lg_Cm : letter_grade "C" minus GCminus
| lg_D : letter_grade "D" plain GD   | lg_Dp : letter_grade "D" plus GDplus | lg_Dm : letter_grade "D" minus GDminus
| lg_F : letter_grade "F" plain GF.
(** the other grades *)
Inductive mark : string -> grade_code -> Prop :=
| mk_BC : mark "BC" G_BC | mk_AB : mark "AB" G_AB | mk_NG : mark "NG" G_NG | mk_IP : mark "IP" G_IP
| mk_I : mark "I" G_I | mk_P : mark "P" G_P | mk_N : mark "N" G_N | mk_S : mark "S" G_S
| mk_U : mark "U" G_U | mk_AU : mark "AU" G_AU | mk_UA : mark "UA" G_UA | mk_WF : mark "WF" G_WF
| mk_WP : mark "WP" G_WP | mk_W : mark "W" G_W.

(** the code of a grade in a transcript *)
Inductive grade_coded : string -> grade_code -> Prop :=
| gc_letter l s g : letter_grade l s g -> grade_coded (l ++ sign_code s) g
| gc_mark m g : mark m g -> grade_coded m g
| gc_reg : grade_coded "DP_REG" G_REG.
(** the name of a grade *)
Inductive grade_named : string -> grade_code -> Prop :=
| gn_letter l s g : letter_grade l s g -> grade_named (l ++ sign_name s) g
| gn_mark m g : mark m g -> grade_named ("_" ++ m) g
| gn_reg : grade_named "_REG" G_REG.

Inductive option_coded : string -> grade_option -> Prop :=
| oc_audit : option_coded "audit" GoAudit | oc_grade : option_coded "grade" GoGrade
| oc_no : option_coded "no grade" GoNoGrade | oc_pn : option_coded "p/n" GoPN | oc_su : option_coded "s/u" GoSU.

(** sub type: the code and the name *)
Inductive sub_typed : string -> string -> sub_type -> Prop :=
| st_d : sub_typed "discussion" "Discussion" StDiscussion | st_e : sub_typed "ensemble" "Ensemble" StEnsemble
| st_f : sub_typed "flac" "Flac" StFlac | st_l : sub_typed "lab" "Lab" StLab
| st_r : sub_typed "research" "Research" StResearch | st_s : sub_typed "seminar" "Seminar" StSeminar
| st_t : sub_typed "topic" "Topic" StTopic | st_n : sub_typed "" "Normal" StNormal.

(** course type: the code, the name, and whether the course was taken as one here (1) or
    granted afterwards (2) *)
Inductive course_typed : string -> string -> Z -> course_type -> Prop :=
| ct_se : course_typed "SE" "Semester" 1 CtSemester | ct_in : course_typed "IN" "Interim" 1 CtInterim
| ct_sm : course_typed "SM" "Summer" 1 CtSummer | ct_ca : course_typed "CA" "Carleton" 1 CtCarleton
| ct_ie : course_typed "IE" "InterimExchange" 1 CtInterimExchange
| ct_oc : course_typed "OC" "OffCampusCourse" 1 CtOffCampusCourse
| ct_op : course_typed "OP" "OffCampusProgram" 1 CtOffCampusProgram
| ct_ce : course_typed "CE" "ContinuingEducation" 1 CtContinuingEducation
| ct_ap : course_typed "AP" "AP" 2 CtAP | ct_ps : course_typed "PS" "PSEO" 2 CtPSEO
| ct_ad : course_typed "AD" "Adjustment" 2 CtAdjustment | ct_ge : course_typed "GE" "GeReq" 2 CtGeReq
| ct_ot : course_typed "OT" "Other" 2 CtOther | ct_tr : course_typed "TR" "Transfer" 2 CtTransfer
| ct_pc : course_typed "PC" "ParaCollege" 2 CtParaCollege.

Inductive transcript_coded : string -> transcript_code -> Prop :=
| tc_none : transcript_coded "" TcEmpty | tc_car : transcript_coded "#" TcCarleton
| tc_inc : transcript_coded "*" TcWasIncomplete | tc_ind : transcript_coded "+" TcIndividualMajor
| tc_rep : transcript_coded "R" TcRepeatedLater | tc_rip : transcript_coded "~" TcRepeatInProgress.

(** what an assertion may be about: the aggregate, its operand, and the kind of data *)
Inductive quantity : string -> string -> data_type -> akey -> Prop :=
| qn_1 : quantity "count" "courses" DtCourse KCourses
| qn_2 : quantity "count" "distinct_courses" DtCourse KDistinctCourses
| qn_3 : quantity "count" "terms_from_most_common_course" DtCourse KTermsMostCommon
| qn_4 : quantity "count" "terms_from_most_common_course_by_name" DtCourse KTermsMostCommonName
| qn_5 : quantity "count" "math_perspectives" DtCourse KMathPerspectives
| qn_6 : quantity "count" "religion_traditions" DtCourse KReligionTraditions
| qn_7 : quantity "count" "intlr_regions" DtCourse KIntlrRegions
| qn_8 : quantity "count" "subjects" DtCourse KSubjects
| qn_9 : quantity "count" "terms" DtCourse KTerms
| qn_10 : quantity "count" "years" DtCourse KYears
| qn_11 : quantity "sum" "credits" DtCourse KSumCredits
| qn_12 : quantity "sum" "credits_from_single_subject" DtCourse KSumSingleSubject
| qn_13 : quantity "average" "grades" DtCourse KAvgGrades
| qn_14 : quantity "average" "credits" DtCourse KAvgCredits
| qn_15 : quantity "count" "areas" DtArea KAreas
| qn_16 m : (m = DtPerformance \/ m = DtRecital) -> quantity "count" "items" m KItems
| qn_17 m : (m = DtPerformance \/ m = DtRecital) -> quantity "count" "performances" m KPerformances
| qn_18 m : (m = DtPerformance \/ m = DtRecital) -> quantity "count" "seminars" m KSeminars
| qn_19 m : (m = DtPerformance \/ m = DtRecital) -> quantity "count" "recitals" m KRecitals.

(** the numbers of the integrated chemistry and biology courses *)
Definition integrated (id : string) (n : Z) : Prop :=
  (n = 125 \/ n = 126 \/ n = 127 \/ n = 227)%Z /\ id = "CH/BI " ++ str_of_Z n.

(** the number a scalar stands for *)
Inductive number_of : scalar -> Q -> Prop :=
| nu_true : number_of (SBool true) 1 | nu_false : number_of (SBool false) 0
| nu_int z : number_of (SInt z) (inject_Z z) | nu_dec d : number_of (SDec d) (dval d).

(** names of the statuses and kinds of areas, as where clauses see them *)
Inductive status_named : string -> area_status -> Prop :=
| sn_1 : status_named "WhatIf" AsWhatIf | sn_2 : status_named "WhatIfDrop" AsWhatIfDrop
| sn_3 : status_named "Declared" AsDeclared | sn_4 : status_named "Certified" AsCertified
| sn_5 : status_named "Awarded" AsAwarded.
Inductive kind_named : string -> area_kind -> Prop :=
| kn_1 : kind_named "Degree" AkDegree | kn_2 : kind_named "Major" AkMajor
| kn_3 : kind_named "Concentration" AkConcentration | kn_4 : kind_named "Emphasis" AkEmphasis.
Inductive option_named : string -> grade_option -> Prop :=
| on_1 : option_named "Audit" GoAudit | on_2 : option_named "Grade" GoGrade | on_3 : option_named "NoGrade" GoNoGrade
| on_4 : option_named "PN" GoPN | on_5 : option_named "SU" GoSU.
