(** What a run does, and what the report of averages says, apart from the loops. *)
From Coq Require Import List Bool Arith ZArith QArith String Ascii Permutation Sorting.Sorted.
From Verif Require Import Transcript Prelude Dec Paths Status Claims Course Exceptions Context Predicate Tree Loader Label Driver Area AreaLoad Estimate TranscriptSpec StudentLoad StudentSpec Run.
Import Transcript TranscriptSpec.
Import ListNotations.
Local Open Scope string_scope.

(** ** The exceptions of the audited area, in order *)
Inductive own_exceptions (code : string) (ms : list migration) : list raw_entry -> list exc -> Prop :=
| oe_nil : own_exceptions code ms [] []
| oe_own e x l xs : re_area e = Some code -> load_exception ms (re_exc e) = Ok x -> own_exceptions code ms l xs -> own_exceptions code ms (e :: l) (x :: xs)
| oe_other e a l xs : re_area e = Some a -> a <> code -> own_exceptions code ms l xs -> own_exceptions code ms (e :: l) xs.
Record migration_of (m : raw_migration) (n : migration) : Prop := {
  mo_from : rm_from m = Some (mig_from n); mo_to : rm_to m = Some (mig_to n);
  mo_comment : exists c, rm_comment m = Some c; mo_date : exists t, rm_date m = Some t }.
(** those that change credits or subject of a class *)
Definition changes_class (e : exc) : Prop := exists k x, ex_act e = ACredits k x \/ exists y, ex_act e = ASubject k y.
Inductive overrides : list exc -> list exc -> Prop :=
| ov_nil : overrides [] []
| ov_in e l m : changes_class e -> overrides l m -> overrides (e :: l) (e :: m)
| ov_out e l m : ~ changes_class e -> overrides l m -> overrides (e :: l) m.
(** a run starts with these exceptions and this student *)
Definition started (d : sdata) (xs : list raw_entry) (s : spec) (es : list exc) (st : loaded) : Prop :=
  exists code ms os, ar_code (sp_area s) = Some code /\ Forall2 migration_of (sp_migrations s) ms /\
    own_exceptions code ms xs es /\ overrides es os /\ student_of d code os (sp_credit s) st.

(** ** Averages *)
Definition average (l : list course) (d : dec) : Prop :=
  (credits_of l == 0 -> d = mkDec 0 (-2))%Q /\ (~ (credits_of l == 0)%Q -> cut_to_hundredths (points_of l / credits_of l) d).
(** by year, term, course and id *)
Inductive listed_before (a b : course) : Prop :=
| lb_year : (c_year a < c_year b)%Z -> listed_before a b
| lb_term : c_year a = c_year b -> String.compare (c_term a) (c_term b) = Lt -> listed_before a b
| lb_course : c_year a = c_year b -> c_term a = c_term b -> String.compare (c_identity a) (c_identity b) = Lt -> listed_before a b
| lb_id : c_year a = c_year b -> c_term a = c_term b -> c_identity a = c_identity b -> String.compare (c_clbid a) (c_clbid b) = Lt -> listed_before a b.
Definition term_before (s t : string) : Prop := String.compare s t = Lt.
Definition row_of (c : course) : gpa_row := GCourse (c_identity c) (str_of_Z (c_year c) ++ "-" ++ c_term c) (c_grade_code c) (c_grade_points c).
Definition the_term (c : course) : string := str_of_Z (c_year c) ++ "-" ++ c_term c.
(** the rows of one term *)
Inductive block (cs : list course) (t : string) : list gpa_row -> Prop :=
| bl_none : (forall c, In c cs -> the_term c = t -> c_in_gpa c = false) -> block cs t [GNoCourses t]
| bl_some counted so_far g k :
    counted <> [] -> NoDup counted -> (forall c, In c counted <-> In c cs /\ the_term c = t /\ c_in_gpa c = true) ->
    StronglySorted (fun a b => ~ listed_before b a) counted ->
    NoDup so_far -> (forall c, In c so_far <-> In c cs /\ (the_term c = t \/ term_before (the_term c) t) /\ c_in_gpa c = true) ->
    average counted g -> average so_far k ->
    block cs t (GTerm t :: map row_of counted ++ [GTermGpa g; GCumGpa k])%list.
(** the rows of all terms, in order, and the average of all courses *)
Definition report (cs : list course) (rows : list gpa_row) : Prop :=
  exists terms blocks g all, StronglySorted term_before terms /\ (forall t, In t terms <-> exists c, In c cs /\ the_term c = t) /\
    Forall2 (block cs) terms blocks /\ NoDup all /\ (forall c, In c all <-> In c cs /\ c_in_gpa c = true) /\ average all g /\
    rows = (List.concat blocks ++ [GOverall g])%list.
(** a line of the transcript *)
Record row_shows (c : course) (r : transcript_row) : Prop := {
  rs_course : tr_course r = c_identity c; rs_name : tr_name r = c_name c; rs_clbid : tr_clbid r = c_clbid c; rs_type : tr_type r = c_course_type c;
  rs_credits : tr_credits r = c_credits c; rs_term : tr_term r = the_term c; rs_sub : tr_sub_type r = c_sub_type c;
  rs_grade : tr_grade r = c_grade_code c; rs_gpa : tr_gpa r = c_in_gpa c }.
