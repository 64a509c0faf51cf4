(** dp/context.py RequirementContext and the student data it carries. *)
From Coq Require Import List ZArith Bool String.
From Verif Require Import Prelude Dec Status Course Claims Exceptions Op.
Import ListNotations.
Local Open Scope string_scope.
Local Open Scope list_scope.

(** dp/data/area_enums.py:5-10 *)
Inductive area_status := AsWhatIf | AsWhatIfDrop | AsDeclared | AsCertified | AsAwarded.
(** dp/data/area_enums.py:14-18 *)
Inductive area_kind := AkDegree | AkMajor | AkConcentration | AkEmphasis.

(** dp/data/area_pointer.py:17-27 AreaPointer *)
Record area_ptr := mkArea {
  a_code : string; a_status : area_status; a_kind : area_kind; a_name : string;
  a_degree : string; a_dept : option string; a_gpa : option dec; a_terms : option Z;
}.

(** dp/data/music.py:66-68 MusicPerformanceStatus *)
Inductive perf_status := PsEntrance | PsContinuance.

(** dp/data/music.py:17-21 MusicSlip, 79-81 MusicPerformance *)
Record slip := mkSlip { s_year : Z; s_id : string; s_term : Z; s_name : string }.
Record performance := mkPerf { mp_slip : slip; mp_role : option string; mp_status : option perf_status }.

(** dp/data/music.py:126-130 MusicProficiencyStatus *)
Inductive prof_status := PrNo | PrYes | PrExam | PrClass.
(** dp/data/music.py:145-150 MusicProficiencies *)
Record proficiencies := mkProf {
  pf_guitar : prof_status; pf_k1 : prof_status; pf_k2 : prof_status; pf_k3 : prof_status; pf_k4 : prof_status }.

(** dp/data/music.py:162-184 MusicProficiencies.status *)
Definition prof_counts (exam_only : bool) (s : prof_status) : bool :=
  match s with
  | PrNo => false
  | PrExam => true
  | PrYes | PrClass => negb exam_only
  end.
Definition prof_of (p : proficiencies) (of : string) : res prof_status :=
  if of =? "Keyboard Level I" then Ok (pf_k1 p)
  else if of =? "Keyboard Level II" then Ok (pf_k2 p)
  else if of =? "Keyboard Level III" then Ok (pf_k3 p)
  else if of =? "Keyboard Level IV" then Ok (pf_k4 p)
  else if of =? "Guitar" then Ok (pf_guitar p)
  else Err KeyErr.
Definition proficiency_status (p : proficiencies) (of : string) (exam_only : bool) : res status :=
  let! s := prof_of p of in
  Ok (if prof_counts exam_only s then Done else Empty).
(** dp/data/music.py:186-190 passed_exam *)
Definition passed_exam (p : proficiencies) (of : string) : res bool :=
  let! s := proficiency_status p of true in Ok (status_eqb s Done).

(** dp/context.py:35-54 RequirementContext. [clbid_lookup_map_] is computed from the
    transcript (line 65), the claims are threaded separately, the cache is
    [Exceptions.beneath_cache], templates are left out. *)
Record ctx := mkCtx {
  cx_transcript : list course;
  cx_excluded : list course;                 (* transcript_with_excluded_ *)
  cx_failed : list course;                   (* transcript_with_failed_ *)
  cx_forced : list (string * course);
  cx_multi : multicountable;
  cx_exc : exc_dict;
  cx_areas : list area_ptr;
  cx_perf : list performance;
  cx_att : list slip;
  cx_prof : proficiencies;
}.
Definition no_proficiencies := mkProf PrNo PrNo PrNo PrNo PrNo.
Definition empty_ctx := mkCtx [] [] [] [] [] [] [] [] [] no_proficiencies.

(** dp/context.py:56-74 with_transcript *)
Definition with_transcript (cx : ctx) (t : list course) (forced : list (string * course))
    (full including_failed : list course) : ctx :=
  mkCtx t full including_failed forced (cx_multi cx) (cx_exc cx) (cx_areas cx) (cx_perf cx) (cx_att cx) (cx_prof cx).

(** [{c.clbid: c for c in transcript}] (dp/context.py:65): the last course wins *)
Definition lookup_clbid (t : list course) (k : string) : option course :=
  find (fun c => String.eqb (c_clbid c) k) (rev t).

(** dp/context.py:109-110 find_course_by_clbid *)
Definition find_by_clbid (cx : ctx) (k : string) : option course := lookup_clbid (cx_transcript cx) k.

(** dp/context.py:112-118 forced_course_by_clbid *)
Definition forced_by_clbid (cx : ctx) (k : string) : res course :=
  match find_by_clbid cx k with
  | Some c => Ok c
  | None => match dget (cx_forced cx) k with Some c => Ok c | None => Err MissingClbid end
  end.

(** dp/context.py:82-83 all_claimed: KeyError for a claimed course that is not in the
    (limited) transcript *)
Definition all_claimed (cx : ctx) (t : claims) : res (list course) :=
  mapr (fun kv => match find_by_clbid cx (fst kv) with Some c => Ok c | None => Err KeyErr end) t.

(** dp/data/student.py:348-361 CourseFilterArgs *)
Record filter_args := mkFilter {
  f_ap : option string; f_course : option string; f_crsid : option string;
  f_institution : option string; f_name : option string; f_year : option Z; f_term : option string;
  f_section : option string; f_sub_type : option sub_type;
  f_in_progress : option bool; f_attribute : option string }.
Definition no_filter := mkFilter None None None None None None None None None None None.

Definition ostr_is (o : option string) (s : string) : bool :=
  match o with Some x => String.eqb x s | None => false end.
Definition sub_type_eqb (a b : sub_type) : bool := if sub_type_eq_dec a b then true else false.
Definition course_type_eqb (a b : course_type) : bool := if course_type_eq_dec a b then true else false.

(** [x is not None and x != y] on strings *)
Definition given_differs (o : option string) (s : string) : bool :=
  match o with Some x => negb (String.eqb x s) | None => false end.
Definition is_none_o {A} (o : option A) : bool := match o with Some _ => false | None => true end.

(** dp/data/student.py:406-425: the part that is only looked at when a course is given.
    Comparing years asserts that a term is given. *)
Definition course_part (f : filter_args) (c : course) : res bool :=
  match f_course f with
  | None => Ok true
  | Some id =>
    if negb (String.eqb (c_identity c) id) then Ok false
    else if match f_section f, c_section c with
            | Some s, Some s' => negb (String.eqb s' s)
            | Some _, None => true
            | None, _ => false
            end then Ok false
    else
      let! year_ok :=
        match f_year f with
        | None => Ok true
        | Some y => match f_term f with
                    | None => Err AssertErr
                    | Some t => Ok ((c_year c =? y)%Z && String.eqb (c_term c) t)
                    end
        end in
      if negb year_ok then Ok false
      else Ok (match f_sub_type f with Some st => sub_type_eqb (c_sub_type c) st | None => true end)
  end.

(** dp/data/student.py:393-456 _course_filter *)
Definition course_filter (f : filter_args) (c : course) : res bool :=
  if is_none_o (f_institution f) && is_none_o (f_ap f) && negb (c_stolaf c) then Ok false    (* 397 *)
  else if given_differs (f_crsid f) (c_crsid c) then Ok false                                (* 401 *)
  else
    let! course_ok := course_part f c in                                                     (* 406 *)
    if negb course_ok then Ok false
    else if match f_attribute f with Some a => negb (existsb (String.eqb a) (c_attributes c)) | None => false end
    then Ok false                                                                            (* 428 *)
    else if given_differs (f_name f) (c_name c) then Ok false
    else if given_differs (f_institution f) (c_institution c) then Ok false
    else if match f_ap f with
            | Some a => negb (course_type_eqb (c_course_type c) CtAP) || negb (String.eqb (c_name c) a)
            | None => false
            end then Ok false                                                                (* 442 *)
    else Ok (match f_in_progress f with Some b => Bool.eqb b (c_in_progress c) | None => true end). (* 447 *)

(** [filter(course_filter(...), l)] *)
Fixpoint filter_res {A} (f : A -> res bool) (l : list A) : res (list A) :=
  match l with
  | [] => Ok []
  | x :: t => let! b := f x in let! r := filter_res f t in Ok (if b then x :: r else r)
  end.
Definition by_course (id : string) : filter_args := mkFilter None (Some id) None None None None None None None None None.
Definition by_course_ip (id : string) (ip : bool) : filter_args := mkFilter None (Some id) None None None None None None None (Some ip) None.
Definition by_attribute (a : string) : filter_args := mkFilter None None None None None None None None None None (Some a).

(** dp/context.py:120-121 has_declared_area_code *)
Definition has_declared_area_code (cx : ctx) (code : string) : bool :=
  existsb (fun a => String.eqb code (a_code a)) (cx_areas cx).
(** dp/context.py:123-126 has_course; [for _ in filter(f, l): return True] / [return False]
    is [any_res] *)
Definition has_course (cx : ctx) (id : string) : res bool := any_res (course_filter (by_course id)) (cx_transcript cx).
(** dp/context.py:128-131 has_ip_course *)
Definition has_ip_course (cx : ctx) (id : string) : res bool := any_res (course_filter (by_course_ip id true)) (cx_transcript cx).
(** dp/context.py:133-136 has_completed_course *)
Definition has_completed_course (cx : ctx) (id : string) : res bool := any_res (course_filter (by_course_ip id false)) (cx_transcript cx).
