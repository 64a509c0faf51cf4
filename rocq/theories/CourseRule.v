(** dp/base/course.py, dp/rule/course.py, dp/solution/course.py, dp/result/course.py and the
    defaults of dp/base/bases.py they use. *)
From Coq Require Import List ZArith QArith Bool String.
From Verif Require Import Prelude Dec Status Course Claims Exceptions Op Grades Predicate Context.
Import ListNotations.
Local Open Scope string_scope.
Local Open Scope list_scope.

(** dp/base/bases.py:20-24, 110-132: which of the three classes a node is an instance of *)
Inductive kind := KRule | KSol | KRes.

(** dp/base/course.py:12-42 BaseCourseRule with the path and overridden of Base, and the
    claim_attempt of dp/result/course.py:13. [hidden] is only displayed and left out. *)
Record crule := mkCrule {
  r_path : path; r_overridden : bool;
  r_course : option string; r_clbid : option string; r_crsid : option string; r_ap : option string;
  r_institution : option string; r_name : option string;
  r_grade : option dec; r_grade_option : option grade_option; r_year : option Z; r_term : option string;
  r_section : option string; r_sub_type : option string;
  r_allow : bool; r_from_claimed : bool; r_optional : bool; r_inserted : bool; r_forced : bool;
  r_auto_waived : bool; r_excluded : list string;
  r_matched : option course; r_claim : option claim;
}.

(** ** Finding courses *)

(** dp/data/course_enums.py:37-42 SUB_TYPE_LOOKUP *)
Definition sub_type_lookup (s : string) : option sub_type :=
  if s =? "E" then Some StEnsemble else if s =? "L" then Some StLab
  else if s =? "F" then Some StFlac else if s =? "D" then Some StDiscussion else None.
Definition or_empty (o : option string) : string := match o with Some s => s | None => "" end.
(** [if s:] on an optional string *)
Definition given (o : option string) : bool := match o with Some s => negb (s =? "") | None => false end.

(** dp/context.py:97-107: the arguments of course_filter *)
Definition rule_filter (r : crule) : filter_args :=
  mkFilter (r_ap r) (r_course r) (r_crsid r) (r_institution r) (r_name r) (r_year r) (r_term r) (r_section r)
    (sub_type_lookup (or_empty (r_sub_type r))) None None.
(** dp/context.py:88-107 find_courses with from_claimed=False (the only way it is called
    outside CourseSolution.all_courses); a lazy filter: what it found before raising is
    kept *)
Fixpoint gfilter {A} (f : A -> res bool) (l : list A) : gen A :=
  match l with
  | [] => gnil
  | x :: t =>
    match f x with
    | Err e => gfail e
    | Ok b => if b then gapp (gret [x]) (gfilter f t) else gfilter f t
    end
  end.
Definition find_courses (cx : ctx) (r : crule) : gen course :=
  if given (r_clbid r) then
    match find_by_clbid cx (or_empty (r_clbid r)) with Some c => gret [c] | None => gnil end
  else gfilter (course_filter (rule_filter r)) (cx_transcript cx).

(** ** The rule *)
Definition excludes (r : crule) (k : string) : bool := existsb (String.eqb k) (r_excluded r).

(** dp/solution/course.py:18-40 CourseSolution.from_rule: from_claimed, auto_waived and
    excluded_clbids are not passed on and get their defaults *)
Definition c_solution (r : crule) (c : option course) (was_inserted was_forced overridden : bool) : crule :=
  mkCrule (r_path r) overridden (r_course r) (r_clbid r) (r_crsid r) (r_ap r) (r_institution r) (r_name r)
    (r_grade r) (r_grade_option r) (r_year r) (r_term r) (r_section r) (r_sub_type r)
    (r_allow r) false (r_optional r) (r_inserted r || was_inserted) was_forced false [] c None.

(** dp/rule/course.py:145-157: one solution per insertion that is not excluded *)
Fixpoint c_inserts (cx : ctx) (r : crule) (es : list exc) : gen crule :=
  match es with
  | [] => gnil
  | x :: t =>
    match forced_by_clbid cx (exc_clbid x) with
    | Err e => gfail e
    | Ok c =>
      if excludes r (c_clbid c) then c_inserts cx r t
      else gapp (gret [c_solution r (Some c) true (exc_forced x) false]) (c_inserts cx r t)
    end
  end.
(** dp/rule/course.py:164-173: the courses found that are skipped *)
Definition c_skips (r : crule) (c : course) : bool :=
  excludes r (c_clbid c) ||
  match r_grade r with
  | Some g => negb (c_in_progress c) && Qltb (dval (c_grade_points c)) (dval g)
  | None => false
  end ||
  match r_grade_option r with
  | Some o => if grade_option_eq_dec (c_grade_option c) o then false else true
  | None => false
  end.
(** dp/rule/course.py:135-181 solutions *)
Definition c_solutions (cx : ctx) (r : crule) : gen crule :=
  if r_auto_waived r || match get_waive (cx_exc cx) (r_path r) with Some _ => true | None => false end
  then gret [c_solution r None false false true]
  else
    let found := find_courses cx r in
    let offered := gapp (c_inserts cx r (get_inserts (cx_exc cx) (r_path r)))
      (Gen (map (fun c => c_solution r (Some c) false false false)
                (filter (fun c => negb (c_skips r c)) (g_items found))) (g_exn found)) in
    match offered with
    | Gen [] None => gret [c_solution r None false false false]
    | _ => offered
    end.

(** dp/rule/course.py:183-184 *)
Definition c_estimate : Z := 1.
(** dp/rule/course.py:194-202 _has_potential: [next] looks for one course only *)
Definition c_potential (cx : ctx) (r : crule) : res bool :=
  if r_auto_waived r || has_exception_beneath (cx_exc cx) (r_path r) then Ok true
  else if given (r_clbid r) then
    Ok (match find_by_clbid cx (or_empty (r_clbid r)) with Some _ => true | None => false end)
  else any_res (course_filter (rule_filter r)) (cx_transcript cx).

(** dp/rule/course.py:207-221 _all_matches *)
Definition c_insert_matches (cx : ctx) (r : crule) : list course :=
  flat_map (fun x => if excludes r (exc_clbid x) then []
                     else match find_by_clbid cx (exc_clbid x) with Some c => [c] | None => [] end)
           (get_inserts (cx_exc cx) (r_path r)).
(** [list(generator)] *)
Definition gall {A} (g : gen A) : res (list A) :=
  match g_exn g with Some e => Err e | None => Ok (g_items g) end.
Definition c_matches (cx : ctx) (r : crule) : res (list course) :=
  if r_from_claimed r then Ok (c_insert_matches cx r)
  else let! found := gall (find_courses cx r) in
       Ok (c_insert_matches cx r ++ filter (fun c => negb (excludes r (c_clbid c))) found).

(** dp/rule/course.py:112-126 get_required_courses *)
Definition c_required (cx : ctx) (r : crule) : res (list course) :=
  if r_from_claimed r then Ok []
  else
    let! ms := c_matches cx r in
    let ms := fold_left (fun ms x => filter (fun c => negb (String.eqb (c_clbid c) (exc_clbid x))) ms)
                        (get_inserts (cx_exc cx) (r_path r)) ms in
    Ok (match ms with [_] => ms | _ => [] end).

(** dp/rule/course.py:128-133 apply_block_exception *)
Definition c_block (r : crule) (p : path) (k : string) : crule :=
  if path_eqb (r_path r) p then
    mkCrule (r_path r) (r_overridden r) (r_course r) (r_clbid r) (r_crsid r) (r_ap r) (r_institution r) (r_name r)
      (r_grade r) (r_grade_option r) (r_year r) (r_term r) (r_section r) (r_sub_type r)
      (r_allow r) (r_from_claimed r) (r_optional r) (r_inserted r) (r_forced r) (r_auto_waived r)
      (r_excluded r ++ [k]) (r_matched r) (r_claim r)
  else r.

(** ** The audit *)

(** dp/result/course.py:15-41 CourseResult.from_solution: forced, from_claimed,
    auto_waived, excluded_clbids and matched_course are not passed on *)
Definition c_result (s : crule) (cl : option claim) (overridden : bool) : crule :=
  mkCrule (r_path s) overridden (r_course s) (r_clbid s) (r_crsid s) (r_ap s) (r_institution s) (r_name s)
    (r_grade s) (r_grade_option s) (r_year s) (r_term s) (r_section s) (r_sub_type s)
    (r_allow s) false (r_optional s) (r_inserted s) false false [] None cl.

(** dp/solution/course.py:42-65 audit *)
Definition c_audit (mc : multicountable) (t : claims) (s : crule) : res (crule * claims) :=
  if r_overridden s then Ok (c_result s None true, t)
  else match r_matched s with
  | None => Ok (c_result s None false, t)
  | Some c =>
    if r_from_claimed s && negb (has_claim t (c_clbid c)) then Ok (c_result s None false, t)
    else
      let! (cl, t') := make_claim mc t c (r_path s) (r_forced s || r_allow s) in
      if r_from_claimed s && cl_failed cl then Err AssertErr
      else Ok (c_result s (Some cl) false, t')
  end.

(** ** Claims, status, rank *)

(** dp/base/bases.py:79-80, dp/result/course.py:43-47 *)
Definition c_claims (k : kind) (r : crule) : list claim :=
  match k, r_claim r with
  | KRes, Some cl => if cl_failed cl then [] else [cl]
  | _, _ => []
  end.
(** dp/base/bases.py:94-95, dp/result/course.py:49-53 *)
Definition c_waived (k : kind) (r : crule) : bool :=
  match k with
  | KRes => if match r_claim r with Some cl => cl_failed cl | None => false end then false
            else r_inserted r || r_overridden r
  | _ => r_overridden r
  end.
(** dp/base/bases.py:85-86 matched: the courses of the claims that did not fail, as a set *)
Definition matched_of (cls : list claim) : list course :=
  dedup course_eqb (map cl_course (filter (fun cl => negb (cl_failed cl)) cls)).
(** dp/base/course.py:91-112 status *)
Definition c_status (k : kind) (r : crule) : status :=
  if c_waived k r then Waived
  else
    let m := matched_of (c_claims k r) in
    let ip := existsb c_in_progress m in
    if match m with [] => false | _ => true end && negb ip then Done
    else
      let enrolled := existsb (fun c => c_ip_this_term c || c_incomplete c) m in
      let registered := existsb c_ip_in_future m in
      if ip && enrolled && negb registered then PendingCurrent
      else if ip && registered then PendingRegistered
      else if r_optional r then Waived
      else Empty.
(** dp/base/course.py:74-89 rank *)
Definition status_rank (s : status) : Q :=
  match s with
  | Done | Waived => 1
  | PendingCurrent => 3 # 4
  | PendingRegistered => 1 # 2
  | _ => 0
  end.
Definition c_rank (k : kind) (r : crule) : Q :=
  if r_optional r then 1 else status_rank (c_status k r).
Definition c_max_rank (k : kind) (r : crule) : Q := 1.

(** ** Loading *)

(** the keys of a course rule ("hidden" and "waived" are accepted and have no effect on the
    audit). [rc_bad]: any other key, in particular "auto_waived". *)
Record raw_course := mkRawCourse {
  rc_course : option string; rc_ap : option string; rc_name : option string; rc_institution : option string;
  rc_grade : option string; rc_grade_option : option string; rc_clbid : option string; rc_crsid : option string;
  rc_inserted : bool; rc_section : option string; rc_sub_type : option string; rc_year : option Z; rc_term : option string;
  rc_from_claimed : bool; rc_allow : bool; rc_optional : bool; rc_bad : bool;
}.
(** dp/rule/course.py:51: [course or ap or name or clbid or 'crsid:' + crsid] *)
Definition c_label (r : raw_course) : res string :=
  if given (rc_course r) then Ok (or_empty (rc_course r))
  else if given (rc_ap r) then Ok (or_empty (rc_ap r))
  else if given (rc_name r) then Ok (or_empty (rc_name r))
  else if given (rc_clbid r) then Ok (or_empty (rc_clbid r))
  else match rc_crsid r with Some s => Ok ("crsid:" ++ s)%string | None => Err TypeErr end.
(** dp/rule/course.py:51-64: the last component of the path *)
Definition c_path_name (r : raw_course) : res string :=
  let! label := c_label r in
  let s := ("*" ++ label)%string in
  let s := if given (rc_section r) then (s ++ or_empty (rc_section r))%string else s in
  let s := if given (rc_sub_type r) then (s ++ "." ++ or_empty (rc_sub_type r))%string else s in
  let! s := match rc_year r with
            | None => Ok s
            | Some y => match rc_term r with
                        | None => Err AssertErr
                        | Some t => Ok (s ++ " " ++ str_of_Z y ++ "-" ++ t)%string
                        end
            end in
  let s := if given (rc_institution r) then (s ++ "(institution=" ++ or_empty (rc_institution r) ++ ")")%string else s in
  Ok (if given (rc_grade r) then (s ++ "(grade >= " ++ or_empty (rc_grade r) ++ ")")%string else s).
(** dp/lib.py:30-31 str_to_grade_points *)
Definition str_to_grade_points (s : string) : res dec :=
  let! g := grade_of_value s in
  Ok (match grade_points g with Some d => d | None => mkDec 0 (-2) end).
(** dp/rule/course.py:35-107 load *)
Definition load_course (p : path) (r : raw_course) : res crule :=
  let! name := c_path_name r in
  if rc_bad r then Err AssertErr
  else if negb (given (rc_course r) || given (rc_ap r) || (given (rc_institution r) && given (rc_name r))
                || given (rc_clbid r) || given (rc_crsid r)) then Err AssertErr
  else
    let! grade := match rc_grade r with Some g => let! d := str_to_grade_points g in Ok (Some d) | None => Ok None end in
    let! opt := if given (rc_grade_option r) then let! o := option_of_value (or_empty (rc_grade_option r)) in Ok (Some o) else Ok None in
    Ok (mkCrule (p ++ [name]) false (rc_course r) (rc_clbid r) (rc_crsid r) (rc_ap r) (rc_institution r) (rc_name r)
          grade opt (rc_year r) (rc_term r) (rc_section r) (rc_sub_type r)
          (rc_allow r || rc_from_claimed r) (rc_from_claimed r) (rc_optional r) (rc_inserted r) false false [] None None).
