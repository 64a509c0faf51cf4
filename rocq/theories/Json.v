(** What is stored and printed of a result: the [to_dict] methods (dp/base/*.py, dp/area.py,
    dp/claim.py, dp/limit.py, dp/assertion_clause.py, dp/predicate_clause.py,
    dp/conditional_expression.py). The texts that are only shown and that the classes of the
    model do not hold are left out: "message" of requirements and limits, "hidden" of courses,
    "original" of predicates, "hide_branching" of conditional predicates. *)
From Coq Require Import List ZArith QArith Bool String.
From Verif Require Import Prelude Dec Status Course Claims Exceptions Op Context CondExpr Predicate Limit Apply Assertion Query CourseRule Tree Area ListFacts.
Import ListNotations.
Local Open Scope string_scope.
Local Open Scope list_scope.

(** A value of json.dumps. [JNum q] is a text: what [str] gives for a Decimal of the value [q],
    where the model knows the value but not the number of digits. *)
Inductive json :=
| JNull
| JBool (b : bool)
| JInt (z : Z)
| JStr (s : string)
| JNum (q : Q)
| JList (l : list json)
| JObj (d : list (string * json)).

(** ** Values of enums *)

(** dp/status.py:5-13 *)
Definition status_value (s : status) : string :=
  match s with
  | Empty => "empty" | PendingApproval => "pending-approval" | NeedsMoreItems => "needs-more-items"
  | PendingRegistered => "pending-registered" | PendingCurrent => "pending-current"
  | Done => "done" | Waived => "waived" | FailedInvariant => "failed-invariant"
  end.
(** dp/base/bases.py:20-24, 113-132 *)
Definition kind_value (k : kind) : string :=
  match k with KRule => "rule" | KSol => "solution" | KRes => "result" end.
(** dp/data/course_enums.py:88-118 *)
Definition grade_value (g : grade_code) : string :=
  match g with
  | GA => "A" | GAplus => "A+" | GAminus => "A-" | GB => "B" | GBplus => "B+" | GBminus => "B-"
  | GC => "C" | GCplus => "C+" | GCminus => "C-" | GD => "D" | GDplus => "D+" | GDminus => "D-" | GF => "F"
  | G_BC => "BC" | G_AB => "AB" | G_NG => "NG" | G_IP => "IP" | G_I => "I" | G_P => "P" | G_N => "N"
  | G_S => "S" | G_U => "U" | G_AU => "AU" | G_UA => "UA" | G_WF => "WF" | G_WP => "WP" | G_W => "W"
  | G_REG => "DP_REG"
  end.
(** dp/data/course_enums.py:6-12 *)
Definition option_value (o : grade_option) : string :=
  match o with GoAudit => "audit" | GoGrade => "grade" | GoNoGrade => "no grade" | GoPN => "p/n" | GoSU => "s/u" end.
(** member names of Operator, dp/op.py:9-17 *)
Definition operator_name (o : operator) : string :=
  match o with
  | OLt => "LessThan" | OLte => "LessThanOrEqualTo" | OGt => "GreaterThan" | OGte => "GreaterThanOrEqualTo"
  | OEq => "EqualTo" | ONeq => "NotEqualTo" | OIn => "In" | ONin => "NotIn"
  end.
(** dp/data_type.py *)
Definition data_type_value (d : data_type) : string :=
  match d with DtCourse => "course" | DtArea => "area" | DtPerformance => "music-performance" | DtRecital => "recital" end.
(** dp/base/query.py:17-22 *)
Definition source_value (s : qsource) : string :=
  match s with
  | QCourses => "courses" | QClaimed => "claimed" | QAreas => "areas"
  | QPerformances => "music performances" | QRecitals => "music recitals"
  end.
(** member names of AtMostWhat, dp/limit.py:27-29 *)
Definition what_name (w : at_most_what) : string := match w with Courses => "Courses" | Credits => "Credits" end.
(** dp/conditional_expression.py:61-74 *)
Definition pfun_value (f : pfun) : string :=
  match f with
  | FHasIpCourse => "has-ip-course" | FHasCompletedCourse => "has-completed-course" | FHasCourse => "has-course"
  | FPassedProficiencyExam => "passed-proficiency-exam" | FHasDeclaredAreaCode => "has-declared-area-code"
  | FStudentHasCourseWithAttribute => "student-has-course-with-attribute"
  | FHasOverrideException => "has-override-exception"
  end.
Definition dfun_value (f : dfun) : string :=
  match f with
  | FQueryHasCourseWithAttribute => "query-has-course-with-attribute"
  | FQueryHasSingleCourseWithAttribute => "query-has-single-course-with-attribute"
  end.

(** ** Small values *)
Definition jopt {A} (f : A -> json) (o : option A) : json := match o with Some a => f a | None => JNull end.
Definition jstrs (l : list string) : json := JList (map JStr l).
Definition jdec (d : dec) : json := JStr (str_of_dec d).
(** [sorted] of strings *)
Definition str_leb (a b : string) : bool := match String.compare a b with Gt => false | _ => true end.
(** dp/clause_helpers.py:6-16 stringify_expected *)
Definition scalar_json (s : scalar) : json :=
  match s with
  | SNone => JNull
  | SBool b => JBool b
  | SInt z => JInt z
  | SDec d => jdec d
  | SStr s => JStr s
  | SGrade g => JStr (grade_value g)
  | SOpt o => JStr (option_value o)
  end.
Definition value_json (v : value) : json := match v with VS s => scalar_json s | VT l => JList (map scalar_json l) end.

(** ** Expressions, clauses, limits, claims *)

(** dp/conditional_expression.py:94-99, 125-130, 155-160, 204-210 *)
Fixpoint expr_json (e : pexpr) : json :=
  match e with
  | EAnd l r => JObj [("type", JStr "pred-expr--and"); ("expressions", JList (map expr_json l)); ("result", jopt JBool r)]
  | EOr l r => JObj [("type", JStr "pred-expr--or"); ("expressions", JList (map expr_json l)); ("result", jopt JBool r)]
  | ENot x r => JObj [("type", JStr "pred-expr--not"); ("expression", expr_json x); ("result", jopt JBool r)]
  | EFun f a r => JObj [("type", JStr "pred-expr"); ("function", JStr (pfun_value f)); ("argument", JStr a);
                        ("result", jopt JBool r)]
  end.
(** dp/conditional_expression.py:252-258, 282-287, 313-318 *)
Fixpoint dexpr_json (e : dexpr) : json :=
  match e with
  | DAnd l r => JObj [("type", JStr "pred-dyn-expr--and"); ("expressions", JList (map dexpr_json l)); ("result", jopt JBool r)]
  | DOr l r => JObj [("type", JStr "pred-dyn-expr--or"); ("expressions", JList (map dexpr_json l)); ("result", jopt JBool r)]
  | DFun f a r => JObj [("type", JStr "pred-dyn-expr"); ("function", JStr (dfun_value f)); ("argument", JStr a);
                        ("result", jopt JBool r)]
  end.
(** dp/predicate_clause.py:112-116, 127-131, 142-146, 160-167, 203-217 *)
Fixpoint pred_json (p : pred) : json :=
  match p with
  | PAnd l => JObj [("type", JStr "pred--and"); ("predicates", JList (map pred_json l))]
  | POr l => JObj [("type", JStr "pred--or"); ("predicates", JList (map pred_json l))]
  | PNot x => JObj [("type", JStr "pred--not"); ("predicate", pred_json x)]
  | PIf c t e => JObj [("type", JStr "pred--if"); ("condition", expr_json c); ("when_true", pred_json t);
                       ("when_false", match e with Some x => pred_json x | None => JNull end)]
  | PLeaf l => JObj [("type", JStr "predicate"); ("key", JStr (l_key l)); ("expected", value_json (l_expected l));
                     ("operator", JStr (operator_name (l_op l)))]
  end.
(** dp/limit.py:39-46, 133-134 *)
Definition limit_json (l : limit) : json :=
  JObj [("type", JStr "limit"); ("at_most", jdec (lm_at_most l)); ("at_most_what", JStr (what_name (lm_what l)));
        ("where", pred_json (lm_where l))].
Definition limits_json (l : list limit) : json := JList (map limit_json l).
(** dp/claim.py:14-19 *)
Definition claim_json (cl : claim) : json :=
  JObj [("crsid", JStr (c_crsid (cl_course cl))); ("clbid", JStr (c_clbid (cl_course cl))); ("claimed_by", jstrs (cl_by cl))].
Definition claims_json (l : list claim) : json := JList (map claim_json l).
(** the to_identifier methods: dp/data/course.py:56-57, dp/data/music.py:23-24,
    dp/data/area_pointer.py:28-29 *)
Definition item_json (x : item) : json :=
  let ident t k v := JObj [("type", JStr t); ("key", JStr k); ("value", v)] in
  match x with
  | ICourse c => ident "class" "scedid" (jopt JStr (c_schedid c))
  | IArea a => ident "area" "code" (JStr (a_code a))
  | IPerf p => ident "class" "id" (JStr (s_id (mp_slip p)))
  | ISlip s => ident "class" "id" (JStr (s_id s))
  end.

(** ** Assertions *)

(** [sorted] of the texts of the items. The items are texts or Decimals (dp/apply_clause.py),
    that is, texts; anything else could not be compared with a text. *)
Definition item_text (s : scalar) : res string :=
  match scalar_json s with JStr t => Ok t | _ => Err TypeErr end.
Definition items_json (o : option (list scalar)) : res json :=
  match o with
  | None => Ok (JList [])
  | Some l => let! ts := mapr item_text l in Ok (jstrs (isort str_leb ts))
  end.
Definition clbids_json (o : option (list string)) : json :=
  match o with Some l => jstrs (isort str_leb l) | None => JList [] end.
(** [if self.label:] *)
Definition text_entry (key : string) (o : option string) : list (string * json) :=
  match o with Some s => if s =? "" then [] else [(key, JStr s)] | None => [] end.
(** [if expected != original and original is not None]: [expected] is a text *)
Definition original_entry (expected : json) (o : option scalar) : list (string * json) :=
  match o with
  | None => []
  | Some s =>
    match scalar_json s, expected with
    | JNull, _ => []
    | JStr a, JStr b => if a =? b then [] else [("original", JStr a)]
    | j, _ => [("original", j)]
    end
  end.
(** dp/assertion_clause.py:142-177 Assertion.to_dict *)
Definition assertion_json (a : assertion) : res json :=
  let! items := items_json (as_items a) in
  let expected := jdec (as_expected a) in
  Ok (JObj ([("type", JStr "assertion"); ("path", jstrs (as_path a)); ("status", JStr (status_value (as_state a)));
             ("rank", JNum (as_rank a)); ("max_rank", JNum 1);
             ("where", jopt pred_json (as_where a)); ("key", JStr (akey_name (as_key a)));
             ("operator", JStr (operator_name (as_op a))); ("expected", expected);
             ("data-type", JStr (data_type_value (as_type a))); ("evaluated", JBool (as_evaluated a));
             ("resolved", jopt JNum (as_resolved a)); ("resolved_items", items);
             ("resolved_clbids", clbids_json (as_clbids a)); ("inserted_clbids", clbids_json (as_inserted a))]
            ++ text_entry "label" (as_label a) ++ text_entry "message" (as_message a)
            ++ original_entry expected (as_original a))).
(** dp/assertion_clause.py:328-335, 432-438 *)
Definition any_json (a : any_assertion) : res json :=
  match a with
  | APlain x => assertion_json x
  | AIf p c t e =>
    let! t := assertion_json t in
    let! e := match e with Some x => assertion_json x | None => Ok JNull end in
    Ok (JObj [("type", JStr "assertion--if"); ("path", jstrs p); ("condition", expr_json c);
              ("when_true", t); ("when_false", e)])
  | AWhen p c t =>
    let! t := assertion_json t in
    Ok (JObj [("type", JStr "assertion--when"); ("path", jstrs p); ("condition", dexpr_json c); ("when_true", t)])
  end.

(** ** Rules, solutions and results *)

(** dp/base/bases.py:31-43 Base.to_dict *)
Definition base_json (p : path) (k : kind) (type : string) (s : status) (r : Q * Q) (overridden : bool) : list (string * json) :=
  [("path", jstrs p); ("state", JStr (kind_value k)); ("type", JStr type); ("status", JStr (status_value s));
   ("rank", JNum (fst r)); ("max_rank", JNum (snd r)); ("overridden", JBool overridden)].
(** dp/base/course.py:44-69. [str(grade_option)] gives the name of the member. *)
Definition course_json (k : kind) (r : crule) : json :=
  JObj (base_json (r_path r) k "course" (c_status k r) (c_rank k r, c_max_rank k r) (r_overridden r) ++
    [("course", jopt JStr (r_course r)); ("clbid", jopt JStr (r_clbid r)); ("crsid", jopt JStr (r_crsid r));
     ("ap", jopt JStr (r_ap r)); ("institution", jopt JStr (r_institution r)); ("name", jopt JStr (r_name r));
     ("grade", jopt jdec (r_grade r)); ("grade_option", jopt (fun o => JStr (py_str (SOpt o))) (r_grade_option r));
     ("year", jopt JInt (r_year r)); ("term", jopt JStr (r_term r)); ("section", jopt JStr (r_section r));
     ("sub_type", jopt JStr (r_sub_type r)); ("allow_claimed", JBool (r_allow r));
     ("from_claimed", JBool (r_from_claimed r)); ("optional", JBool (r_optional r)); ("inserted", JBool (r_inserted r));
     ("forced", JBool (r_forced r)); ("auto_waived", JBool (r_auto_waived r));
     ("excluded_clbids", jstrs (isort str_leb (dedup String.eqb (r_excluded r))));
     ("claims", claims_json (c_claims k r));
     ("matched_scedid", match r_matched r with Some c => jopt JStr (c_schedid c) | None => JNull end)]).
(** dp/base/query.py:45-59, 65-66, dp/result/query.py:41-42 *)
Definition query_json (k : kind) (q : query) : res json :=
  let! asserts := mapr any_json (q_asserts q) in
  Ok (JObj (base_json (q_path q) k "query" (q_status q) (q_rank q, q_max_rank q) (q_overridden q) ++
    [("source", JStr (source_value (q_source q))); ("data-type", JStr (data_type_value (q_type q)));
     ("limit", limits_json (q_limit q)); ("assertions", JList asserts); ("where", jopt pred_json (q_where q));
     ("claims", claims_json (q_node_claims k q));
     ("failures", claims_json (match k with KRes => q_failures q | _ => [] end));
     ("inserted", jstrs (q_inserted q)); ("include_failed", JBool (q_failed_too q));
     ("allow_claimed", JBool (q_allow q)); ("output", JList (map item_json (q_output q)))])).
(** dp/base/count.py:25-33, requirement.py:24-34, conditional.py:21-27, proficiency.py:20-26 *)
Fixpoint node_json (n : node) : res json :=
  let! r := rank_of n in
  let base type := base_json (path_of n) (kind_of n) type (status_of n) r (overridden n) in
  match n with
  | NCourse k x => Ok (course_json k x)
  | NQuery k q => query_json k q
  | NCount _ i items =>
    let! js := mapr node_json items in
    let! audits := mapr any_json (n_audits i) in
    Ok (JObj (base "count" ++
      [("count", JInt (n_count i)); ("at_most", JBool (n_at_most i)); ("items", JList js); ("audit", JList audits);
       ("audit_status", JStr (status_value (count_audit_status i)))]))
  | NReq _ i result =>
    let! j := match result with Some x => node_json x | None => Ok JNull end in
    Ok (JObj (base "requirement" ++
      [("name", JStr (e_name i)); ("result", j); ("is_audited", JBool (e_audited i)); ("is_contract", JBool (e_contract i));
       ("is_disjoint", jopt JBool (e_disjoint i)); ("in_gpa", JBool (e_in_gpa i))]))
  | NCond _ i t f =>
    let! a := node_json t in
    let! b := match f with Some x => node_json x | None => Ok JNull end in
    Ok (JObj (base "conditional" ++ [("condition", expr_json (d_cond i)); ("when_true", a); ("when_false", b)]))
  | NProf _ i c =>
    Ok (JObj (base "proficiency" ++
      [("course", match c with Some (k, x) => course_json k x | None => JNull end);
       ("proficiency", JStr (f_proficiency i)); ("proficiency_status", JStr (status_value (f_status i)))]))
  end.
(** dp/area.py:48-60 of an AreaResult; its path is ("$",) and it is not overridden
    (dp/area.py:153-156, 363-374), its version is 3 *)
Definition area_json (v : area_result) : res json :=
  let! r := area_rank v in
  let! j := node_json (v_result v) in
  Ok (JObj (base_json ["$"] KRes "area" (area_status v) r false ++
    [("name", JStr (u_name (v_area v))); ("kind", JStr (u_kind (v_area v))); ("code", JStr (u_code (v_area v)));
     ("degree", jopt JStr (u_degree (v_area v))); ("result", j); ("gpa", jdec (area_gpa v));
     ("limit", limits_json (u_limit (v_area v))); ("ok", JBool (inS (area_status v) WAIVED_AND_DONE));
     ("version", JInt 3)])).
