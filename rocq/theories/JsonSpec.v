(** What a stored result has to say, independently of how it is written: the parts of a result
    and of a dictionary are reached by the same steps, and each dictionary tells about the part
    it stands for. *)
From Coq Require Import List ZArith QArith Bool String Permutation Sorted.
From Verif Require Import Prelude Dec Status Course Claims Exceptions Op Context CondExpr Predicate Limit Apply Assertion Query CourseRule Tree Area Json.
Import ListNotations.
Local Open Scope string_scope.

(** ** Dictionaries *)

(** the value of a key that occurs once *)
Definition holds (j : json) (k : string) (v : json) : Prop :=
  exists a b, j = JObj (a ++ (k, v) :: b)%list /\ ~ In k (map fst a) /\ ~ In k (map fst b).
Definition lacks (j : json) (k : string) : Prop := exists d, j = JObj d /\ ~ In k (map fst d).
(** a key that is left out or given *)
Definition holds_if {A} (o : option A) (j : json) (k : string) (v : A -> json) : Prop :=
  match o with Some a => holds j k (v a) | None => lacks j k end.

(** the texts statuses are stored as *)
Inductive status_text : status -> string -> Prop :=
| st_empty : status_text Empty "empty"
| st_approval : status_text PendingApproval "pending-approval"
| st_needs : status_text NeedsMoreItems "needs-more-items"
| st_registered : status_text PendingRegistered "pending-registered"
| st_current : status_text PendingCurrent "pending-current"
| st_done : status_text Done "done"
| st_waived : status_text Waived "waived"
| st_failed : status_text FailedInvariant "failed-invariant".
Definition holds_status (j : json) (k : string) (s : status) : Prop := exists t, status_text s t /\ holds j k (JStr t).
(** the words that other values are stored as *)
Definition function_text (f : pfun) : string :=
  match f with
  | FHasIpCourse => "has-ip-course" | FHasCompletedCourse => "has-completed-course" | FHasCourse => "has-course"
  | FPassedProficiencyExam => "passed-proficiency-exam" | FHasDeclaredAreaCode => "has-declared-area-code"
  | FStudentHasCourseWithAttribute => "student-has-course-with-attribute"
  | FHasOverrideException => "has-override-exception"
  end.
Definition dynamic_text (f : dfun) : string :=
  match f with
  | FQueryHasCourseWithAttribute => "query-has-course-with-attribute"
  | FQueryHasSingleCourseWithAttribute => "query-has-single-course-with-attribute"
  end.
Definition comparison_text (o : operator) : string :=
  match o with
  | OLt => "LessThan" | OLte => "LessThanOrEqualTo" | OGt => "GreaterThan" | OGte => "GreaterThanOrEqualTo"
  | OEq => "EqualTo" | ONeq => "NotEqualTo" | OIn => "In" | ONin => "NotIn"
  end.
Definition source_text (s : qsource) : string :=
  match s with
  | QCourses => "courses" | QClaimed => "claimed" | QAreas => "areas"
  | QPerformances => "music performances" | QRecitals => "music recitals"
  end.
Definition type_text (d : data_type) : string :=
  match d with DtCourse => "course" | DtArea => "area" | DtPerformance => "music-performance" | DtRecital => "recital" end.
(** [None] and a value *)
Definition given_or_null {A} (v : A -> json) (o : option A) : json := match o with Some a => v a | None => JNull end.
Definition texts (l : list string) : json := JList (map JStr l).

(** ** Clauses *)

(** the outcome of a condition *)
Definition result_is (j : json) (r : option bool) : Prop := holds j "result" (given_or_null JBool r).
Inductive expr_told : json -> pexpr -> Prop :=
| xt_and j js l r : holds j "type" (JStr "pred-expr--and") -> holds j "expressions" (JList js) ->
    Forall2 expr_told js l -> result_is j r -> expr_told j (EAnd l r)
| xt_or j js l r : holds j "type" (JStr "pred-expr--or") -> holds j "expressions" (JList js) ->
    Forall2 expr_told js l -> result_is j r -> expr_told j (EOr l r)
| xt_not j jx x r : holds j "type" (JStr "pred-expr--not") -> holds j "expression" jx -> expr_told jx x ->
    result_is j r -> expr_told j (ENot x r)
| xt_fun j f a r : holds j "type" (JStr "pred-expr") -> holds j "function" (JStr (function_text f)) ->
    holds j "argument" (JStr a) -> result_is j r -> expr_told j (EFun f a r).
Inductive dexpr_told : json -> dexpr -> Prop :=
| dt_and j js l r : holds j "type" (JStr "pred-dyn-expr--and") -> holds j "expressions" (JList js) ->
    Forall2 dexpr_told js l -> result_is j r -> dexpr_told j (DAnd l r)
| dt_or j js l r : holds j "type" (JStr "pred-dyn-expr--or") -> holds j "expressions" (JList js) ->
    Forall2 dexpr_told js l -> result_is j r -> dexpr_told j (DOr l r)
| dt_fun j f a r : holds j "type" (JStr "pred-dyn-expr") -> holds j "function" (JStr (dynamic_text f)) ->
    holds j "argument" (JStr a) -> result_is j r -> dexpr_told j (DFun f a r).
Inductive pred_told : json -> pred -> Prop :=
| pt_and j js l : holds j "type" (JStr "pred--and") -> holds j "predicates" (JList js) ->
    Forall2 pred_told js l -> pred_told j (PAnd l)
| pt_or j js l : holds j "type" (JStr "pred--or") -> holds j "predicates" (JList js) ->
    Forall2 pred_told js l -> pred_told j (POr l)
| pt_not j jx x : holds j "type" (JStr "pred--not") -> holds j "predicate" jx -> pred_told jx x -> pred_told j (PNot x)
| pt_if j jc jt je c t e : holds j "type" (JStr "pred--if") -> holds j "condition" jc -> expr_told jc c ->
    holds j "when_true" jt -> pred_told jt t -> holds j "when_false" je -> pred_told je e ->
    pred_told j (PIf c t (Some e))
| pt_if_none j jc jt c t : holds j "type" (JStr "pred--if") -> holds j "condition" jc -> expr_told jc c ->
    holds j "when_true" jt -> pred_told jt t -> holds j "when_false" JNull -> pred_told j (PIf c t None)
| pt_leaf j l : holds j "type" (JStr "predicate") -> holds j "key" (JStr (l_key l)) ->
    holds j "operator" (JStr (comparison_text (l_op l))) -> holds j "expected" (value_json (l_expected l)) ->
    pred_told j (PLeaf l).
Inductive where_told : json -> option pred -> Prop :=
| wt_none : where_told JNull None
| wt_some j p : pred_told j p -> where_told j (Some p).
Inductive limit_told : json -> limit -> Prop :=
| lt_intro j w l : holds j "type" (JStr "limit") -> holds j "at_most" (JStr (str_of_dec (lm_at_most l))) ->
    holds j "at_most_what" (JStr (match lm_what l with Courses => "Courses" | Credits => "Credits" end)) ->
    holds j "where" w -> pred_told w (lm_where l) -> limit_told j l.
Inductive claim_told : json -> claim -> Prop :=
| ct_intro j cl : holds j "clbid" (JStr (c_clbid (cl_course cl))) -> holds j "crsid" (JStr (c_crsid (cl_course cl))) ->
    holds j "claimed_by" (texts (cl_by cl)) -> claim_told j cl.
(** what an item of a query is told by *)
Inductive item_told : json -> item -> Prop :=
| et_course j c : holds j "type" (JStr "class") -> holds j "key" (JStr "scedid") -> holds j "value" (given_or_null JStr (c_schedid c)) -> item_told j (ICourse c)
| et_area j a : holds j "type" (JStr "area") -> holds j "key" (JStr "code") -> holds j "value" (JStr (a_code a)) -> item_told j (IArea a)
| et_perf j p : holds j "type" (JStr "class") -> holds j "key" (JStr "id") -> holds j "value" (JStr (s_id (mp_slip p))) -> item_told j (IPerf p)
| et_slip j p : holds j "type" (JStr "class") -> holds j "key" (JStr "id") -> holds j "value" (JStr (s_id p)) -> item_told j (ISlip p).
Definition lists_told {A} (told : json -> A -> Prop) (j : json) (l : list A) : Prop :=
  exists js, j = JList js /\ Forall2 told js l.

(** a list in order of its texts, with the same members *)
Definition sorted_texts (l ts : list string) : Prop :=
  Permutation l ts /\ StronglySorted (fun a b => String.compare a b <> Gt) ts.
(** the text of an item that was counted: texts and Decimals *)
Inductive counted_text : scalar -> string -> Prop :=
| cx_str s : counted_text (SStr s) s
| cx_dec d : counted_text (SDec d) (str_of_dec d)
| cx_grade g : counted_text (SGrade g) (grade_value g)
| cx_opt o : counted_text (SOpt o) (option_value o).
Definition items_told (j : json) (o : option (list scalar)) : Prop :=
  exists ts, j = texts ts /\
  match o with
  | None => ts = []
  | Some l => exists us, Forall2 counted_text l us /\ sorted_texts us ts
  end.
Definition clbids_told (j : json) (o : option (list string)) : Prop :=
  exists ts, j = texts ts /\ sorted_texts (match o with Some l => l | None => [] end) ts.
(** a text that is shown *)
Definition shown_text (o : option string) : option string :=
  match o with Some "" => None | _ => o end.
(** The amount that was written is told when it is not the amount that was compared with. *)
Definition told_original (a : assertion) : option scalar :=
  match as_original a with
  | Some SNone | None => None
  | Some s => if match scalar_json s with JStr t => t =? str_of_dec (as_expected a) | _ => false end then None else Some s
  end.

Record assertion_told (j : json) (a : assertion) : Prop := mkAsTold {
  at_type : holds j "type" (JStr "assertion");
  at_path : holds j "path" (texts (as_path a));
  at_status : holds_status j "status" (as_state a);
  at_rank : holds j "rank" (JNum (as_rank a));
  at_max : holds j "max_rank" (JNum 1);
  at_where : exists w, holds j "where" w /\ where_told w (as_where a);
  at_key : holds j "key" (JStr (akey_name (as_key a)));
  at_op : holds j "operator" (JStr (comparison_text (as_op a)));
  at_expected : holds j "expected" (JStr (str_of_dec (as_expected a)));
  at_data : holds j "data-type" (JStr (type_text (as_type a)));
  at_evaluated : holds j "evaluated" (JBool (as_evaluated a));
  at_resolved : holds j "resolved" (given_or_null JNum (as_resolved a));
  at_items : exists w, holds j "resolved_items" w /\ items_told w (as_items a);
  at_clbids : exists w, holds j "resolved_clbids" w /\ clbids_told w (as_clbids a);
  at_inserted : exists w, holds j "inserted_clbids" w /\ clbids_told w (as_inserted a);
  at_label : holds_if (shown_text (as_label a)) j "label" JStr;
  at_message : holds_if (shown_text (as_message a)) j "message" JStr;
  at_original : holds_if (told_original a) j "original" scalar_json;
}.
Inductive any_told : json -> any_assertion -> Prop :=
| yt_plain j a : assertion_told j a -> any_told j (APlain a)
| yt_if j jc jt je p c t e : holds j "type" (JStr "assertion--if") -> holds j "path" (texts p) ->
    holds j "condition" jc -> expr_told jc c -> holds j "when_true" jt -> assertion_told jt t ->
    holds j "when_false" je -> assertion_told je e -> any_told j (AIf p c t (Some e))
| yt_if_none j jc jt p c t : holds j "type" (JStr "assertion--if") -> holds j "path" (texts p) ->
    holds j "condition" jc -> expr_told jc c -> holds j "when_true" jt -> assertion_told jt t ->
    holds j "when_false" JNull -> any_told j (AIf p c t None)
| yt_when j jc jt p c t : holds j "type" (JStr "assertion--when") -> holds j "path" (texts p) ->
    holds j "condition" jc -> dexpr_told jc c -> holds j "when_true" jt -> assertion_told jt t ->
    any_told j (AWhen p c t).

(** ** Parts of a result *)

Inductive step := ToItem (k : nat) | ToResult | ToTrue | ToFalse | ToCourse.
Definition part (n : node) (s : step) : option node :=
  match n, s with
  | NCount _ _ items, ToItem k => nth_error items k
  | NReq _ _ r, ToResult => r
  | NCond _ _ t _, ToTrue => Some t
  | NCond _ _ _ f, ToFalse => f
  | NProf _ _ (Some (k, r)), ToCourse => Some (NCourse k r)
  | _, _ => None
  end.
Fixpoint part_at (n : node) (l : list step) : option node :=
  match l with
  | [] => Some n
  | s :: t => match part n s with Some m => part_at m t | None => None end
  end.
(** the same steps in a dictionary; a key that holds None leads nowhere *)
Inductive jpart : json -> step -> json -> Prop :=
| jp_item j l k x : holds j "type" (JStr "count") -> holds j "items" (JList l) -> nth_error l k = Some x -> jpart j (ToItem k) x
| jp_result j x : holds j "type" (JStr "requirement") -> holds j "result" x -> x <> JNull -> jpart j ToResult x
| jp_true j x : holds j "type" (JStr "conditional") -> holds j "when_true" x -> jpart j ToTrue x
| jp_false j x : holds j "type" (JStr "conditional") -> holds j "when_false" x -> x <> JNull -> jpart j ToFalse x
| jp_course j x : holds j "type" (JStr "proficiency") -> holds j "course" x -> x <> JNull -> jpart j ToCourse x.
Inductive jpart_at : json -> list step -> json -> Prop :=
| ja_here j : jpart_at j [] j
| ja_step j s x l y : jpart j s x -> jpart_at x l y -> jpart_at j (s :: l) y.

(** ** What is told of one part *)

Definition type_of_node (n : node) : string :=
  match n with
  | NCourse _ _ => "course" | NQuery _ _ => "query" | NCount _ _ _ => "count" | NReq _ _ _ => "requirement"
  | NCond _ _ _ _ => "conditional" | NProf _ _ _ => "proficiency"
  end.
Definition own_claims (n : node) : list claim :=
  match n with NCourse k r => c_claims k r | NQuery KRes q => q_claims q | _ => [] end.
(** which courses a query reports as taken elsewhere *)
Definition own_failures (n : node) : list claim :=
  match n with NQuery KRes q => q_failures q | _ => [] end.

Definition course_told (j : json) (r : crule) : Prop :=
  holds j "course" (given_or_null JStr (r_course r)) /\ holds j "clbid" (given_or_null JStr (r_clbid r)) /\
  holds j "crsid" (given_or_null JStr (r_crsid r)) /\ holds j "ap" (given_or_null JStr (r_ap r)) /\
  holds j "institution" (given_or_null JStr (r_institution r)) /\ holds j "name" (given_or_null JStr (r_name r)) /\
  holds j "grade" (given_or_null (fun d => JStr (str_of_dec d)) (r_grade r)) /\
  holds j "grade_option" (given_or_null (fun o => JStr (py_str (SOpt o))) (r_grade_option r)) /\
  holds j "year" (given_or_null JInt (r_year r)) /\ holds j "term" (given_or_null JStr (r_term r)) /\
  holds j "section" (given_or_null JStr (r_section r)) /\ holds j "sub_type" (given_or_null JStr (r_sub_type r)) /\
  holds j "allow_claimed" (JBool (r_allow r)) /\ holds j "from_claimed" (JBool (r_from_claimed r)) /\
  holds j "optional" (JBool (r_optional r)) /\ holds j "inserted" (JBool (r_inserted r)) /\
  holds j "forced" (JBool (r_forced r)) /\ holds j "auto_waived" (JBool (r_auto_waived r)) /\
  (exists ts, holds j "excluded_clbids" (texts ts) /\ StronglySorted (fun a b => String.compare a b <> Gt) ts /\
     NoDup ts /\ forall x, In x ts <-> In x (r_excluded r)) /\
  holds j "matched_scedid" (match r_matched r with Some c => given_or_null JStr (c_schedid c) | None => JNull end).
Definition query_told (j : json) (k : kind) (q : query) : Prop :=
  holds j "source" (JStr (source_text (q_source q))) /\ holds j "data-type" (JStr (type_text (q_type q))) /\
  (exists w, holds j "limit" w /\ lists_told limit_told w (q_limit q)) /\
  (exists w, holds j "assertions" w /\ lists_told any_told w (q_asserts q)) /\
  (exists w, holds j "where" w /\ where_told w (q_where q)) /\
  (exists w, holds j "failures" w /\ lists_told claim_told w (own_failures (NQuery k q))) /\
  holds j "inserted" (texts (q_inserted q)) /\ holds j "include_failed" (JBool (q_failed_too q)) /\
  holds j "allow_claimed" (JBool (q_allow q)) /\ (exists w, holds j "output" w /\ lists_told item_told w (q_output q)).
Definition details_told (j : json) (n : node) : Prop :=
  match n with
  | NCourse k r => course_told j r /\ exists w, holds j "claims" w /\ lists_told claim_told w (own_claims n)
  | NQuery k q => query_told j k q /\ exists w, holds j "claims" w /\ lists_told claim_told w (own_claims n)
  | NCount _ i items =>
    holds j "count" (JInt (n_count i)) /\ holds j "at_most" (JBool (n_at_most i)) /\
    (exists l, holds j "items" (JList l) /\ List.length l = List.length items) /\
    (exists w, holds j "audit" w /\ lists_told any_told w (n_audits i)) /\
    holds_status j "audit_status" (count_audit_status i)
  | NReq _ i r =>
    holds j "name" (JStr (e_name i)) /\ holds j "is_audited" (JBool (e_audited i)) /\
    holds j "is_contract" (JBool (e_contract i)) /\ holds j "in_gpa" (JBool (e_in_gpa i)) /\
    holds j "is_disjoint" (given_or_null JBool (e_disjoint i)) /\
    (r = None -> holds j "result" JNull)
  | NCond _ i t f =>
    (exists w, holds j "condition" w /\ expr_told w (d_cond i)) /\ (f = None -> holds j "when_false" JNull)
  | NProf _ i c =>
    holds j "proficiency" (JStr (f_proficiency i)) /\ holds_status j "proficiency_status" (f_status i) /\
    (c = None -> holds j "course" JNull)
  end.
Record node_told (j : json) (n : node) : Prop := mkTold {
  tl_type : holds j "type" (JStr (type_of_node n));
  tl_path : holds j "path" (texts (path_of n));
  tl_state : holds j "state" (JStr (match kind_of n with KRule => "rule" | KSol => "solution" | KRes => "result" end));
  tl_status : holds_status j "status" (status_of n);
  tl_rank : exists r m, rank_of n = Ok (r, m) /\ holds j "rank" (JNum r) /\ holds j "max_rank" (JNum m);
  tl_overridden : holds j "overridden" (JBool (overridden n));
  tl_details : details_told j n;
}.

(** What has to be so for a part to be written: it has a rank, and what its assertions counted
    has a text. *)
Definition written_assertions (a : any_assertion) : list assertion :=
  match a with
  | APlain x => [x] | AIf _ _ t (Some e) => [t; e] | AIf _ _ t None => [t] | AWhen _ _ t => [t]
  end.
Definition part_assertions (n : node) : list assertion :=
  match n with
  | NQuery _ q => flat_map written_assertions (q_asserts q)
  | NCount _ i _ => flat_map written_assertions (n_audits i)
  | _ => []
  end.
Definition part_writable (n : node) : Prop :=
  (exists rk, rank_of n = Ok rk) /\
  forall a l s, In a (part_assertions n) -> as_items a = Some l -> In s l -> exists t, counted_text s t.

(** ** The area *)
Record area_told (j : json) (v : area_result) : Prop := mkAreaTold {
  al_type : holds j "type" (JStr "area");
  al_name : holds j "name" (JStr (u_name (v_area v)));
  al_kind : holds j "kind" (JStr (u_kind (v_area v)));
  al_code : holds j "code" (JStr (u_code (v_area v)));
  al_degree : holds j "degree" (given_or_null JStr (u_degree (v_area v)));
  al_path : holds j "path" (texts ["$"]);
  al_state : holds j "state" (JStr "result");
  al_status : holds_status j "status" (area_status v);
  al_rank : exists r m, area_rank v = Ok (r, m) /\ holds j "rank" (JNum r) /\ holds j "max_rank" (JNum m);
  al_overridden : holds j "overridden" (JBool false);
  al_gpa : holds j "gpa" (JStr (str_of_dec (area_gpa v)));
  al_limit : exists w, holds j "limit" w /\ lists_told limit_told w (u_limit (v_area v));
  al_ok : exists b, holds j "ok" (JBool b) /\ (b = true <-> area_status v = Done \/ area_status v = Waived);
  al_version : holds j "version" (JInt 3);
}.

(** ** Reading claims and statuses back *)

(** the claims told by a stored result: of its active branches, and not of what is audited by hand *)
Inductive stored_claims : json -> list json -> Prop :=
| sc_leaf j l t : holds j "type" (JStr t) -> t = "course" \/ t = "query" -> holds j "claims" (JList l) -> stored_claims j l
| sc_count j js ls : holds j "type" (JStr "count") -> holds j "items" (JList js) -> Forall2 stored_claims js ls ->
    stored_claims j (List.concat ls)
| sc_audited j : holds j "type" (JStr "requirement") -> holds j "is_audited" (JBool true) -> stored_claims j []
| sc_empty j : holds j "type" (JStr "requirement") -> holds j "result" JNull -> stored_claims j []
| sc_req j x l : holds j "type" (JStr "requirement") -> holds j "is_audited" (JBool false) -> holds j "result" x ->
    x <> JNull -> stored_claims x l -> stored_claims j l
| sc_true j c x l : holds j "type" (JStr "conditional") -> holds j "condition" c -> holds c "result" (JBool true) ->
    holds j "when_true" x -> stored_claims x l -> stored_claims j l
| sc_false j c x l : holds j "type" (JStr "conditional") -> holds j "condition" c -> holds c "result" (JBool false) ->
    holds j "when_false" x -> x <> JNull -> stored_claims x l -> stored_claims j l
| sc_neither j c x : holds j "type" (JStr "conditional") -> holds j "condition" c -> holds c "result" x ->
    x <> JBool true -> (x = JBool false -> holds j "when_false" JNull) -> stored_claims j []
| sc_prof j x l : holds j "type" (JStr "proficiency") -> holds j "course" x -> x <> JNull ->
    holds j "state" (JStr "result") -> holds x "claims" (JList l) -> stored_claims j l
| sc_prof_none j : holds j "type" (JStr "proficiency") -> (holds j "course" JNull \/ exists k, holds j "state" (JStr k) /\ k <> "result") ->
    stored_claims j [].
