(** Loading rules from a specification: dp/load_rule.py and the [load] functions of
    dp/rule/{count,requirement,conditional,proficiency}.py. *)
From Coq Require Import List ZArith QArith Bool Ascii String.
From Verif Require Import Prelude Dec Status Course Claims Exceptions Op Context CondExpr Predicate Limit Assertion Query CourseRule Tree.
Import ListNotations.
Local Open Scope string_scope.
Local Open Scope list_scope.

(** ** The data of a specification

    A dictionary is given by what it holds for each class of rules: a field is there exactly if
    the keys are that make the class's [can_load] true. The flags "bad" say that a key is there
    that the class does not allow. Messages are left out, and so is the key "__emphasis",
    which the loader itself puts in. *)

(** [data["count"]]: "all", "any", a number, or something [int()] does not take *)
Inductive count_value := CvAll | CvAny | CvInt (z : Z) | CvBad.

Inductive rdata := mkRd {
  rd_template : option string;                            (* "template" *)
  rd_prof : option (string * option raw_course * bool);   (* "proficiency"; "course"; bad *)
  rd_course : option raw_course;                          (* "course", "clbid", "crsid" or "ap" *)
  rd_query : option raw_query;                            (* "from" *)
  rd_cond : option rcond;                                 (* "$if" *)
  rd_count : option rcount;                               (* "all", "any", "both", "either" or "count" and "of" *)
  rd_name : option (string * rbody);                      (* "name"; the dictionary as a requirement *)
  rd_req : option string                                  (* "requirement" *)
}
with rcond := mkRcond {
  rn_if : xdata; rn_then : option rdata; rn_else : option rdata; rn_hide : bool; rn_bad : bool }
with rcount := mkRcount {
  rk_all : option (list rdata); rk_any : option (list rdata); rk_both : option (list rdata);
  rk_either : option (list rdata); rk_of : option (list rdata); rk_count : option count_value;
  rk_at_most : bool; rk_audit : option (list raw_any); rk_bad : bool }
with rbody := mkRbody {
  rb_result : option rdata; rb_reqs : option (list (string * rbody));
  rb_audited : bool; rb_contract : bool; rb_in_gpa : bool; rb_disjoint : option bool; rb_bad : bool }.

(** dp/data/student.py:20-57 TemplateCourse; the year is a number *)
Record template := mkTemplate {
  tp_subject : string; tp_num : string; tp_section : string; tp_sub_type : string;
  tp_year : option Z; tp_term : string; tp_institution : string; tp_name : string; tp_clbid : string }.
Definition if_given (s : string) : option string := if s =? "" then None else Some s.
(** dp/data/student.py:31-57 to_course_rule_as_dict. Without subject, name and class id it is
    no course rule. *)
Definition template_rule (t : template) : res (option raw_course) :=
  let course := if tp_subject t =? "" then None else Some (tp_subject t ++ " " ++ tp_num t)%string in
  let go year term :=
    Ok (match course, if_given (tp_name t), if_given (tp_clbid t) with
        | None, None, None => None
        | _, ap, clbid => Some (mkRawCourse course ap None (if_given (tp_institution t)) None None clbid None false
                                  (if_given (tp_section t)) (if_given (tp_sub_type t)) year term false false false false)
        end) in
  match tp_year t with
  | None => go None None
  | Some y => if tp_term t =? "" then Err AssertErr else go (Some y) (Some (tp_term t))
  end.

(** ** Small functions of the loaders *)

(** get_requirement_names of the rule classes: count.py:191-192, requirement.py:83-84,
    conditional.py:63-69 and the empty ones *)
Fixpoint requirement_names (n : node) : list string :=
  match n with
  | NReq _ i _ => [e_name i]
  | NCount _ _ items => flat_map requirement_names items
  | NCond _ i t f =>
    match e_result (d_cond i) with
    | Some true => requirement_names t
    | Some false => match f with Some x => requirement_names x | None => [] end
    | None => []
    end
  | _ => []
  end.
(** white space, for [str.strip] *)
Definition is_space (a : ascii) : bool :=
  let n := Ascii.nat_of_ascii a in ((9 <=? n)%nat && (n <=? 13)%nat) || ((28 <=? n)%nat && (n <=? 32)%nat).
(** [s.strip() == ""] *)
Fixpoint blank (s : string) : bool := match s with "" => true | String a t => is_space a && blank t end.
(** the list of items: count.py:61-70 *)
Definition rk_items (n : rcount) : option (list rdata) :=
  match rk_all n with Some l => Some l | None =>
  match rk_any n with Some l => Some l | None =>
  match rk_both n with Some l => Some l | None =>
  match rk_either n with Some l => Some l | None => rk_of n end end end end.
Definition has {A} (o : option A) : bool := match o with Some _ => true | None => false end.
Definition count_is (n : rcount) (v : count_value) : bool :=
  match rk_count n, v with Some CvAll, CvAll | Some CvAny, CvAny => true | _, _ => false end.
(** count.py:155-171: the number of children asked for, with [n] loaded ones *)
Definition asked_for (k : rcount) (inserted : bool) (n : nat) : res Z :=
  if has (rk_all k) || count_is k CvAll then Ok (Z.of_nat n)
  else if has (rk_any k) || count_is k CvAny then Ok 1%Z
  else if has (rk_both k) then
    if inserted then Ok (Z.of_nat n) else if Nat.eqb n 2 then Ok 2%Z else Err AssertErr
  else if has (rk_either k) then
    if inserted then Ok 1%Z else if Nat.eqb n 2 then Ok 1%Z else Err AssertErr
  else match rk_count k with
       | Some (CvInt z) => Ok z
       | Some _ => Err ValueErr
       | None => Err KeyErr
       end.
Definition index_part (i : nat) : string := ("[" ++ str_of_Z (Z.of_nat i) ++ "]")%string.
(** count.py:107-112: the item an exception inserts *)
Definition inserted_item (cx : ctx) (e : exc) : res raw_course :=
  let! c := forced_by_clbid cx (exc_clbid e) in
  Ok (mkRawCourse (Some (course_ident c)) None None None None None (Some (c_clbid c)) None true None None None None false
        (exc_forced e) false false).
(** the audit clauses: count.py:115-130 *)
Definition load_audits (cx : ctx) (c : constants) (p : path) (l : list raw_any) : res (list any_assertion) :=
  mapr (fun x => load_any cx c DtCourse (p ++ [".audit"; index_part (fst x)]) (snd x)) (combine (seq 0 (List.length l)) l).

(** ** Loading

    Requirements that may be referred to are kept as functions from a path to what is loaded
    there; like in the code they are loaded when they are referred to. *)
Definition loader := path -> res node.
Definition children := list (string * loader).
(** an item of a count: whether it belongs to an emphasis, and how it is loaded *)
Definition item := (option string * (children -> path -> res (option node)))%type.
(** load_rule.py:52-54 *)
Definition load_named (env : children) (name : string) (p : path) : res node :=
  match dget env name with Some l => l p | None => Err KeyErr end.
Definition some_node (r : res node) : res (option node) := let! n := r in Ok (Some n).
Definition course_item (r : raw_course) : item := (None, fun _ p => some_node (let! x := load_course p r in Ok (NCourse KRule x))).
(** count.py:133-150 *)
Fixpoint load_items (i : nat) (env : children) (p : path) (l : list item) : res (list node) :=
  match l with
  | [] => Ok []
  | (em, f) :: t =>
    let child_path := match em with Some s => if s =? "" then p ++ [index_part i] else p ++ [".emphasis"] | None => p ++ [index_part i] end in
    let! o := f env child_path in
    let! rest := load_items (S i) env p t in
    Ok (match o with Some n => n :: rest | None => rest end)
  end.
(** the part of an emphasis that is added to the top rule: its name, the key of the
    requirement, and the requirement *)
Definition addition := (string * string * loader)%type.
Definition emphasis_item (a : addition) : item := (Some (fst (fst a)), fun env p => some_node (load_named env (snd (fst a)) p)).
(** count.py:72, 100-189: [expanded] are the items with templates expanded *)
Definition load_count (cx : ctx) (c : constants) (k : rcount) (expanded : res (list item)) (adds : res (list addition)) (env : children) (p0 : path) : res node :=
  let p := p0 ++ [".count"] in
  let! own := expanded in
  let! em := adds in
  let env' := fold_left (fun d a => dset d (snd (fst a)) (snd a)) em env in
  let inserts := get_inserts (cx_exc cx) p in
  let! ins := mapr (inserted_item cx) inserts in
  let items := own ++ map emphasis_item em ++ map course_item ins in
  let! audits := match rk_audit k with Some l => load_audits cx c p l | None => Ok [] end in
  let! loaded := load_items 0 env' p items in
  let! count := asked_for k (match ins with [] => false | _ => true end) (List.length loaded) in
  if rk_bad k then Err AssertErr
  else if (count <? 0)%Z then Err AssertErr
  else if negb (rk_at_most k) && (Z.of_nat (List.length items) <? count)%Z then Err AssertErr
  else Ok (NCount KRule (mkCount p false count (rk_at_most k) audits) loaded).
(** conditional.py:28-61 *)
Definition load_conditional (cx : ctx) (x : rcond) (load_then : option (path -> res (option node))) (load_else : option (path -> res (option node))) (p0 : path) : res (option node) :=
  let p := p0 ++ [".cond"] in
  if rn_bad x then Err AssertErr else
  let! cond := load_expr cx (rn_if x) in
  let! t := match load_then with Some f => f (p ++ ["/t"]) | None => Err KeyErr end in
  match t with
  | None => Err AssertErr
  | Some t =>
    let! f := match load_else with Some f => f (p ++ ["/f"]) | None => Ok None end in
    let over := has (get_waive (cx_exc cx) p) in
    match e_result cond with
    | Some false => if negb over && rn_hide x then Ok None else Ok (Some (NCond KRule (mkCond p over cond) t f))
    | _ => Ok (Some (NCond KRule (mkCond p over cond) t f))
    end
  end.
(** requirement.py:30-81: [load_result] loads the result; a key "audit" is not among the
    allowed keys, so line 57 is never reached *)
Definition load_requirement (b : rbody) (load_result : option (path -> res (option node))) (name : string) (p0 : path) : res node :=
  let p := p0 ++ [("%" ++ name)%string] in
  if rb_bad b then Err AssertErr else
  let! result :=
    match load_result with
    | None => Ok None
    | Some f =>
      let! o := f p in
      match o with
      | None => Err OtherErr   (* AttributeError: None has no get_requirement_names *)
      | Some n =>
        let used := requirement_names n in
        if forallb (fun x => existsb (String.eqb (fst x)) used) (match rb_reqs b with Some l => l | None => [] end) then Ok (Some n) else Err AssertErr
      end
    end in
  if negb (rb_audited b) && negb (has result) then Err TypeErr
  else if blank name then Err AssertErr
  else Ok (NReq KRule (mkReq p false name (rb_audited b) (rb_contract b) (rb_in_gpa b) (rb_disjoint b)) result).
(** proficiency.py:29-44 *)
Definition load_proficiency (x : string * option raw_course * bool) (p0 : path) : res node :=
  let '(name, course, bad) := x in
  let p := p0 ++ [(".proficiency=" ++ name)%string] in
  if bad then Err AssertErr else
  let! c := match course with Some r => let! y := load_course p r in Ok (Some (KRule, y)) | None => Ok None end in
  Ok (NProf KRule (mkProfInfo p false name Empty) c).

Section Load.
  Variables (cx : ctx) (c : constants) (templates : list (string * list template)).

  (** load_rule.py:65-69 *)
  Definition template_items (key : string) : res (list item) :=
    let! l := mapr template_rule (match dget templates key with Some l => l | None => [] end) in
    Ok (map (fun o => match o with Some r => course_item r | None => (None, fun _ _ => Err ValueErr) end) l).

  (** load_rule.py:17-54; [adds] is only there at the top of an area *)
  Fixpoint load_rule (d : rdata) (adds : res (list addition)) (env : children) (p : path) {struct d} : res (option node) :=
    match d with
    | mkRd _ (Some x) _ _ _ _ _ _ => some_node (load_proficiency x p)
    | mkRd _ None (Some r) _ _ _ _ _ => some_node (let! x := load_course p r in Ok (NCourse KRule x))
    | mkRd _ None None (Some q) _ _ _ _ => some_node (let! x := load_query cx c p q in Ok (NQuery KRule x))
    | mkRd _ None None None (Some x) _ _ _ =>
      match x with
      | mkRcond _ t f _ _ =>
        load_conditional cx x
          (match t with Some y => Some (load_rule y (Ok []) env) | None => None end)
          (match f with Some y => Some (load_rule y (Ok []) env) | None => None end) p
      end
    | mkRd _ None None None None (Some k) _ _ =>
      match k with
      | mkRcount a b o e f _ _ _ _ =>
        (* load_rule.py:57-62 expand_template *)
        let expand := fix expand (l : list rdata) : res (list item) :=
          match l with
          | [] => Ok []
          | y :: t =>
            let! here := match rd_template y with
                         | Some key => template_items key
                         | None => Ok [(None, load_rule y (Ok []))]
                         end in
            let! rest := expand t in
            Ok (here ++ rest)
          end in
        let expanded := match a with Some l => expand l | None =>
                        match b with Some l => expand l | None =>
                        match o with Some l => expand l | None =>
                        match e with Some l => expand l | None =>
                        match f with Some l => expand l | None => Err KeyErr end end end end end in
        some_node (load_count cx c k expanded adds env p)
      end
    | mkRd _ None None None None None (Some (name, b)) _ => some_node (load_body b name p)
    | mkRd _ None None None None None None (Some name) => some_node (load_named env name p)
    | mkRd _ None None None None None None None => Err ValueErr
    end
  (** a requirement with the requirements it may refer to: requirement.py:47 *)
  with load_body (b : rbody) (name : string) (p : path) {struct b} : res node :=
    match b with
    | mkRbody result reqs _ _ _ _ _ =>
      let env := match reqs with
                 | Some l => map (fun x => (fst x, fun q => load_body (snd x) (fst x) q)) l
                 | None => []
                 end in
      load_requirement b (match result with Some d => Some (load_rule d (Ok []) env) | None => None end) name p
    end.
End Load.
