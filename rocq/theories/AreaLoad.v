(** Loading an area of study: AreaOfStudy.load and prepare_common_rules of dp/area.py, and the
    emphases part of CountRule.load in dp/rule/count.py. *)
From Coq Require Import List ZArith QArith Bool String.
From Verif Require Import Prelude Dec Status Course Claims Exceptions Op Context CondExpr Predicate Limit Assertion Query CourseRule Tree Transcript Driver Area Loader LimitLoad.
Import ListNotations.
Local Open Scope string_scope.
Local Open Scope list_scope.

(** ** The rules common to all majors *)

(** a where clause with one key, one operator *)
Definition one_key (k : string) (op : operator) (v : value) : wdata := WKeys [(k, mkClause [(op, v)] None)].
Definition str_value (s : string) : value := VS (SStr s).
(** "from: courses, allow_claimed: true, claim: false", with a where clause and an assertion *)
Definition common_query (w : wdata) (key : string) (op : operator) (z : Z) : raw_query :=
  mkRawQuery "courses" (Some w) None false
    (Some (mkRawAs None None None [(key, mkRawValue [(op, RInt z)] [] false false false)])) None
    true (Some RcFalse) false false.
Definition common_body (q : option raw_query) (audited : bool) : rbody :=
  mkRbody (match q with Some x => Some (mkRd None None None (Some x) None None None None) | None => None end) None audited false true None false.
(** area.py:446-468 *)
Definition c_or_better_query : raw_query :=
  common_query
    (WAnd [WOr [WKeys [("grade", mkClause [(OGte, str_value "C")] (Some (str_value "C-")))];
                one_key "is_in_progress" OEq (VS (SBool true))];
           one_key "credits" OGt (VS (SInt 0))])
    "sum(credits)" OGte 6.
(** area.py:472-508 *)
Definition s_u_query (bm : bool) : raw_query :=
  if bm then common_query (one_key "grade_option" OEq (str_value "s/u")) "count(courses)" OEq 0
  else common_query (WAnd [one_key "grade_option" OEq (str_value "s/u"); one_key "credits" OEq (VS (SInt 1))]) "count(courses)" OLte 1.
(** area.py:512-593 *)
Definition not_subject (s : string) : wdata := one_key "subject" ONeq (str_value s).
Definition outside_query (dept code : string) (others : list string) : raw_query :=
  if ((code =? "140") && existsb (String.eqb "135") others) || ((code =? "135") && existsb (String.eqb "140") others) then
    common_query (WAnd [not_subject "ART"; not_subject "REG"; not_subject "OFFC"; one_key "credits" OEq (VS (SInt 1))]) "sum(credits)" OGte 18
  else if code =? "450" then
    common_query (WAnd [one_key "subject" ONin (VT [SStr "MUSIC"; SStr "MUSPF"; SStr "MUSEN"]); not_subject "REG"; not_subject "OFFC"]) "sum(credits)" OGte 21
  else
    common_query (WAnd [not_subject dept; not_subject "REG"; not_subject "OFFC"]) "sum(credits)" OGte 21.
Definition outside_body (dept : option string) (code : string) (others : list string) : rbody :=
  match dept with
  | None => common_body None true
  | Some d => common_body (Some (outside_query d code others)) false
  end.
Definition common_path (i : string) : path := ["$"; "%Common Requirements"; ".count"; i].

(** ** Emphases *)

(** an emphasis of a specification: its key, its "name", the dictionary read as a requirement,
    and what else matters when it is read as an area. Emphases have no emphases of their own. *)
Record emphasis := mkEmphasis {
  em_key : string; em_name : option string; em_body : rbody;
  em_code : option string; em_degree : option string; em_limit : option (list raw_limit); em_bad : bool }.
(** a specification *)
Record aspec := mkAspec {
  ar_name : option string; ar_type : option string; ar_degree : option string; ar_code : option string;
  ar_emphases : list emphasis; ar_result : option rdata; ar_reqs : option (list (string * rbody));
  ar_limit : option (list raw_limit); ar_multi : list (string * list (list string)); ar_bad : bool }.

Definition reqs_of (o : option (list (string * rbody))) : list (string * rbody) := match o with Some l => l | None => [] end.
Definition or_default (o : option string) (s : string) : string := match o with Some x => x | None => s end.

Section Load.
  Variables (cx : ctx) (c : constants) (tm : list (string * list template)).

  (** load_rule of {"requirement": name} with one child *)
  Definition load_common (name : string) (b : rbody) (i : string) : res node :=
    let! o := load_rule cx c tm (mkRd None None None None None None None (Some name)) (Ok []) [(name, load_body cx c tm b name)] (common_path i) in
    match o with Some n => Ok n | None => Err AssertErr end.
  (** area.py:425-595 prepare_common_rules *)
  Definition prepare_common (degree dept : option string) (areas : list area_ptr) (code : string) : res (list node) :=
    let bm := match degree with Some s => s =? "B.M." | None => false end in
    let! a := load_common "Credits at a C or higher" (common_body (Some c_or_better_query) false) "[0]" in
    let! b := load_common "Credits taken S/U" (common_body (Some (s_u_query bm)) false) "[1]" in
    if bm then Ok [a; b]
    else
      let others := map a_code (filter (fun p => negb (a_code p =? code)) areas) in
      let! o := load_common "Credits outside the major" (outside_body dept code others) "[2]" in
      Ok [a; b; o].

  (** count.py:75-108: what an emphasis adds to the rule at the top. [emph['result']['all']]
      raises KeyError if there is no "all" (line 88, unless the emphasis has "requirements"). *)
  Definition additions_of (e : emphasis) : res (list addition) :=
    let! name := match em_name e with Some s => Ok s | None => Err KeyErr end in
    let key := ("Emphasis: " ++ name)%string in
    let! result := match rb_result (em_body e) with Some d => Ok d | None => Err KeyErr end in
    let all := match rd_count result with Some k => rk_all k | None => None end in
    let! has_requirements :=
      if has (rb_reqs (em_body e)) then Ok true
      else match all with Some l => Ok (existsb (fun r => has (rd_name r)) l) | None => Err KeyErr end in
    let no_post_audit := match rd_count result with Some k => negb (has (rk_audit k)) | None => true end in
    let all_requirements := match all with Some l => forallb (fun r => has (rd_req r) || has (rd_name r)) l | None => false end in
    if has_requirements && no_post_audit && all_requirements then
      let! reqs :=
        match rb_reqs (em_body e) with
        | Some l => Ok l
        | None =>
          let! l := mapr (fun r => match rd_name r with Some x => Ok x | None => Err KeyErr end) (match all with Some l => l | None => [] end) in
          Ok (fold_left (fun d x => dset d (fst x) (snd x)) l [])
        end in
      Ok (map (fun x => let k := (key ++ " → " ++ fst x)%string in (name, k, load_body cx c tm (snd x) k)) reqs)
    else Ok [(name, key, load_body cx c tm (em_body e) key)].

  (** area.py:98-109: the rule of the area, with the emphases [ems] *)
  Definition load_top (data : option rdata) (reqs : option (list (string * rbody))) (ems : list emphasis) : res node :=
    match data with
    | None => Err KeyErr
    | Some d =>
      match ems, rd_count d with
      | _ :: _, None => Err AssertErr     (* load_rule.py:29-30 *)
      | _, _ =>
        let adds := let! l := mapr additions_of ems in Ok (List.concat l) in
        let! o := load_rule cx c tm d adds (map (fun x => (fst x, load_body cx c tm (snd x) (fst x))) (reqs_of reqs)) ["$"] in
        match o with Some n => Ok n | None => Err AssertErr end
      end
    end.
End Load.

(** ** Areas *)

(** area.py:79-80 [pointers.get(code)]: the last pointer with the code *)
Definition dept_of (areas : list area_ptr) (code : string) : option string :=
  match find (fun p => a_code p =? code) (rev areas) with Some p => a_dept p | None => None end.
(** area.py:91-96 *)
Definition load_ctx (st : student) (es : list exc) : ctx :=
  with_transcript (mkCtx [] [] [] [] [] (group_exceptions es) (t_areas st) [] [] (t_prof st)) (t_courses st) [] [] (t_failed st).
(** area.py:121-126 *)
Definition blocked (es : list exc) (n : node) : node :=
  fold_left (fun n e => match ex_act e with ABlock k => block (ex_path e) k n | _ => n end) es n.
(** area.py:86-87: an emphasis loaded as an area of its own; only its errors matter *)
Definition check_emphasis (c : constants) (tm : list (string * list template)) (st : student) (e : emphasis) : res unit :=
  let cx := load_ctx st [] in
  let code := or_default (em_code e) "<null>" in
  let! _ := load_top cx c tm (rb_result (em_body e)) (rb_reqs (em_body e)) [] in
  let! _ := load_limits cx c (em_limit e) in
  if em_bad e then Err AssertErr
  else let! _ := prepare_common cx c tm (em_degree e) (dept_of (t_areas st) code) (t_areas st) code in Ok tt.
(** area.py:89, 102-105 *)
Definition chosen_emphases (st : student) (all_emphases : bool) (l : list emphasis) : list emphasis :=
  let declared := map a_code (filter (fun a => match a_kind a with AkEmphasis => true | _ => false end) (t_areas st)) in
  filter (fun e => existsb (String.eqb (em_key e)) declared || all_emphases) l.
(** area.py:69-165 load *)
Definition load_area (c : constants) (tm : list (string * list template)) (st : student) (es : list exc) (all_emphases : bool) (s : aspec) : res study :=
  let code := or_default (ar_code s) "<null>" in
  let! _ := mapr (check_emphasis c tm st) (ar_emphases s) in
  let cx := load_ctx st es in
  let! n := load_top cx c tm (ar_result s) (ar_reqs s) (chosen_emphases st all_emphases (ar_emphases s)) in
  let! required := required_of cx n in
  let result := blocked es (exclude (map c_clbid required) n) in
  let! limits := load_limits cx c (ar_limit s) in
  if ar_bad s then Err AssertErr else
  let dept := dept_of (t_areas st) code in
  let! common := prepare_common cx c tm (ar_degree s) dept (t_areas st) code in
  Ok (mkStudy (or_default (ar_name s) "Test") (or_default (ar_type s) "test") (ar_degree s) dept code
        limits result
        (map (fun x => (fst x, map (map (fun seg => ("%" ++ seg)%string)) (snd x))) (ar_multi s)) common).
