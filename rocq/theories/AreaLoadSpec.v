(** What an area of study is loaded as. *)
From Coq Require Import List ZArith QArith Bool String.
From Verif Require Import Transcript Prelude Dec Status Course Claims Exceptions Op Context CondExpr Predicate Limit LimitLoad Assertion Query CourseRule Tree Driver Area Loader AreaLoad.
From Verif Require Import TreeSolSpec TreeAskSpec SolveSpec AreaSpec AreaOnceSpec LoaderSpec LimitLoadSpec.
Import ListNotations.
Local Open Scope string_scope.
Local Open Scope list_scope.

(** ** Classes kept out *)

Definition c_without (r : crule) (ks : list string) : crule :=
  mkCrule (r_path r) (r_overridden r) (r_course r) (r_clbid r) (r_crsid r) (r_ap r) (r_institution r) (r_name r)
    (r_grade r) (r_grade_option r) (r_year r) (r_term r) (r_section r) (r_sub_type r)
    (r_allow r) (r_from_claimed r) (r_optional r) (r_inserted r) (r_forced r) (r_auto_waived r)
    (r_excluded r ++ ks) (r_matched r) (r_claim r).
Definition q_without (q : query) (ks : list string) : query :=
  mkQuery (q_path q) (q_overridden q) (q_source q) (q_type q) (q_asserts q) (q_limit q) (q_where q)
    (q_allow q) (q_attempt q) (q_record q) (q_failed_too q) (q_inserted q) (q_forced q) (q_output q)
    (q_claims q) (q_failures q) (q_excluded q ++ ks).
(** the tree with the classes [required] kept out of all queries, and the classes [at_path]
    kept out of the query or course rule at a path; not of the course of a proficiency *)
Fixpoint keep_out (required : list string) (at_path : path -> list string) (n : node) : node :=
  match n with
  | NCourse k r => NCourse k (c_without r (at_path (r_path r)))
  | NQuery k q => NQuery k (q_without q (required ++ at_path (q_path q)))
  | NCount k i items => NCount k i (map (keep_out required at_path) items)
  | NReq k i o => NReq k i (match o with Some x => Some (keep_out required at_path x) | None => None end)
  | NCond k i t f => NCond k i (keep_out required at_path t) (match f with Some x => Some (keep_out required at_path x) | None => None end)
  | NProf _ _ _ => n
  end.
(** the classes blocked at a path *)
Definition blocks_at (es : list exc) (p : path) : list string :=
  flat_map (fun e => match ex_act e with ABlock k => if list_eq_dec string_dec (ex_path e) p then [k] else [] | _ => [] end) es.

(** ** Emphases *)

(** the result asks for all of a list of requirements, and nothing more *)
Definition lists_requirements (b : rbody) (l : list rdata) : Prop :=
  exists d k, rb_result b = Some d /\ rd_count d = Some k /\ rk_all k = Some l /\ rk_audit k = None /\
    forall x, In x l -> rd_req x <> None \/ rd_name x <> None.
Definition emphasis_key (name : string) : string := ("Emphasis: " ++ name)%string.
Definition part_key (name k : string) : string := (emphasis_key name ++ " → " ++ k)%string.
(** the dictionary made of pairs: a key stands where it came first, with the value it had last *)
Definition dictionary {A} (xs d : list (string * A)) : Prop :=
  firsts (map fst xs) (map fst d) /\
  forall k b, In (k, b) d -> exists pre post, xs = pre ++ (k, b) :: post /\ ~ In k (map fst post).
(** the requirements that an emphasis adds to the rule at the top. If it just lists
    requirements, these are added one by one: the declared ones, or those written in the list;
    otherwise it is added as one requirement. *)
Inductive emphasis_adds (e : emphasis) : list added -> Prop :=
| ea_declared name l reqs : em_name e = Some name -> lists_requirements (em_body e) l -> rb_reqs (em_body e) = Some reqs ->
    emphasis_adds e (map (fun x => (name, part_key name (fst x), snd x)) reqs)
| ea_written name l xs d : em_name e = Some name -> lists_requirements (em_body e) l -> rb_reqs (em_body e) = None ->
    l <> [] -> Forall2 (fun r x => rd_name r = Some x) l xs -> dictionary xs d ->
    emphasis_adds e (map (fun x => (name, part_key name (fst x), snd x)) d)
| ea_whole name d : em_name e = Some name -> rb_result (em_body e) = Some d ->
    (rb_reqs (em_body e) <> None /\ (forall l, ~ lists_requirements (em_body e) l) \/
     rb_reqs (em_body e) = None /\ exists k l, rd_count d = Some k /\ rk_all k = Some l /\
       ((forall x, In x l -> rd_name x = None) \/ ~ lists_requirements (em_body e) l)) ->
    emphasis_adds e [(name, emphasis_key name, em_body e)].

(** ** Areas *)

(** the student has declared the emphasis *)
Definition declared (st : student) (e : emphasis) : Prop :=
  exists a, In a (t_areas st) /\ a_kind a = AkEmphasis /\ a_code a = em_key e.
(** the department of the area: that of the last pointer with the code *)
Inductive department (areas : list area_ptr) (code : string) : option string -> Prop :=
| dp_found pre a post : areas = pre ++ a :: post -> a_code a = code -> (forall b, In b post -> a_code b <> code) -> department areas code (a_dept a)
| dp_none : (forall a, In a areas -> a_code a <> code) -> department areas code None.
(** the rule at the top: with emphases it must have the keys of a count, and what they add is
    added if it is loaded as one *)
Definition top_written (cx : ctx) (c : constants) (tm : list (string * list template)) (data : option rdata) (reqs : option (list (string * rbody)))
    (ems : list emphasis) (n : node) : Prop :=
  exists d adds, data = Some d /\ (ems <> [] -> rd_count d <> None) /\
    ((exists k, first_shape d (ShCount k)) -> Forall2 emphasis_adds ems adds) /\
    written cx c tm (List.concat adds) (dget (reqs_of reqs)) d ["$"] (Some n).
(** the members of [l] with the property, in their order *)
Definition picked {A} (P : A -> Prop) (l m : list A) : Prop :=
  exists f, (forall x, In x l -> (f x = true <-> P x)) /\ m = filter f l.
(** no department code looks like the name of a constant *)
Definition plain_departments (st : student) : Prop :=
  forall a d, In a (t_areas st) -> a_dept a = Some d -> starts_dollar d = false.
(** an emphasis can be loaded on its own, as if it were an area *)
Definition valid_alone (c : constants) (tm : list (string * list template)) (st : student) (e : emphasis) : Prop :=
  em_bad e = false /\ (exists ls, limits_of (load_ctx st []) c (em_limit e) ls) /\ exists n, top_written (load_ctx st []) c tm (rb_result (em_body e)) (rb_reqs (em_body e)) [] n.
(** the paths of the multicountable sets: the segments name requirements *)
Definition named_segments (l : list (string * list (list string))) : list (string * list path) :=
  map (fun x => (fst x, map (map (fun seg => ("%" ++ seg)%string)) (snd x))) l.
(** what an area is loaded as: [n] is the rule as it is written, [cs] are the courses it
    requires *)
Record loaded_as (c : constants) (tm : list (string * list template)) (st : student) (es : list exc) (all : bool) (s : aspec)
    (u : study) (chosen : list emphasis) (n : node) (cs : list course) : Prop := {
  la_valid : forall e, In e (ar_emphases s) -> valid_alone c tm st e;
  la_good : ar_bad s = false;
  la_chosen : picked (fun e => declared st e \/ all = true) (ar_emphases s) chosen;
  la_written : top_written (load_ctx st es) c tm (ar_result s) (ar_reqs s) chosen n;
  la_required : required_of (load_ctx st es) n = Ok cs;
  la_result : u_result u = keep_out (map c_clbid cs) (blocks_at es) n;
  la_name : u_name u = or_default (ar_name s) "Test";
  la_kind : u_kind u = or_default (ar_type s) "test";
  la_degree : u_degree u = ar_degree s;
  la_code : u_code u = or_default (ar_code s) "<null>";
  la_dept : department (t_areas st) (u_code u) (u_dept u);
  la_limit : limits_of (load_ctx st es) c (ar_limit s) (u_limit u);
  la_multi : u_multi u = named_segments (ar_multi s);
  la_common : prepare_common (load_ctx st es) c tm (u_degree u) (u_dept u) (t_areas st) (u_code u) = Ok (u_common u) }.
(** ** What makes the requirements of emphases distinct *)

(** the names of the emphases differ, and none goes on with an arrow after another *)
Definition distinct_names (l : list emphasis) : Prop :=
  NoDup (map em_name l) /\
  forall a b n m s, In a l -> In b l -> em_name a = Some n -> em_name b = Some m -> m <> (n ++ " →" ++ s)%string.
(** the requirements of an emphasis are a dictionary *)
Definition distinct_requirements (e : emphasis) : Prop := forall l, rb_reqs (em_body e) = Some l -> NoDup (map fst l).
(** no two children at the top are declared disjoint *)
Definition one_disjoint (n : node) : Prop :=
  forall k i items, heads n (NCount k i items) -> forall x y, In x items -> In y items -> x <> y -> ~ (declares true x /\ declares true y).
