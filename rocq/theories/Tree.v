(** The requirement tree: dp/base/{count,requirement,conditional,proficiency}.py and the
    rule, solution and result classes of the same names. *)
From Coq Require Import List ZArith QArith Bool String.
From Verif Require Import Prelude Dec Status Course Claims Exceptions Op Context CondExpr Paths Predicate Limit Apply Assertion Query CourseRule ListFacts LazyRun.
Import ListNotations.
Local Open Scope string_scope.
Local Open Scope list_scope.

(** dp/base/count.py:19-23 BaseCountRule, without the items *)
Record count_info := mkCount {
  n_path : path; n_overridden : bool; n_count : Z; n_at_most : bool; n_audits : list any_assertion }.
(** dp/base/requirement.py:15-22 BaseRequirementRule, without the result; [message] is only
    displayed *)
Record req_info := mkReq {
  e_path : path; e_overridden : bool; e_name : string;
  e_audited : bool; e_contract : bool; e_in_gpa : bool; e_disjoint : option bool }.
(** dp/base/conditional.py:16-19 BaseConditionalRule, without the branches *)
Record cond_info := mkCond { d_path : path; d_overridden : bool; d_cond : pexpr }.
(** dp/base/proficiency.py:15-18 BaseProficiencyRule, without the course *)
Record prof_info := mkProfInfo {
  f_path : path; f_overridden : bool; f_proficiency : string; f_status : status }.

(** A node of any class, as a rule, a solution or a result. *)
Inductive node :=
| NCourse (k : kind) (r : crule)
| NQuery (k : kind) (q : query)
| NCount (k : kind) (i : count_info) (items : list node)
| NReq (k : kind) (i : req_info) (result : option node)
| NCond (k : kind) (i : cond_info) (when_true : node) (when_false : option node)
| NProf (k : kind) (i : prof_info) (course : option (kind * crule)).

Definition kind_of (n : node) : kind :=
  match n with
  | NCourse k _ | NQuery k _ | NCount k _ _ | NReq k _ _ | NCond k _ _ _ | NProf k _ _ => k
  end.
Definition path_of (n : node) : path :=
  match n with
  | NCourse _ r => r_path r
  | NQuery _ q => q_path q
  | NCount _ i _ => n_path i
  | NReq _ i _ => e_path i
  | NCond _ i _ _ => d_path i
  | NProf _ i _ => f_path i
  end.
Definition overridden (n : node) : bool :=
  match n with
  | NCourse _ r => r_overridden r
  | NQuery _ q => q_overridden q
  | NCount _ i _ => n_overridden i
  | NReq _ i _ => e_overridden i
  | NCond _ i _ _ => d_overridden i
  | NProf _ i _ => f_overridden i
  end.

(** dp/base/conditional.py:33-38 and its copies: which branch is looked at *)
Inductive branch := BTrue | BFalse | BNone.
Definition active (i : cond_info) (when_false : option node) : branch :=
  match e_result (d_cond i), when_false with
  | Some true, _ => BTrue
  | Some false, Some _ => BFalse
  | _, _ => BNone
  end.

(** ** Status *)

(** dp/base/count.py:72-106 status, from the statuses of the items and of the audits *)
Definition count_status (count : Z) (children audits : list status) : status :=
  let passing := filter (fun s => inS s passing_statuses) children in
  if inS FailedInvariant children || inS FailedInvariant audits then FailedInvariant
  else if subS children EMPTY_AND_DEPARTMENTAL then Empty
  else if (Z.of_nat (List.length passing) <? count)%Z then NeedsMoreItems
  else if eqS passing WAIVED_ONLY && subS audits WAIVED_ONLY then Waived
  else if subS passing WAIVED_AND_DONE && subS audits WAIVED_AND_DONE then Done
  else if subS passing WAIVED_DONE_CURRENT && subS audits WAIVED_DONE_CURRENT then PendingCurrent
  else if subS passing WAIVED_DONE_CURRENT_PENDING && subS audits WAIVED_DONE_CURRENT_PENDING then PendingRegistered
  else NeedsMoreItems.
(** dp/base/requirement.py:39-54 status; without a result bases.py:52-71 gives
    NeedsMoreItems: there are no claims and the rank is 0 *)
Definition req_status (i : req_info) (result : option status) : status :=
  if e_overridden i && (e_audited i || e_contract i) then Done
  else if e_overridden i then Waived
  else if e_audited i then PendingApproval
  else match result with None => NeedsMoreItems | Some s => s end.
(** dp/base/proficiency.py:45-55 status *)
Definition prof_node_status (i : prof_info) (course : option (kind * crule)) : status :=
  if f_overridden i then Waived
  else if inS (f_status i) WAIVED_AND_DONE then f_status i
  else match course with Some (k, r) => c_status k r | None => Empty end.
Fixpoint status_of (n : node) : status :=
  match n with
  | NCourse k r => c_status k r
  | NQuery _ q => q_status q
  | NCount _ i items =>
    if n_overridden i then Waived
    else count_status (n_count i) (map status_of items) (map any_status (n_audits i))
  | NReq _ i result => req_status i (match result with Some x => Some (status_of x) | None => None end)
  | NCond _ i t f =>
    match e_result (d_cond i), f with
    | Some true, _ => status_of t
    | Some false, Some x => status_of x
    | _, _ => Done
    end
  | NProf _ i c => prof_node_status i c
  end.

(** dp/base/count.py:108-136 audit_status *)
Definition count_audit_status (i : count_info) : status :=
  let audits := map any_status (n_audits i) in
  if n_overridden i then Waived
  else match dedup status_eqb audits with
  | [s] => s
  | _ =>
    if inS FailedInvariant audits then FailedInvariant
    else if subS audits WAIVED_ONLY then Waived
    else if subS audits WAIVED_AND_DONE then Done
    else if subS audits WAIVED_DONE_CURRENT then PendingCurrent
    else if subS audits WAIVED_DONE_CURRENT_PENDING then PendingRegistered
    else if subS audits EMPTY_AND_DEPARTMENTAL then Empty
    else NeedsMoreItems
  end.

(** ** Rank *)

Definition Qmax_of (a b : Q) : Q := if Qltb a b then b else a.
(** [max(...)] of a list: ValueError if it is empty *)
Definition Qmaximum (l : list Q) : res Q :=
  match l with [] => Err ValueErr | x :: t => Ok (fold_left Qmax_of t x) end.
(** dp/base/count.py:47-70 rank, from the ranks of the items. [sum(sorted(ms)[:2])] of two
    items is their sum. *)
Definition count_rank (i : count_info) (ranks : list (Q * Q)) : res (Q * Q) :=
  let item_rank := Qsum (map fst ranks) in
  let! item_max :=
    if (Nat.eqb (List.length ranks) 2 && (n_count i =? 2)%Z)%bool then Ok (Qsum (map snd ranks))
    else if ((n_count i =? 1)%Z && n_at_most i)%bool then Qmaximum (map snd ranks)
    else Ok (Qsum (map snd ranks)) in
  let audit_rank := Qsum (map any_rank (n_audits i)) in
  let audit_max := Qmax_of audit_rank (Qsum (map any_max_rank (n_audits i))) in
  Ok (item_rank + audit_rank, Qmax_of item_rank item_max + audit_max)%Q.
(** dp/base/requirement.py:66-74: the boost of a passing requirement *)
Definition boosted (s : status) (r : Q * Q) : Q * Q :=
  if inS s passing_statuses then (fst r + 1, snd r + 1)%Q else r.
Fixpoint rank_of (n : node) : res (Q * Q) :=
  match n with
  | NCourse k r => Ok (c_rank k r, c_max_rank k r)
  | NQuery _ q => Ok (q_rank q, q_max_rank q)
  | NCount _ i items =>
    if n_overridden i then Ok (1%Q, 1%Q)
    else let! ranks := mapr rank_of items in count_rank i ranks
  | NReq _ i result =>
    if e_overridden i then Ok (1%Q, 1%Q)
    else if e_audited i then Ok (0%Q, 1%Q)
    else match result with
         | None => Ok (0%Q, 1%Q)
         | Some x => let! r := rank_of x in Ok (boosted (status_of n) r)
         end
  | NCond _ i t f =>
    match e_result (d_cond i), f with
    | Some true, _ => rank_of t
    | Some false, Some x => rank_of x
    | _, _ => Ok (1%Q, 1%Q)
    end
  | NProf _ i c => Ok (status_rank (prof_node_status i c), 1%Q)        (* proficiency.py:31-43 *)
  end.

(** ** Claims *)

(** dp/base/bases.py:79-80, dp/result/query.py:44-45: only results have claims *)
Definition q_node_claims (k : kind) (q : query) : list claim := match k with KRes => q_claims q | _ => [] end.
(** dp/result/proficiency.py:37-38; solutions and rules have none *)
Definition prof_claims (k : kind) (c : option (kind * crule)) : list claim :=
  match k, c with KRes, Some (k', r) => c_claims k' r | _, _ => [] end.
(** claims: count.py:41-42, requirement.py:97-101, conditional.py:56-62 *)
Fixpoint claims_of (n : node) : list claim :=
  match n with
  | NCourse k r => c_claims k r
  | NQuery k q => q_node_claims k q
  | NCount _ _ items => flat_map claims_of items
  | NReq _ i result =>
    if e_audited i then [] else match result with Some x => claims_of x | None => [] end
  | NCond _ i t f =>
    match e_result (d_cond i), f with
    | Some true, _ => claims_of t
    | Some false, Some x => claims_of x
    | _, _ => []
    end
  | NProf k _ c => prof_claims k c
  end.
(** claims_for_gpa: bases.py:82-83, count.py:44-45, requirement.py:103-107,
    conditional.py:64-70 *)
Fixpoint gpa_claims_of (n : node) : list claim :=
  match n with
  | NCourse k r => c_claims k r
  | NQuery k q => q_node_claims k q
  | NCount _ _ items => flat_map gpa_claims_of items
  | NReq _ i result =>
    if e_in_gpa i && negb (e_audited i) then match result with Some x => gpa_claims_of x | None => [] end else []
  | NCond _ i t f =>
    match e_result (d_cond i), f with
    | Some true, _ => gpa_claims_of t
    | Some false, Some x => gpa_claims_of x
    | _, _ => []
    end
  | NProf k _ c => prof_claims k c
  end.

(** ** Questions about rules *)

(** is_always_disjoint: bases.py:97-98, query.py:290-294, requirement.py:76-83 *)
Fixpoint always_disjoint (n : node) : bool :=
  match n with
  | NQuery KRule q => q_always_disjoint q
  | NReq _ i result =>
    match e_disjoint i with Some true => true | _ => match result with Some x => always_disjoint x | None => false end end
  | _ => false
  end.
(** is_never_disjoint: bases.py:100-101, query.py:296-300, requirement.py:85-92 *)
Fixpoint never_disjoint (n : node) : bool :=
  match n with
  | NQuery KRule q => q_never_disjoint q
  | NReq _ i result =>
    match e_disjoint i with Some false => true | _ => match result with Some x => never_disjoint x | None => false end end
  | _ => false
  end.

(** has_potential: count.py:472-476, rule/requirement.py:135-145, conditional.py:113-119,
    proficiency.py:68-69 *)
Fixpoint potential (cx : ctx) (n : node) : res bool :=
  match n with
  | NCourse _ r => c_potential cx r
  | NQuery _ q => q_potential cx q
  | NCount _ i items =>
    if has_exception_beneath (cx_exc cx) (n_path i) then Ok true else any_res (potential cx) items
  | NReq _ i result =>
    if has_exception_beneath (cx_exc cx) (e_path i) then Ok true
    else if e_audited i then Ok false
    else match result with Some x => potential cx x | None => Ok false end
  | NCond _ i t f =>
    match e_result (d_cond i), f with
    | Some true, _ => potential cx t
    | Some false, Some x => potential cx x
    | _, _ => Ok false
    end
  | NProf _ _ _ => Ok true
  end.

(** all_matches: count.py:478-479, rule/requirement.py:147-151, conditional.py:121-127,
    proficiency.py:71-72 *)
Definition course_matches (cx : ctx) (r : crule) : res (list item) :=
  let! cs := c_matches cx r in Ok (map ICourse cs).
Fixpoint matches_of (cx : ctx) (n : node) : res (list item) :=
  match n with
  | NCourse _ r => course_matches cx r
  | NQuery _ q => q_matches cx q
  | NCount _ _ items => let! ls := mapr (matches_of cx) items in Ok (List.concat ls)
  | NReq _ _ result => match result with Some x => matches_of cx x | None => Ok [] end
  | NCond _ i t f =>
    match e_result (d_cond i), f with
    | Some true, _ => matches_of cx t
    | Some false, Some x => matches_of cx x
    | _, _ => Ok []
    end
  | NProf _ _ c => match c with Some (_, r) => course_matches cx r | None => Ok [] end
  end.

(** get_required_courses: count.py:204-208, rule/requirement.py:86-89,
    conditional.py:71-77, proficiency.py:49-52; queries require none
    (dp/rule/query.py:125-126) *)
Fixpoint required_of (cx : ctx) (n : node) : res (list course) :=
  match n with
  | NCourse _ r => c_required cx r
  | NQuery _ _ => Ok []
  | NCount _ i items =>
    if negb (n_count i =? Z.of_nat (List.length items))%Z then Ok []
    else let! ls := mapr (required_of cx) items in Ok (List.concat ls)
  | NReq _ _ result => match result with Some x => required_of cx x | None => Ok [] end
  | NCond _ i t f =>
    match e_result (d_cond i), f with
    | Some true, _ => required_of cx t
    | Some false, Some x => required_of cx x
    | _, _ => Ok []
    end
  | NProf _ _ c => match c with Some (_, r) => c_required cx r | None => Ok [] end
  end.

(** exclude_required_courses: count.py:210-212, rule/requirement.py:91-96, conditional.py:79-85;
    the default (bases.py:142-143: course and proficiency rules) changes nothing *)
Fixpoint exclude (ks : list string) (n : node) : node :=
  match n with
  | NQuery k q => NQuery k (q_exclude q ks)
  | NCount k i items => NCount k i (map (exclude ks) items)
  | NReq k i result => NReq k i (match result with Some x => Some (exclude ks x) | None => None end)
  | NCond k i t f => NCond k i (exclude ks t) (match f with Some x => Some (exclude ks x) | None => None end)
  | NCourse _ _ | NProf _ _ _ => n
  end.
(** apply_block_exception: count.py:214-216, rule/requirement.py:98-103, conditional.py:87-93;
    the default (bases.py:145-146: proficiency rules) changes nothing, so the course
    beneath a proficiency cannot be blocked *)
Fixpoint block (p : path) (k : string) (n : node) : node :=
  match n with
  | NCourse kd r => NCourse kd (c_block r p k)
  | NQuery kd q => NQuery kd (q_block q p k)
  | NCount kd i items => NCount kd i (map (block p k) items)
  | NReq kd i result => NReq kd i (match result with Some x => Some (block p k x) | None => None end)
  | NCond kd i t f => NCond kd i (block p k t) (match f with Some x => Some (block p k x) | None => None end)
  | NProf _ _ _ => n
  end.

(** ** Solutions *)

(** dp/solution/count.py:22-30 CountSolution.from_rule *)
Definition count_solution (i : count_info) (items : list node) (overridden : bool) : node :=
  NCount KSol (mkCount (n_path i) overridden (n_count i) (n_at_most i) (n_audits i)) items.
(** dp/solution/requirement.py:20-31 RequirementSolution.from_rule *)
Definition req_solution (i : req_info) (result : option node) (overridden : bool) : node :=
  NReq KSol (mkReq (e_path i) overridden (e_name i) (e_audited i) (e_contract i) (e_in_gpa i) (e_disjoint i)) result.
(** dp/solution/proficiency.py:17-33 from_rule, overridden_from_rule: the status starts out
    as Empty *)
Definition prof_solution (i : prof_info) (c : option (kind * crule)) (overridden : bool) : node :=
  NProf KSol (mkProfInfo (f_path i) overridden (f_proficiency i) Empty) c.

Definition waived (cx : ctx) (p : path) : bool :=
  match get_waive (cx_exc cx) p with Some _ => true | None => false end.

(** Rules are hashed by value and put in sets; siblings are told apart by their paths here.
    The loader gives siblings different paths, except for an emphasis declared twice, which
    gives equal rules. *)
Definition same_path (a b : path) : bool := path_eqb a b.
Definition path_in (p : path) (l : list path) : bool := existsb (same_path p) l.

(** [combinations(items, size)] is [Query.combinations]. A child is paired with the run of
    its [solutions]. *)
Definition child := (node * gen node)%type.
Definition child_path (c : child) : path := path_of (fst c).

(** dp/rule/count.py:332-353 make_combinations *)
Definition make_combinations (i : count_info) (items : list child) (results : list node) (other : list node)
    (size : Z) : gen node :=
  gflat (fun selected =>
           let chosen := map child_path selected in
           let deselected := filter (fun n => negb (path_in (path_of n) chosen)) other in
           gmap (fun sols => count_solution i (sort_by_path path_of (sols ++ deselected ++ results)) false)
                (lazy_run (map snd selected)))
        (combinations items size).
(** dp/rule/count.py:264-299: all sizes in range, else the rules with potential, else one
    solution with the rules as they are *)
Definition count_run (i : count_info) (len : Z) (items : list child) (results other : list node) : gen node :=
  let lo := n_count i in
  let hi := if n_at_most i then (n_count i + 1)%Z else (len + 1)%Z in     (* range, 218-225 *)
  let run := gflat (make_combinations i items results other) (gret (zrange lo hi)) in
  match run with
  | Gen [] None =>
    let all := match items with
               | [] => gnil
               | _ => make_combinations i items results other (Z.of_nat (List.length items))
               end in
    match all with
    | Gen [] None => gret [count_solution i (sort_by_path path_of (other ++ results)) false]
    | _ => all
    end
  | _ => run
  end.
(** dp/rule/count.py:239: the children with potential, as a set *)
Definition potential_children (cx : ctx) (cs : list child) : res (list child) :=
  let! l := filter_res (fun c => potential cx (fst c)) cs in
  Ok (dedup (fun a b => same_path (child_path a) (child_path b)) l).
(** [set(items)] *)
Definition children_set (items : list node) : list node :=
  dedup (fun a b => same_path (path_of a) (path_of b)) items.
(** dp/rule/count.py:227-299 solutions, without looking for independent children *)
Definition count_solutions (cx : ctx) (i : count_info) (items : list node) (cs : list child) : gen node :=
  if waived cx (n_path i) then gret [count_solution i items true]
  else match potential_children cx cs with
  | Err e => gfail e
  | Ok pot =>
    count_run i (Z.of_nat (List.length items)) (sort_by_path child_path pot) [] (children_set items)
  end.
(** [next(it)] inside a generator *)
Definition gnext {A} (g : gen A) : res A :=
  match g with
  | Gen (x :: _) _ => Ok x
  | Gen [] (Some e) => Err e
  | Gen [] None => Err RuntimeErr
  end.
(** dp/rule/proficiency.py:54-63 solutions *)
Definition prof_solutions (cx : ctx) (i : prof_info) (c : option (kind * crule)) : gen node :=
  if waived cx (f_path i) then gret [prof_solution i c true]
  else match c with
  | None => gret [prof_solution i None false]
  | Some (_, r) =>
    match gnext (c_solutions cx r) with
    | Err e => gfail e
    | Ok s => gret [prof_solution i (Some (KSol, s)) false]
    end
  end.

Section Order.
  (** the iteration order of sets of courses, see Limit *)
  Variable ord : list course -> list course.

  (** solutions, with depth=None: the same for every table of claims. Requirements
      (rule/requirement.py:105-116) and combinations (rule/count.py:348) drop the depth. *)
  Fixpoint solutions (cx : ctx) (n : node) : gen node :=
    match n with
    | NCourse _ r => gmap (NCourse KSol) (c_solutions cx r)
    | NQuery _ q => gmap (NQuery KSol) (q_solutions ord cx q)
    | NCount _ i items => count_solutions cx i items (map (fun c => (c, solutions cx c)) items)
    | NReq _ i result =>
      if waived cx (e_path i) then gret [req_solution i result true]
      else match result with
      | None => gret [req_solution i None false]
      | Some x => gmap (fun s => req_solution i (Some s) false) (solutions cx x)
      end
    | NCond _ i t f =>
      match e_result (d_cond i), f with
      | Some true, _ => gmap (fun s => NCond KSol i s f) (solutions cx t)
      | Some false, Some x => gmap (fun s => NCond KSol i t (Some s)) (solutions cx x)
      | _, _ => gnil
      end
    | NProf _ i c => prof_solutions cx i c
    end.

  (** ** Audit *)

  (** [matched()] as iterated (bases.py:85-86) *)
  Definition matched_items (n : node) : list item := map ICourse (ord (matched_of (claims_of n))).

  (** audits made one after the other on the same context *)
  Section Each.
    Context (f : claims -> node -> res (node * claims)).
    Fixpoint audit_each (t : claims) (l : list node) : res (list node * claims) :=
      match l with
      | [] => Ok ([], t)
      | x :: rest =>
        let! (y, t1) := match kind_of x with KSol => f t x | _ => Ok (x, t) end in
        let! (ys, t2) := audit_each t1 rest in
        Ok (y :: ys, t2)
      end.
  End Each.
  (** audit: solution/count.py:32-45, solution/requirement.py:39-56,
      solution/conditional.py:20-30, solution/proficiency.py:35-43 *)
  Fixpoint audit (cx : ctx) (t : claims) (n : node) : res (node * claims) :=
    match n with
    | NCourse _ r => let! (x, t') := c_audit (cx_multi cx) t r in Ok (NCourse KRes x, t')
    | NQuery _ q => let! (x, t') := q_audit cx t q in Ok (NQuery KRes x, t')
    | NCount _ i items =>
      if n_overridden i then Ok (NCount KRes i items, t)
      else
        let! (results, t') := audit_each (audit cx) t items in
        let! audits := mapr (audit_any cx (flat_map matched_items results)) (n_audits i) in
        Ok (NCount KRes (mkCount (n_path i) false (n_count i) (n_at_most i) audits) results, t')
    | NReq _ i result =>
      if e_overridden i then Ok (NReq KRes i result, t)
      else match result with
      | None => Ok (NReq KRes i None, t)
      | Some x =>
        match kind_of x with
        | KRule => Ok (NReq KRes i (Some x), t)
        | KSol => let! (y, t') := audit cx t x in Ok (NReq KRes i (Some y), t')
        | KRes => Err OtherErr
        end
      end
    | NCond _ i b f =>
      match e_result (d_cond i), f with
      | Some true, _ =>
        match kind_of b with
        | KSol => let! (y, t') := audit cx t b in Ok (NCond KRes i y f, t')
        | _ => Ok (NCond KRes i b f, t)
        end
      | Some false, Some x =>
        match kind_of x with
        | KSol => let! (y, t') := audit cx t x in Ok (NCond KRes i b (Some y), t')
        | _ => Ok (NCond KRes i b f, t)
        end
      | _, _ => Ok (NCond KRes i b f, t)
      end
    | NProf _ i c =>
      if f_overridden i then Ok (NProf KRes (mkProfInfo (f_path i) true (f_proficiency i) Waived) c, t)
      else
        let! s := proficiency_status (cx_prof cx) (f_proficiency i) false in
        let! (c', t') := match c with
                         | Some (KSol, r) => let! (x, t') := c_audit (cx_multi cx) t r in Ok (Some (KRes, x), t')
                         | _ => Ok (c, t)
                         end in
        Ok (NProf KRes (mkProfInfo (f_path i) false (f_proficiency i) s) c', t')
    end.
End Order.
