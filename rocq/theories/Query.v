(** dp/rule/query.py, dp/solution/query.py, dp/base/query.py, dp/result/query.py *)
From Coq Require Import List ZArith QArith Bool String.
From Verif Require Import Prelude Dec Status Course Claims Exceptions Op Context CondExpr Predicate Limit Apply Assertion Ncr LimitLoad.
Import ListNotations.
Local Open Scope string_scope.
Local Open Scope list_scope.

(** dp/base/query.py:17-22 QuerySource *)
Inductive qsource := QCourses | QClaimed | QAreas | QPerformances | QRecitals.
Definition qsource_eqb (a b : qsource) : bool :=
  match a, b with
  | QCourses, QCourses | QClaimed, QClaimed | QAreas, QAreas
  | QPerformances, QPerformances | QRecitals, QRecitals => true
  | _, _ => false
  end.

(** dp/base/query.py:26-42 BaseQueryRule, with path and overridden of Base: the rule, its
    solutions and its results have the same fields. [q_excluded] is a set. *)
Record query := mkQuery {
  q_path : path; q_overridden : bool; q_source : qsource; q_type : data_type;
  q_asserts : list any_assertion; q_limit : list limit; q_where : option pred;
  q_allow : bool; q_attempt : bool; q_record : bool; q_failed_too : bool;
  q_inserted : list string; q_forced : list string; q_output : list item;
  q_claims : list claim; q_failures : list claim; q_excluded : list string;
}.

(** [x in tuple_of_strings] *)
Definition instr (x : string) (l : list string) : bool := existsb (String.eqb x) l.

(** ** The rule *)

(** dp/rule/query.py:110-113 exclude_required_courses *)
Definition q_exclude (q : query) (ks : list string) : query :=
  mkQuery (q_path q) (q_overridden q) (q_source q) (q_type q) (q_asserts q) (q_limit q) (q_where q)
    (q_allow q) (q_attempt q) (q_record q) (q_failed_too q) (q_inserted q) (q_forced q) (q_output q)
    (q_claims q) (q_failures q) (q_excluded q ++ ks).
(** dp/rule/query.py:115-120 apply_block_exception: the path and clbid of the exception *)
Definition q_block (q : query) (p : path) (k : string) : query :=
  if path_eqb (q_path q) p then q_exclude q [k] else q.

(** dp/rule/query.py:128-152 get_data *)
Definition q_data (cx : ctx) (q : query) : list item :=
  match q_source q with
  | QCourses =>
    let cs := if q_failed_too q then cx_failed cx else cx_transcript cx in
    map ICourse (filter (fun c => negb (instr (c_clbid c) (q_excluded q))) cs)
  | QClaimed => []
  | QAreas => map IArea (cx_areas cx)
  | QPerformances => map IPerf (cx_perf cx)
  | QRecitals => map ISlip (cx_att cx)
  end.

(** dp/rule/query.py:163-175: data, inserted and force-inserted clbids *)
Fixpoint q_insert (cx : ctx) (q : query) (es : list exc) (data : list item) (ins forced : list string)
  : res (list item * list string * list string) :=
  match es with
  | [] => Ok (data, ins, forced)
  | x :: t =>
    let k := exc_clbid x in
    if instr k (q_excluded q) then q_insert cx q t data ins forced
    else if exc_forced x then
      let! c := forced_by_clbid cx k in q_insert cx q t (data ++ [ICourse c]) (ins ++ [k]) (forced ++ [k])
    else
      let data' := match find_by_clbid cx k with Some c => data ++ [ICourse c] | None => data end in
      q_insert cx q t data' (ins ++ [k]) forced
  end.
(** dp/rule/query.py:154-177 get_filtered_data *)
Definition q_filtered (cx : ctx) (q : query) : res (list item * list string * list string) :=
  let! data := match q_where q with
               | Some w => filter_res (fun x => apply_pred x w) (q_data cx q)
               | None => Ok (q_data cx q)
               end in
  match q_source q with
  | QCourses | QClaimed => q_insert cx q (get_inserts (cx_exc cx) (q_path q)) data [] []
  | _ => Ok (data, [], [])
  end.

(** dp/rule/query.py:323-334 flatten_assertions *)
Definition flatten_assertion (a : any_assertion) : list assertion :=
  match a with
  | APlain x => [x]
  | AIf _ _ t e => t :: match e with Some x => [x] | None => [] end
  | AWhen _ _ t => [t]
  end.
(** [max(it, key=max_expected, default=None)]: the first of the largest *)
Fixpoint max_expected (best : assertion) (l : list assertion) : assertion :=
  match l with
  | [] => best
  | x :: t => max_expected (if Qltb (dval (as_expected best)) (dval (as_expected x)) then x else best) t
  end.
Definition max_by_expected (l : list assertion) : option assertion :=
  match l with [] => None | x :: t => Some (max_expected x t) end.
(** dp/rule/query.py:303-310, 312-319 find_largest_simple_count_assertion,
    find_largest_simple_sum_assertion *)
Definition largest_count (l : list assertion) : option assertion := max_by_expected (filter as_is_simple_count l).
Definition largest_sum (l : list assertion) : option assertion := max_by_expected (filter as_is_simple_sum l).

(** [itertools.combinations(items, n)]: ValueError for a negative n *)
Definition combinations {A} (items : list A) (n : Z) : gen (list A) :=
  if (n <? 0)%Z then gfail ValueErr else gret (combs (Z.to_nat n) items).
Definition all_sizes {A} (items : list A) : list (list A) :=
  flat_map (fun n => combs n items) (nrange 1 (List.length items + 1)).
(** dp/rule/query.py:363-366 iterate_item_set__count_shortcut *)
Definition count_shortcut {A} (a : assertion) (items : list A) : gen (list A) :=
  gflat (combinations items) (input_size_range a (Z.of_nat (List.length items))).
(** dp/rule/query.py:369-384 iterate_item_set__sum_shortcut *)
Definition sum_shortcut (a : assertion) (items : list course) : gen (list course) :=
  if Qltb (sum_credits items) (dval (as_expected a)) then gret [items]
  else gret (filter (fun combo => Qleb (dval (as_expected a)) (sum_credits combo)) (all_sizes items)).
(** dp/rule/query.py:337-360 iterate_item_set, source courses *)
Definition iterate_courses_set (q : query) (items : list course) : gen (list course) :=
  let assertions := flat_map flatten_assertion (q_asserts q) in
  match largest_count assertions with
  | Some a => count_shortcut a items
  | None =>
    match largest_sum assertions with
    | Some a => sum_shortcut a items
    | None => gret (all_sizes items)
    end
  end.

(** dp/solution/query.py:29-55 QuerySolution.from_rule *)
Definition q_solution (q : query) (output : list item) (ins forced : list string) : query :=
  mkQuery (q_path q) (q_overridden q) (q_source q) (q_type q) (q_asserts q) (q_limit q) (q_where q)
    (q_allow q) (q_attempt q) (q_record q) (q_failed_too q) (q_inserted q ++ ins) (q_forced q ++ forced) output
    [] [] (q_excluded q).

Section Order.
  (** the iteration order of frozensets, see Limit *)
  Variable ord : list course -> list course.

  (** dp/rule/query.py:203-227: the selections from one limited transcript *)
  Definition q_selections (q : query) (ins forced : list string) (item_set : list course) : gen (list course) :=
    if q_attempt q then
      gmap (fun combo =>
              let chosen := map c_clbid combo in
              combo ++ filter (fun c => instr (c_clbid c) (ins ++ forced) && negb (instr (c_clbid c) chosen)) item_set)
           (iterate_courses_set q item_set)
    else gret [item_set].

  (** dp/rule/query.py:179-233 solutions. AttributeError (OtherErr) if a course source had
      other data. *)
  Definition q_solutions (cx : ctx) (q : query) : gen query :=
    if q_overridden q then gret [q_solution q [] [] []]
    else
      match q_filtered cx q with
      | Err e => gfail e
      | Ok (data, ins, forced) =>
        match q_source q with
        | QClaimed => gret [q_solution q [] ins forced]
        | QCourses =>
          match mapr as_course data with
          | Err e => gfail e
          | Ok cs =>
            let found := gflat (q_selections q ins forced) (limited_transcripts ord (q_limit q) forced cs) in
            match found with
            | Gen [] None => gret [q_solution q [] ins forced]                        (* 230-233 *)
            | _ => gmap (fun out => q_solution q (map ICourse out) ins forced) found
            end
          end
        | _ => gret [q_solution q data ins forced]
        end
      end.

  (** [for n in range: total += ncr(len(items), n)]; what stops the range stops the sum *)
  Definition sum_ncr (len : Z) (sizes : gen Z) : res Z :=
    match g_exn sizes with
    | Some e => Err e
    | None => Ok (fold_left (fun acc n => acc + ncr len n)%Z (g_items sizes) 0%Z)
    end.
  (** dp/rule/query.py:387-424 estimate_item_set *)
  Definition q_estimate_set (q : query) (items : list course) : res Z :=
    let assertions := flat_map flatten_assertion (q_asserts q) in
    let len := Z.of_nat (List.length items) in
    let every := gret (zrange 1 (len + 1)) in
    match largest_count assertions with
    | Some a => sum_ncr len (input_size_range a len)
    | None =>
      match largest_sum assertions with
      | Some a => if Qltb (sum_credits items) (dval (as_expected a)) then Ok 1%Z else sum_ncr len every
      | None => sum_ncr len every
      end
    end.
  (** dp/rule/query.py:235-256 estimate *)
  Definition q_estimate (cx : ctx) (q : query) : res Z :=
    match get_waive (cx_exc cx) (q_path q) with
    | Some _ => Ok 1%Z
    | None =>
      let! (data, ins, forced) := q_filtered cx q in
      let! acc :=
        match q_source q with
        | QCourses | QClaimed =>
          let! cs := mapr as_course data in
          let sets := limited_transcripts ord (q_limit q) forced cs in
          let! counts := mapr (fun s =>
             let! n := if qsource_eqb (q_source q) QCourses then q_estimate_set q s else Ok 1%Z in
             Ok (if q_attempt q then n else n + 1)%Z) (g_items sets) in
          match g_exn sets with
          | Some e => Err e
          | None => Ok (fold_left Z.add counts 0%Z)
          end
        | _ => Ok 1%Z
        end in
      Ok (if (acc =? 0)%Z then 1%Z else acc)
    end.
End Order.

(** dp/rule/query.py:266-284 _has_potential *)
Definition q_potential (cx : ctx) (q : query) : res bool :=
  if has_exception_beneath (cx_exc cx) (q_path q) then Ok true
  else if existsb any_is_lt (q_asserts q) then Ok true
  else if existsb any_at_least_0 (q_asserts q) then Ok true
  else if qsource_eqb (q_source q) QClaimed then Ok true
  else match q_where q with
       | None => Ok (match q_data cx q with [] => false | _ => true end)
       | Some w => any_res (fun x => apply_pred x w) (q_data cx q)
       end.
(** dp/rule/query.py:286-288 all_matches *)
Definition q_matches (cx : ctx) (q : query) : res (list item) :=
  let! r := q_filtered cx q in Ok (fst (fst r)).
(** dp/rule/query.py:290-300 is_always_disjoint, is_never_disjoint *)
Definition q_always_disjoint (q : query) : bool :=
  q_allow q && negb (q_attempt q) && negb (qsource_eqb (q_source q) QClaimed).
Definition q_never_disjoint (q : query) : bool := qsource_eqb (q_source q) QClaimed.

(** ** The audit *)

(** dp/solution/query.py:129-140: claims made one after the other *)
Fixpoint claim_each (mc : multicountable) (t : claims) (q : query) (cs : list course)
  : res (list course * list claim * list claim * claims) :=
  match cs with
  | [] => Ok ([], [], [], t)
  | c :: cs' =>
    let was_forced := instr (c_clbid c) (q_forced q) in
    let! (cl, t1) := make_claim mc t c (q_path q) (q_allow q || was_forced) in
    let! (items, ok, bad, t2) := claim_each mc t1 q cs' in
    Ok (if cl_failed cl then (items, ok, cl :: bad, t2) else (c :: items, cl :: ok, bad, t2))
  end.
(** dp/solution/query.py:143-147, 178-186: claims that are recorded whatever is claimed *)
Fixpoint claim_all (mc : multicountable) (t : claims) (q : query) (cs : list course)
  : res (list claim * claims) :=
  match cs with
  | [] => Ok ([], t)
  | c :: cs' =>
    let! (cl, t1) := make_claim mc t c (q_path q) true in
    if cl_failed cl then Err AssertErr
    else let! (ok, t2) := claim_all mc t1 q cs' in Ok (cl :: ok, t2)
  end.

(** dp/solution/query.py:117-161 collect_courses *)
Definition collect_courses (mc : multicountable) (t : claims) (q : query) (cs : list course)
  : res (list course * list claim * list claim * claims) :=
  if q_attempt q then claim_each mc t q cs
  else if q_record q then
    let! (ok, t') := claim_all mc t q cs in Ok (cs, ok, [], t')
  else Ok (cs, [], [], t).

(** dp/solution/query.py:163-192 collect_claimed_courses *)
Definition collect_claimed (cx : ctx) (t : claims) (q : query)
  : res (list course * list claim * list claim * claims) :=
  let! out := all_claimed cx t in
  let! out := match q_where q with
              | Some w => filter_res (fun c => apply_pred (ICourse c) w) out
              | None => Ok out
              end in
  let out := filter (fun c => negb (instr (c_clbid c) (q_excluded q))) out in
  let! more := mapr (forced_by_clbid cx) (q_inserted q) in
  let! (ok, t') := claim_all (cx_multi cx) t q (out ++ more) in
  Ok (out ++ more, if q_record q then ok else [], [], t').

(** dp/result/query.py:12-39 QueryResult.from_solution *)
Definition q_result (q : query) (overridden : bool) (asserts : list any_assertion) (ok bad : list claim) : query :=
  mkQuery (q_path q) overridden (q_source q) (q_type q) asserts (q_limit q) (q_where q)
    (q_allow q) (q_attempt q) (q_record q) (q_failed_too q) (q_inserted q) (q_forced q) (q_output q)
    ok bad (q_excluded q).

(** dp/solution/query.py:57-115 audit *)
Definition q_audit (cx : ctx) (t : claims) (q : query) : res (query * claims) :=
  if q_overridden q then Ok (q_result q true (q_asserts q) [] [], t)
  else
    let! (items, ok, bad, t') :=
      match q_source q with
      | QCourses =>
        let! cs := mapr as_course (q_output q) in
        let! (items, ok, bad, t') := collect_courses (cx_multi cx) t q cs in
        Ok (map ICourse items, ok, bad, t')
      | QClaimed =>
        let! (items, ok, bad, t') := collect_claimed cx t q in
        Ok (map ICourse items, ok, bad, t')
      | _ => Ok (q_output q, [], [], t)
      end in
    let non_primary_lt := existsb any_is_lt (q_asserts q) && negb (forallb any_is_lt (q_asserts q)) in
    let skip := qsource_eqb (q_source q) QCourses && match items with [] => true | _ => false end && non_primary_lt in
    let! asserts := if skip then Ok (q_asserts q) else mapr (audit_any cx items) (q_asserts q) in
    Ok (q_result q false asserts ok bad, t').

(** ** Rank and status *)

(** dp/base/query.py:74-83 rank *)
Definition q_rank (q : query) : Q :=
  if q_overridden q then 1 else Qsum (map any_rank (q_asserts q)).
Definition q_max_rank (q : query) : Q :=
  if q_overridden q then 1 else Qsum (map any_max_rank (q_asserts q)).
(** dp/base/query.py:85-112: the status of a set of statuses *)
Definition combine_statuses (s : list status) : status :=
  if inS FailedInvariant s then FailedInvariant
  else if subS s WAIVED_ONLY then Waived
  else if subS s WAIVED_AND_DONE then Done
  else if subS s WAIVED_DONE_CURRENT then PendingCurrent
  else if subS s WAIVED_DONE_CURRENT_PENDING then PendingRegistered
  else if subS s WAIVED_DONE_CURRENT_PENDING_INCOMPLETE then NeedsMoreItems
  else if inS Empty s && existsb (fun x => inS x WAIVED_DONE_CURRENT_PENDING_INCOMPLETE) s then NeedsMoreItems
  else Empty.
Definition q_status (q : query) : status :=
  if q_overridden q then Waived else combine_statuses (map any_status (q_asserts q)).

(** ** Loading *)

Inductive raw_claim := RcTrue | RcFalse | RcRecord | RcOther.
(** the keys of a query. [rq_bad]: an unknown key *)
Record raw_query := mkRawQuery {
  rq_from : string; rq_where : option wdata; rq_limit : option (list raw_limit); rq_limits_key : bool;
  rq_assert : option raw_assertion; rq_all : option (list raw_any);
  rq_allow : bool; rq_claim : option raw_claim; rq_failed_too : bool; rq_bad : bool;
}.
Definition source_of (s : string) : res qsource :=
  if s =? "courses" then Ok QCourses else if s =? "claimed" then Ok QClaimed else if s =? "areas" then Ok QAreas
  else if s =? "music performances" then Ok QPerformances else if s =? "music recitals" then Ok QRecitals
  else Err ValueErr.
Definition type_of_source (s : qsource) : data_type :=
  match s with
  | QCourses | QClaimed => DtCourse
  | QAreas => DtArea
  | QRecitals => DtRecital
  | QPerformances => DtPerformance
  end.
Fixpoint load_all (cx : ctx) (c : constants) (m : data_type) (p : path) (i : Z) (l : list raw_any) : res (list any_assertion) :=
  match l with
  | [] => Ok []
  | r :: t =>
    let! a := load_any cx c m (p ++ [".assertions"; "[" ++ str_of_Z i ++ "]"]%string) r in
    let! rest := load_all cx c m p (i + 1)%Z t in
    Ok (a :: rest)
  end.
(** dp/rule/query.py:35-108 load *)
Definition load_query (cx : ctx) (c : constants) (p0 : path) (r : raw_query) : res query :=
  let p := p0 ++ [".query"] in
  let! source := source_of (rq_from r) in
  let m := type_of_source source in
  let! w := match rq_where r with
            | None => Ok None
            | Some x => let! y := load_predicate cx c m x in Ok (Some y)
            end in
  let! limits := load_limits cx c (rq_limit r) in
  if rq_limits_key r then Err ValueErr else
  let! asserts := match rq_assert r, rq_all r with
                  | Some a, _ => load_all cx c m p 0 [RwPlain a]
                  | None, Some l => load_all cx c m p 0 l
                  | None, None => Err ValueErr
                  end in
  match asserts with
  | [] => Err AssertErr
  | _ =>
    match rq_assert r, rq_all r with
    | Some _, Some _ => Err ValueErr
    | _, _ =>
      if rq_bad r then Err AssertErr else
      let claim := match rq_claim r with Some x => x | None => RcTrue end in
      Ok (mkQuery p (match get_waive (cx_exc cx) p with Some _ => true | None => false end) source m asserts
            limits w (match source with QClaimed => true | _ => rq_allow r end)
            (match claim with RcTrue => true | _ => false end)
            (match claim with RcTrue | RcRecord => true | _ => false end)
            (rq_failed_too r) [] [] [] [] [] [])
    end
  end.
