(** Choosing the best solution of a rule, and solving independent children of the
    top-level count rule on their own: dp/solve.py and the depth=1 part of
    dp/rule/count.py. *)
From Coq Require Import List ZArith QArith Bool String.
From Verif Require Import Prelude Dec Status Course Claims Exceptions Op Context CondExpr Paths Predicate Apply Assertion Query CourseRule Tree.
Import ListNotations.
Local Open Scope list_scope.

(** [{**base, **inner}] (dp/solve.py:51) *)
Definition merged (base inner : claims) : claims := fold_left (fun t kv => dset t (fst kv) (snd kv)) inner base.

(** ** Which children compete for courses (dp/rule/count.py:374-425) *)

(** [itertools.combinations(l, 2)] *)
Fixpoint pairs {A} (l : list A) : list (A * A) :=
  match l with
  | [] => []
  | x :: t => map (pair x) t ++ pairs t
  end.
(** [not a.isdisjoint(b)] *)
Definition overlap (a b : list item) : bool := existsb (fun x => existsb (item_eqb x) b) a.
(** [set.add]; rules are told apart by their paths, see Tree *)
Definition in_nodes (n : node) (l : list node) : bool := path_in (path_of n) (map path_of l).
Definition add_node (n : node) (l : list node) : list node := if in_nodes n l then l else l ++ [n].
(** dp/rule/count.py:406-417, one pair; the accumulator is (disjoint, non_disjoint) *)
Definition compare_pair (acc : list node * list node) (p : (node * list item) * (node * list item)) : list node * list node :=
  let '(dis, non) := acc in
  let '((a, am), (b, bm)) := p in
  if always_disjoint a && always_disjoint b then (add_node b (add_node a dis), non)
  else if negb (overlap am bm) then (add_node b (add_node a dis), non)
  else (dis, add_node b (add_node a non)).
(** dp/rule/count.py:390-425; the result is (disjoint, non_disjoint) *)
Definition classify (ms : list (node * list item)) : list node * list node :=
  match ms with
  | [(n, _)] => ([n], [])                                                     (* 395-397 *)
  | _ =>
    let non0 := filter never_disjoint (map fst ms) in                         (* 402-404 *)
    let '(dis, non) := fold_left compare_pair (pairs ms) ([], non0) in
    (filter (fun n => negb (in_nodes n non)) dis, non)                        (* 419-420 *)
  end.

Section Order.
  (** the iteration order of sets of courses, see Limit *)
  Variable ord : list course -> list course.
  (** the iteration order of sets of rules *)
  Variable nord : list node -> list node.

  (** dp/solve.py:26-48: the best result so far and its rank, the claims of the context
      that was used last; the exception is the one that ends the generator *)
  Fixpoint best_loop (cx : ctx) (best : option (node * Q)) (inner : option claims) (l : list node) (e : option err)
    : res (option node * option claims) :=
    match l with
    | [] => match e with
            | Some x => Err x
            | None => Ok (match best with Some (r, _) => Some r | None => None end, inner)
            end
    | s :: rest =>
      let! (r, t) := audit ord cx [] s in                                     (* 28-30 *)
      let! (q, _) := rank_of r in                                             (* 31 *)
      if inS (status_of r) WAIVED_AND_DONE then Ok (Some r, Some t)           (* 44-48 *)
      else
        let best' := match best with
                     | None => Some (r, q)                                    (* 34-37 *)
                     | Some (b, bq) => if Qle_bool q bq then Some (b, bq) else Some (r, q) (* 39-42 *)
                     end in
        best_loop cx best' (Some t) rest e
    end.
  (** dp/solve.py:15-55 find_best_solution, with the claims of the caller's context before
      and after. The candidates are generated on fresh claims, which [solutions] does not
      look at. *)
  Definition find_best_solution (cx : ctx) (t : claims) (n : node) (merge : bool) : res (option node * claims) :=
    let g := solutions ord cx n in
    let! (best, inner) := best_loop cx None None (g_items g) (g_exn g) in
    if merge then
      match inner with
      | Some it => Ok (best, merged t it)                                     (* 50-51 *)
      | None => Err UnboundErr                                                (* inner_ctx was never assigned *)
      end
    else Ok (best, t).

  (** dp/rule/count.py:427-462 solve_independent_children *)
  Fixpoint solve_independent (cx : ctx) (t : claims) (l : list node) : res (list (node * option node) * claims) :=
    match l with
    | [] => Ok ([], t)
    | c :: rest =>
      let! (r, t1) := find_best_solution cx t c true in
      let! (rs, t2) := solve_independent cx t1 rest in
      Ok ((c, r) :: rs, t2)
    end.
  Definition solved_results (l : list (node * option node)) : list node :=
    flat_map (fun p => match snd p with Some r => [r] | None => [] end) l.
  Definition solved_rules (l : list (node * option node)) : list node :=
    flat_map (fun p => match snd p with Some _ => [fst p] | None => [] end) l.

  (** dp/rule/count.py:227-299 solutions with depth=1, with the claims of the context once
      the first solution is asked for *)
  Definition top_count_solutions (cx : ctx) (t : claims) (i : count_info) (items : list node) : gen node * claims :=
    if waived cx (n_path i) then (gret [count_solution i items true], t)
    else match potential_children cx (map (fun c => (c, solutions ord cx c)) items) with
    | Err e => (gfail e, t)
    | Ok pot =>
      let len := Z.of_nat (List.length items) in
      match pot, n_audits i with
      | _ :: _, [] =>                                                         (* 244-255 *)
        let found :=
          let! ms := mapr (fun n => let! m := matches_of cx n in Ok (n, m)) (nord (map fst pot)) in
          let '(dis, non) := classify ms in
          let! (solved, t') := solve_independent cx t (nord dis) in
          Ok (non, solved, t') in
        match found with
        | Err e => (gfail e, t)
        | Ok (non, solved, t') =>
          let results := sort_by_path path_of (solved_results solved) in
          let left := filter (fun c => in_nodes (fst c) non) pot in
          (count_run i len (sort_by_path child_path left) results
             (filter (fun n => negb (in_nodes n (solved_rules solved))) (children_set items)), t')
        end
      | _, _ => (count_run i len (sort_by_path child_path pot) [] (children_set items), t)
      end
    end.
  (** solutions with depth=1: only conditionals pass the depth on (rule/conditional.py:95-103) *)
  Fixpoint top_solutions (cx : ctx) (t : claims) (n : node) : gen node * claims :=
    match n with
    | NCount _ i items => top_count_solutions cx t i items
    | NCond _ i b f =>
      match e_result (d_cond i), f with
      | Some true, _ => let '(g, t') := top_solutions cx t b in (gmap (fun s => NCond KSol i s f) g, t')
      | Some false, Some x => let '(g, t') := top_solutions cx t x in (gmap (fun s => NCond KSol i b (Some s)) g, t')
      | _, _ => (gnil, t)
      end
    | _ => (solutions ord cx n, t)
    end.
End Order.
