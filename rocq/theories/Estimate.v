(** dp/rule/count.py:301-372, dp/area.py:227-253: the number of solutions that is announced
    before an audit starts *)
From Coq Require Import List Bool Arith ZArith String.
From Verif Require Import Prelude Transcript Course Claims Exceptions Context CondExpr Paths Limit Query CourseRule Tree Solve Area.
Import ListNotations.
Local Open Scope string_scope.
Local Open Scope list_scope.
Local Open Scope Z_scope.

(** dp/ncr.py:13-14 mult *)
Definition mult (l : list Z) : Z := fold_left Z.mul l 1.
(** [' → '.join(path)] *)
Definition join_path (p : path) : string := String.concat " → " p.

(** a child with what its [estimate] gives *)
Definition guess := (node * res Z)%type.
Definition guess_path (g : guess) : path := path_of (fst g).
(** dp/rule/count.py:359-360: a dict by joined path, and the product of its values *)
Fixpoint estimates_of (d : list (string * Z)) (l : list guess) : res (list (string * Z)) :=
  match l with
  | [] => Ok d
  | (n, e) :: t => let! k := e in estimates_of (dset d (join_path (path_of n)) k) t
  end.
Definition combination_estimate (selected : list guess) : res Z :=
  let! d := estimates_of [] selected in Ok (mult (map snd d)).
(** dp/rule/count.py:355-372 count_combinations (SHOW_ESTIMATES only prints) *)
Definition count_combinations (items : list guess) (size : Z) : res Z :=
  let! ns := mapr combination_estimate (g_items (combinations items size)) in
  match g_exn (combinations items size) with
  | Some e => Err e
  | None => Ok (fold_left Z.add ns 0)
  end.
(** dp/rule/count.py:318-330 *)
Definition sizes_estimate (i : count_info) (len : Z) (items : list guess) : res Z :=
  let lo := n_count i in
  let hi := if n_at_most i then n_count i + 1 else len + 1 in
  let! ns := mapr (count_combinations items) (zrange lo hi) in
  let acc := fold_left Z.add ns 0 in
  let! acc' := if (acc =? 0) && negb (match items with [] => true | _ => false end)
               then count_combinations items (Z.of_nat (List.length items)) else Ok acc in
  Ok (if acc' =? 0 then 1 else acc').
(** dp/rule/count.py:308, the children with potential, as a set *)
Definition likely_children (cx : ctx) (cs : list guess) : res (list guess) :=
  let! l := filter_res (fun c => potential cx (fst c)) cs in
  Ok (dedup (fun a b => same_path (guess_path a) (guess_path b)) l).
(** dp/rule/count.py:301-330 estimate, with depth=None *)
Definition count_estimate (cx : ctx) (i : count_info) (items : list node) (cs : list guess) : res Z :=
  if waived cx (n_path i) then Ok 1
  else let! pot := likely_children cx cs in
       sizes_estimate i (Z.of_nat (List.length items)) (sort_by_path guess_path pot).

Section Order.
  (** iteration orders of sets, see Limit and Solve *)
  Variable ord : list course -> list course.
  Variable nord : list node -> list node.

  (** estimate with depth=None: dp/rule/course.py:183-184, dp/rule/query.py:235-256,
      dp/rule/count.py:301-330, dp/rule/requirement.py:118-125, dp/rule/conditional.py:105-111,
      dp/rule/proficiency.py:65-66 *)
  Fixpoint estimate (cx : ctx) (n : node) : res Z :=
    match n with
    | NCourse _ _ => Ok c_estimate
    | NQuery _ q => q_estimate ord cx q
    | NCount _ i items => count_estimate cx i items (map (fun c => (c, estimate cx c)) items)
    | NReq _ i result =>
      if waived cx (e_path i) then Ok 1
      else match result with None => Ok 1 | Some x => estimate cx x end
    | NCond _ i t f =>
      match e_result (d_cond i), f with
      | Some true, _ => estimate cx t
      | Some false, Some x => estimate cx x
      | _, _ => Ok 0
      end
    | NProf _ _ _ => Ok 1
    end.

  (** dp/rule/count.py:301-330 estimate with depth=1: only the children that are not solved on
      their own count *)
  Definition top_count_estimate (cx : ctx) (i : count_info) (items : list node) : res Z :=
    if waived cx (n_path i) then Ok 1
    else
      let! pot := likely_children cx (map (fun c => (c, estimate cx c)) items) in
      let len := Z.of_nat (List.length items) in
      match pot, n_audits i with
      | _ :: _, [] =>
        let! ms := mapr (fun n => let! m := matches_of cx n in Ok (n, m)) (nord (map fst pot)) in
        let '(_, non) := classify ms in
        sizes_estimate i len (sort_by_path guess_path (filter (fun c => in_nodes (fst c) non) pot))
      | _, _ => sizes_estimate i len (sort_by_path guess_path pot)
      end.
  (** estimate with depth=1; requirements drop the depth *)
  Fixpoint top_estimate (cx : ctx) (n : node) : res Z :=
    match n with
    | NCount _ i items => top_count_estimate cx i items
    | NCond _ i b f =>
      match e_result (d_cond i), f with
      | Some true, _ => top_estimate cx b
      | Some false, Some x => top_estimate cx x
      | _, _ => Ok 0
      end
    | _ => estimate cx n
    end.
  (** dp/area.py:227-253 estimate. The claims of the context play no part. *)
  Definition area_estimate (u : study) (st : student) (es : list exc) : res Z :=
    let g := transcripts ord u st es in
    let! ns := mapr (fun lt => top_estimate (limited_ctx u st es lt) (u_result u)) (g_items g) in
    match g_exn g with
    | Some e => Err e
    | None => Ok (fold_left Z.add ns 0)
    end.
End Order.
