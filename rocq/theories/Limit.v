(** dp/limit.py *)
From Coq Require Import List ZArith QArith Bool String.
From Verif Require Import Prelude Dec Course Op Context Predicate LazyProduct LazyRun Claims.
Import ListNotations.
Local Open Scope list_scope.

(** dp/limit.py:27-29 AtMostWhat *)
Inductive at_most_what := Courses | Credits.

(** dp/limit.py:32-37 Limit. [lm_id] stands for the limit as a dictionary key: two limits
    have the same id when python finds them equal (attrs equality of the four fields). *)
Record limit := mkLimit { lm_id : nat; lm_at_most : dec; lm_what : at_most_what; lm_where : pred }.

Definition lm_max (l : limit) : Q := dval (lm_at_most l).
(** [limit.where.apply(c)] *)
Definition lm_match (l : limit) (c : course) : res bool := apply_pred (ICourse c) (lm_where l).

(** [int(d)]: truncation towards zero *)
Definition int_of_Q (q : Q) : Z := Z.quot (Qnum q) (Zpos (Qden q)).
Definition sum_credits (l : list course) : Q := Qsum (map credits l).

(** dp/limit.py:93-98 iterate_courses *)
Definition iterate_courses (l : limit) (cs : list course) : list (list course) :=
  flat_map (fun n => combs (Z.to_nat n) cs) (zrange 0 (int_of_Q (lm_max l) + 1)).
(** dp/limit.py:100-110 iterate_credits *)
Definition iterate_credits (l : limit) (cs : list course) : list (list course) :=
  if Qleb (sum_credits cs) (lm_max l) then [cs]
  else filter (fun combo => Qleb (sum_credits combo) (lm_max l))
         (flat_map (fun n => combs n cs) (nrange 0 (List.length cs + 1))).
(** dp/limit.py:80-91 iterate; the argument is a set, hence sorted first *)
Definition iterate (l : limit) (cs : list course) : list (list course) :=
  let cs := isort course_leb cs in
  match lm_what l with
  | Courses => iterate_courses l cs
  | Credits => iterate_credits l cs
  end.

(** a dictionary keyed by limits, with sets of courses; insertion order *)
Definition limit_sets := list (limit * list course).
Definition same_limit (a b : limit) : bool := Nat.eqb (lm_id a) (lm_id b).
(** [matched_items[limit].add(c)] *)
Definition set_add (c : course) (s : list course) : list course :=
  if memb course_eqb c s then s else s ++ [c].
Fixpoint lset_add (d : limit_sets) (l : limit) (c : course) : limit_sets :=
  match d with
  | [] => [(l, [c])]
  | (l', s) :: t => if same_limit l l' then (l', set_add c s) :: t else (l', s) :: lset_add t l c
  end.

(** dp/limit.py:216-226 step 1, the inner loop *)
Fixpoint probe_courses (forced : list string) (l : limit) (cs : list course) (d : limit_sets) : res limit_sets :=
  match cs with
  | [] => Ok d
  | c :: t =>
    if existsb (String.eqb (c_clbid c)) forced then probe_courses forced l t d
    else let! b := lm_match l c in
         probe_courses forced l t (if b then lset_add d l c else d)
  end.
Fixpoint probe (forced : list string) (ls : list limit) (cs : list course) (d : limit_sets) : res limit_sets :=
  match ls with
  | [] => Ok d
  | l :: t => let! d' := probe_courses forced l cs d in probe forced t cs d'
  end.

(** [clause_counters[limit]] *)
Definition counters := list (limit * Q).
Definition count_of (d : counters) (l : limit) : Q :=
  match find (fun p => same_limit l (fst p)) d with Some (_, q) => q | None => 0 end.
Fixpoint count_set (d : counters) (l : limit) (q : Q) : counters :=
  match d with
  | [] => [(l, q)]
  | (l', q') :: t => if same_limit l l' then (l', q) :: t else (l', q') :: count_set t l q
  end.
Definition weight (l : limit) (c : course) : Q :=
  match lm_what l with Courses => 1 | Credits => credits c end.

(** dp/limit.py:166-183 check: the loop over the limits for one course; [None] is
    [return False] *)
Fixpoint check_limits (ls : list limit) (c : course) (d : counters) : res (option counters) :=
  match ls with
  | [] => Ok (Some d)
  | l :: t =>
    let! b := lm_match l c in
    if negb b then check_limits t c d
    else if Qleb (lm_max l) (count_of d l) then Ok None
    else check_limits t c (count_set d l (count_of d l + weight l c))
  end.
Fixpoint check_from (ls : list limit) (cs : list course) (d : counters) : res bool :=
  match cs with
  | [] => Ok true
  | c :: t => let! o := check_limits ls c d in
              match o with None => Ok false | Some d' => check_from ls t d' end
  end.
Definition check (ls : list limit) (cs : list course) : res bool := check_from ls cs [].

(** equality of frozensets *)
Definition set_eqb (a b : list course) : bool :=
  forallb (fun x => memb course_eqb x b) a && forallb (fun x => memb course_eqb x a) b.

(** dp/limit.py:241-259: the loop over the combinations. [ord] gives the iteration order
    of a frozenset. *)
Section Emit.
  Variable ord : list course -> list course.
  Fixpoint emit (ls : list limit) (unmatched : list course) (combos : list (list (list course)))
      (emitted : list (list course)) : gen (list course) :=
    match combos with
    | [] => gnil
    | results :: t =>
      let these := dedup course_eqb (List.concat results) in
      match check ls (ord these) with
      | Err e => gfail e
      | Ok false => emit ls unmatched t emitted
      | Ok true =>
        if existsb (set_eqb these) emitted then emit ls unmatched t emitted
        else gapp (gret [isort course_leb (unmatched ++ ord these)])
                  (emit ls unmatched t (these :: emitted))
      end
    end.

  (** dp/limit.py:185-259 limited_transcripts *)
  Definition limited_transcripts (ls : list limit) (forced_clbids : list string) (cs : list course) : gen (list course) :=
    match ls with
    | [] => gret [cs]
    | _ =>
      let all := dedup course_eqb cs in
      let forced := filter (fun k => existsb (String.eqb k) forced_clbids) (map c_clbid all) in
      match probe forced ls cs [] with
      | Err e => gfail e
      | Ok matched =>
        let all_matched := flat_map snd matched in
        let unmatched := filter (fun c => negb (memb course_eqb c all_matched)) all in
        let combos := lazy_run (map (fun p => gret (iterate (fst p) (snd p))) matched) in
        gapp (emit ls unmatched (g_items combos) [])
             (match g_exn combos with Some e => gfail e | None => gnil end)
      end
    end.
End Emit.
