(** What the solutions of a requirement tree are. *)
From Coq Require Import List ZArith Bool String Sorted Permutation.
From Verif Require Import Prelude Dec Status Course Claims Exceptions Op Context CondExpr Paths Assertion Query CourseRule Tree.
From Verif Require Import ListFacts AssertionSpec PathsSpec QuerySpec CourseRuleSpec TreeSpec.
Import ListNotations.
Local Open Scope list_scope.

(** Siblings have different, well-formed paths. *)
Definition siblings (items : list node) : Prop := NoDup (map path_of items) /\ Forall (fun x => wf_path (path_of x)) items.

(** [m] of [n] usable children may be solved: as many as asked for (and no more, with
    "at_most"), or all of them if there are too few *)
Definition fits (count : Z) (at_most : bool) (n m : nat) : Prop :=
  ((count <= Z.of_nat m)%Z /\ (m <= n)%nat /\ (at_most = true -> Z.of_nat m = count)) \/
  ((Z.of_nat n < count)%Z /\ m = n).

Section Order.
  Variable ord : list course -> list course.

  (** [c'] stands for the child [c]: a solution of it if it was chosen, itself otherwise *)
  Definition stands (cx : ctx) (chosen : list node) (c c' : node) : Prop :=
    (In c chosen /\ In c' (g_items (solutions ord cx c))) \/ (~ In c chosen /\ c' = c).
  (** [out] has one node for each child, in the order of the paths *)
  Definition lists_each (cx : ctx) (chosen items out : list node) : Prop :=
    exists l, Forall2 (stands cx chosen) items l /\ Permutation l out /\
              StronglySorted (fun a b => before (path_of a) (path_of b)) out.
  (** the solutions of a count rule that is not waived *)
  Definition count_choice (cx : ctx) (i : count_info) (items : list node) (s : node) : Prop :=
    exists chosen out n,
      NoDup chosen /\ (forall c, In c chosen -> In c items /\ potential cx c = Ok true) /\
      tally (fun c => potential cx c = Ok true) items n /\
      fits (n_count i) (n_at_most i) n (List.length chosen) /\
      lists_each cx chosen items out /\
      s = NCount KSol (mkCount (n_path i) false (n_count i) (n_at_most i) (n_audits i)) out.

  (** a solution of a tree, read off the tree *)
  Definition solution_of (cx : ctx) (l : list exc) (n s : node) : Prop :=
    match n with
    | NCourse _ r => exists x, In x (g_items (c_solutions cx r)) /\ s = NCourse KSol x
    | NQuery _ q => exists x, In x (g_items (q_solutions ord cx q)) /\ s = NQuery KSol x
    | NCount _ i items =>
      if_waived (waived_at l (n_path i))
        (s = NCount KSol (mkCount (n_path i) true (n_count i) (n_at_most i) (n_audits i)) items)
        (count_choice cx i items s)
    | NReq _ i o =>
      if_waived (waived_at l (e_path i))
        (s = NReq KSol (mkReq (e_path i) true (e_name i) (e_audited i) (e_contract i) (e_in_gpa i) (e_disjoint i)) o)
        (exists o', s = NReq KSol (mkReq (e_path i) false (e_name i) (e_audited i) (e_contract i) (e_in_gpa i) (e_disjoint i)) o' /\
           ((o = None /\ o' = None) \/ exists x y, o = Some x /\ o' = Some y /\ In y (g_items (solutions ord cx x))))
    | NCond _ i t f =>
      (e_result (d_cond i) = Some true /\ exists y, In y (g_items (solutions ord cx t)) /\ s = NCond KSol i y f) \/
      (e_result (d_cond i) = Some false /\ exists x y, f = Some x /\ In y (g_items (solutions ord cx x)) /\ s = NCond KSol i t (Some y))
    | NProf _ i c =>
      if_waived (waived_at l (f_path i))
        (s = NProf KSol (mkProfInfo (f_path i) true (f_proficiency i) Empty) c)
        (exists c', s = NProf KSol (mkProfInfo (f_path i) false (f_proficiency i) Empty) c' /\
           ((c = None /\ c' = None) \/
            exists k r x rest, c = Some (k, r) /\ c' = Some (KSol, x) /\ g_items (c_solutions cx r) = x :: rest))
    end.

  (** ** rules without a solution *)
  Inductive barren (l : list exc) : node -> Prop :=
  | ba_none k i t f : (forall x, ~ in_force i t f x) -> barren l (NCond k i t f)
  | ba_cond k i t f x : in_force i t f x -> barren l x -> barren l (NCond k i t f)
  | ba_req k i x : ~ waived_at l (e_path i) -> barren l x -> barren l (NReq k i (Some x)).

  (** ** rules whose solutions can be listed without an exception: the leaves can, every
      question about potential is answered, and a child with potential has a solution *)
  Inductive listable (cx : ctx) (l : list exc) : node -> Prop :=
  | li_course k r : g_exn (c_solutions cx r) = None -> listable cx l (NCourse k r)
  | li_query k q : g_exn (q_solutions ord cx q) = None -> listable cx l (NQuery k q)
  | li_count_waived k i items : waived_at l (n_path i) -> listable cx l (NCount k i items)
  | li_count k i items : ~ waived_at l (n_path i) -> (0 <= n_count i)%Z ->
      (forall c, In c items -> potential cx c = Ok false \/
                               (potential cx c = Ok true /\ listable cx l c /\ ~ barren l c)) ->
      listable cx l (NCount k i items)
  | li_req_waived k i o : waived_at l (e_path i) -> listable cx l (NReq k i o)
  | li_req_none k i : listable cx l (NReq k i None)
  | li_req k i x : listable cx l x -> listable cx l (NReq k i (Some x))
  | li_cond k i t f : (forall x, in_force i t f x -> listable cx l x) -> listable cx l (NCond k i t f)
  | li_prof k i c : (forall k' r, c = Some (k', r) -> g_items (c_solutions cx r) <> []) -> listable cx l (NProf k i c)
  | li_prof_waived k i c : waived_at l (f_path i) -> listable cx l (NProf k i c).
End Order.

(** ** parts of a tree *)
Inductive part_of : node -> node -> Prop :=
| pt_self n : part_of n n
| pt_count k i items x y : In x items -> part_of x y -> part_of (NCount k i items) y
| pt_req k i x y : part_of x y -> part_of (NReq k i (Some x)) y
| pt_true k i t f y : part_of t y -> part_of (NCond k i t f) y
| pt_false k i t x y : part_of x y -> part_of (NCond k i t (Some x)) y.
(** a tree of rules only *)
Definition rule_tree (n : node) : Prop := forall x, part_of n x -> kind_of x = KRule.
