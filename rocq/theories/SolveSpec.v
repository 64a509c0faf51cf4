(** What the best solution of a rule is, and which children may be solved on their own. *)
From Coq Require Import List ZArith QArith Bool String Sorted Permutation.
From Verif Require Import Prelude Dec Status Course Claims Exceptions Op Context CondExpr Paths Predicate Assertion Query CourseRule Tree.
From Verif Require Import ListFacts LimitSpec ClaimsSpec AssertionSpec PathsSpec QuerySpec CourseRuleSpec TreeSpec TreeSolSpec.
Import ListNotations.
Local Open Scope list_scope.

Section Best.
  Context (ord : list course -> list course) (cx : ctx).
  (** audited on its own, the candidate gives the result [r] of rank [q] and leaves the claims [t] *)
  Definition candidate (s r : node) (q : Q) (t : claims) : Prop :=
    audit ord cx [] s = Ok (r, t) /\ exists m, rank_of r = Ok (q, m).
  Definition unfinished (s : node) : Prop := exists r q t, candidate s r q t /\ ~ complete (status_of r).
  Definition breaks (s : node) (e : err) : Prop :=
    audit ord cx [] s = Err e \/ exists r t, audit ord cx [] s = Ok (r, t) /\ rank_of r = Err e.
  (** what is selected from the candidates: the result, the claims it made when audited on
      its own, and the claims of the candidate looked at last *)
  Inductive selected (g : gen node) : node -> claims -> claims -> Prop :=
  | sel_complete pre s post r q t : g_items g = pre ++ s :: post -> Forall unfinished pre ->
      candidate s r q t -> complete (status_of r) -> selected g r t t
  | sel_rank pre s post r q t all z zr zq zt : g_exn g = None -> g_items g = pre ++ s :: post ->
      Forall unfinished (g_items g) -> candidate s r q t ->
      (forall s' r' q' t', In s' pre -> candidate s' r' q' t' -> (q' < q)%Q) ->
      (forall s' r' q' t', In s' post -> candidate s' r' q' t' -> (q' <= q)%Q) ->
      g_items g = all ++ [z] -> candidate z zr zq zt -> selected g r t zt.
  (** an exception reaches the caller *)
  Inductive raised (g : gen node) : err -> Prop :=
  | ra_candidate pre s post e : g_items g = pre ++ s :: post -> Forall unfinished pre -> breaks s e -> raised g e
  | ra_generator e : g_exn g = Some e -> Forall unfinished (g_items g) -> raised g e.
End Best.

(** ** Children that compete for courses *)
Definition shares (cx : ctx) (a b : node) : Prop :=
  exists am bm x, matches_of cx a = Ok am /\ matches_of cx b = Ok bm /\ In x am /\ In x bm.
(** they may not be solved apart: some item could be used by both, and they are not both
    declared to be disjoint *)
Definition competes (cx : ctx) (a b : node) : Prop :=
  shares cx a b /\ ~ (always_disjoint a = true /\ always_disjoint b = true).
Definition usable (cx : ctx) (items : list node) (c : node) : Prop := In c items /\ potential cx c = Ok true.
Definition independent (cx : ctx) (items : list node) (c : node) : Prop :=
  usable cx items c /\
  ((forall d, usable cx items d -> d = c) \/
   (never_disjoint c = false /\ forall d, usable cx items d -> d <> c -> ~ competes cx c d)).

Section Top.
  Context (ord : list course -> list course) (cx : ctx).
  (** what stands for the child [c] in a solution at the top: its best result if it is
      independent, one of its solutions if it was chosen, itself otherwise *)
  Definition top_stands (items chosen : list node) (c c' : node) : Prop :=
    (independent cx items c /\ exists t z, selected ord cx (solutions ord cx c) c' t z) \/
    (~ independent cx items c /\ In c chosen /\ In c' (g_items (solutions ord cx c))) \/
    (~ independent cx items c /\ ~ In c chosen /\ c' = c).
  Definition top_choice (i : count_info) (items : list node) (s : node) : Prop :=
    exists chosen out n l,
      NoDup chosen /\ (forall c, In c chosen -> usable cx items c /\ ~ independent cx items c) /\
      tally (fun c => potential cx c = Ok true /\ ~ independent cx items c) items n /\
      fits (n_count i) (n_at_most i) n (List.length chosen) /\
      Forall2 (top_stands items chosen) items l /\ Permutation l out /\
      StronglySorted (fun a b => before (path_of a) (path_of b)) out /\
      s = NCount KSol (mkCount (n_path i) false (n_count i) (n_at_most i) (n_audits i)) out.
End Top.

(** ** What a rule may claim *)
(** every course a course rule may claim is among its matches: the rule is not a from_claimed
    one, and inserted courses are on the transcript *)
Definition plain_course (cx : ctx) (l : list exc) (r : crule) : Prop :=
  r_from_claimed r = false /\
  forall x k f, In x l -> ex_path x = r_path r -> ex_act x = AInsert k f -> exists c, find_by_clbid cx k = Some c.
Definition plain_query (q : query) : Prop := coherent (q_limit q) /\ (q_source q = QClaimed -> q_record q = false).
Definition plain_rule (cx : ctx) (l : list exc) (n : node) : Prop :=
  (forall r, ((exists k, part_of n (NCourse k r)) \/ (exists k i k', part_of n (NProf k i (Some (k', r))))) -> plain_course cx l r) /\
  (forall k q, part_of n (NQuery k q) -> plain_query q).

(** ** Tables laid over one another *)
(** for each class the claims of [inner] if there are any, else those of [base] *)
Definition overlays (base inner out : claims) : Prop :=
  forall k, (claimed inner k -> recorded out k = recorded inner k) /\ (~ claimed inner k -> recorded out k = recorded base k).
Inductive overlaid : claims -> list claims -> claims -> Prop :=
| ov_nil t : overlaid t [] t
| ov_cons t z m zs t' : overlays t z m -> overlaid m zs t' -> overlaid t (z :: zs) t'.
(** the declaration [b] stands at the rule: at a requirement ("disjoint: b"), or at what it
    asks for *)
Inductive declares (b : bool) : node -> Prop :=
| de_here k i o : e_disjoint i = Some b -> declares b (NReq k i o)
| de_below k i x : declares b x -> declares b (NReq k i (Some x)).
(** a query below nothing but requirements *)
Inductive query_below (q : query) : node -> Prop :=
| qb_here : query_below q (NQuery KRule q)
| qb_below k i x : query_below q x -> query_below q (NReq k i (Some x)).
