(** What auditing an area means. *)
From Coq Require Import List ZArith QArith Bool String Sorted Permutation.
From Verif Require Import Prelude Dec Status Course Claims Exceptions Op Context CondExpr Paths Predicate Limit Assertion Query CourseRule Tree Solve Transcript Driver Area.
From Verif Require Import QuerySpec.
Import ListNotations.
Local Open Scope list_scope.

(** the solutions found for one limited transcript: the first one sees the claims of the
    children solved on their own, the others none *)
Definition for_transcript (ord : list course -> list course) (nord : list node -> list node) (u : study) (st : student) (es : list exc)
    (before : claims) (lt : list course) (zs : list area_solution) (after : claims) : Prop :=
  let cx := limited_ctx u st es lt in
  let g := fst (top_solutions ord nord cx [] (u_result u)) in
  let t1 := snd (top_solutions ord nord cx before (u_result u)) in
  g_exn g = None /\ map z_sol zs = g_items g /\ Forall (fun z => z_ctx z = cx) zs /\
  match zs with
  | [] => after = t1
  | z :: rest => z_claims z = t1 /\ Forall (fun z => z_claims z = []) rest /\ after = []
  end.
Inductive for_transcripts ord nord u st es : claims -> list (list course) -> list area_solution -> Prop :=
| ft_nil t : for_transcripts ord nord u st es t [] []
| ft_cons t lt lts zs t' rest : for_transcript ord nord u st es t lt zs t' -> for_transcripts ord nord u st es t' lts rest ->
    for_transcripts ord nord u st es t (lt :: lts) (zs ++ rest).

(** how often the next solution was asked for *)
Fixpoint asked (l : list action) : nat :=
  match l with [] => 0 | ANext :: t => S (asked t) | AAudit _ _ :: t => asked t end.

(** the successful claims of class [k], in the order of the tree *)
Definition claims_on (v : area_result) (k : string) : list claim :=
  filter (fun cl => negb (cl_failed cl) && String.eqb (c_clbid (cl_course cl)) k) (claims_of (v_result v)).

(** the key by which claims are listed: a tuple of strings and a number *)
Inductive key := KS (s : string) | KZ (z : Z).
Definition listing_key (cl : claim) : list key :=
  let c := cl_course cl in
  [KS (c_subject c); KS (c_number c); KS (match c_section c with Some s => s | None => ""%string end);
   KS (sub_type_value (c_sub_type c)); KZ (c_year c); KS (c_term c)].
Definition key_lt (a b : key) : Prop :=
  match a, b with KS s, KS t => String.compare s t = Lt | KZ m, KZ n => (m < n)%Z | _, _ => False end.
(** tuples: the first difference decides *)
Inductive tuple_lt : list key -> list key -> Prop :=
| tl_here x y l m : key_lt x y -> tuple_lt (x :: l) (y :: m)
| tl_there x l m : tuple_lt l m -> tuple_lt (x :: l) (x :: m).
(** [out] is [l] sorted by the key, keeping the order of claims with equal keys *)
Definition sorted_claims (l out : list claim) : Prop :=
  Permutation out l /\ StronglySorted (fun a b => ~ tuple_lt (listing_key b) (listing_key a)) out /\
  forall p : list key -> bool, (forall a b, p a = true -> p b = true -> a = b) ->
    filter (fun cl => p (listing_key cl)) out = filter (fun cl => p (listing_key cl)) l.
(** the distinct members of a list, in the order of their first occurrences *)
Inductive firsts : list string -> list string -> Prop :=
| fs_nil : firsts [] []
| fs_new x l l' : firsts l l' -> ~ In x l -> firsts (l ++ [x]) (l' ++ [x])
| fs_old x l l' : firsts l l' -> In x l -> firsts (l ++ [x]) l'.
