(** Common vocabulary of the model: python exceptions as values, generators as
    finite traces, [itertools.combinations] and [sorted]. *)
From Coq Require Import List ZArith Bool String Arith.
Import ListNotations.

(** The python exceptions the modelled code can raise. *)
Inductive err :=
| TypeErr        (* TypeError *)
| ValueErr       (* ValueError *)
| KeyErr         (* KeyError *)
| IndexErr       (* IndexError *)
| AssertErr      (* AssertionError *)
| RuntimeErr     (* RuntimeError, in particular StopIteration inside a generator, PEP 479 *)
| UnboundErr     (* UnboundLocalError *)
| ZeroDivErr     (* ZeroDivisionError / decimal.DivisionByZero *)
| MissingClbid   (* dp/context.py:22 MissingClassLabIdException *)
| OtherErr.      (* plain Exception *)

(** A python call that returns a value or raises. *)
Inductive res (A : Type) :=
| Ok (a : A)
| Err (e : err).
Arguments Ok {A} a.
Arguments Err {A} e.

Definition bind {A B} (x : res A) (f : A -> res B) : res B :=
  match x with
  | Ok a => f a
  | Err e => Err e
  end.

Declare Scope res_scope.
Notation "'let!' x ':=' e 'in' k" := (bind e (fun x => k))
  (at level 200, x pattern, right associativity) : res_scope.
Open Scope res_scope.

(** Left-to-right evaluation of a list of calls (a python tuple comprehension);
    the first exception wins. *)
Section Mapr.
  Context {A B : Type} (f : A -> res B).
  Fixpoint mapr (l : list A) : res (list B) :=
    match l with
    | [] => Ok []
    | x :: t => let! y := f x in let! ys := mapr t in Ok (y :: ys)
    end.
End Mapr.

(** A finished run of a python generator: the items yielded, then either normal
    exhaustion ([None]) or an exception. All generators of the modelled code are finite. *)
Record gen (A : Type) := Gen { g_items : list A; g_exn : option err }.
Arguments Gen {A} g_items g_exn.
Arguments g_items {A} _.
Arguments g_exn {A} _.

Definition gnil {A} : gen A := Gen [] None.
Definition gret {A} (l : list A) : gen A := Gen l None.
Definition gfail {A} (e : err) : gen A := Gen [] (Some e).

(** [yield from a; yield from b] *)
Definition gapp {A} (a b : gen A) : gen A :=
  match g_exn a with
  | Some e => a
  | None => Gen (g_items a ++ g_items b) (g_exn b)
  end.

Definition gmap {A B} (f : A -> B) (g : gen A) : gen B :=
  Gen (map f (g_items g)) (g_exn g).

(** [for x in g: yield from f(x)] *)
Fixpoint gflat_list {A B} (f : A -> gen B) (l : list A) (last : option err) : gen B :=
  match l with
  | [] => Gen [] last
  | x :: t => gapp (f x) (gflat_list f t last)
  end.
Definition gflat {A B} (f : A -> gen B) (g : gen A) : gen B :=
  gflat_list f (g_items g) (g_exn g).

(** [itertools.combinations(l, k)]: all length-[k] subsequences in positional
    lexicographic order. *)
Fixpoint combs {A} (k : nat) (l : list A) : list (list A) :=
  match k with
  | O => [[]]
  | S k' =>
    match l with
    | [] => []
    | x :: t => map (cons x) (combs k' t) ++ combs k t
    end
  end.

(** [range(a, b)] over naturals *)
Definition nrange (a b : nat) : list nat := seq a (b - a).

(** [range(a, b)] over integers *)
Definition zrange (a b : Z) : list Z :=
  map (fun i => (a + Z.of_nat i)%Z) (seq 0 (Z.to_nat (b - a))).

(** [sorted(l, key=...)] / [sorted(l, key=cmp_to_key(...))]: stable; [leb x y] is
    "y does not sort strictly before x". For a comparison that is a total preorder
    every stable sort gives the same list; for others timsort and this insertion
    sort may differ (stated where it matters). *)
Fixpoint insert {A} (leb : A -> A -> bool) (x : A) (l : list A) : list A :=
  match l with
  | [] => [x]
  | y :: t => if leb x y then x :: l else y :: insert leb x t
  end.
Definition isort {A} (leb : A -> A -> bool) (l : list A) : list A :=
  fold_right (insert leb) [] l.

(** [set(l)] / [frozenset(l)] as a list: first occurrences. Python's iteration order
    of a set is unspecified; where it can be observed the theorems quantify over
    permutations. *)
Fixpoint dedup {A} (eqb : A -> A -> bool) (l : list A) : list A :=
  match l with
  | [] => []
  | x :: t => x :: filter (fun y => negb (eqb x y)) (dedup eqb t)
  end.

Definition memb {A} (eqb : A -> A -> bool) (x : A) (l : list A) : bool :=
  existsb (eqb x) l.

Section ListEqb.
  Context {A : Type} (eqb : A -> A -> bool).
  Fixpoint list_eqb (a b : list A) : bool :=
    match a, b with
    | [], [] => true
    | x :: a', y :: b' => eqb x y && list_eqb a' b'
    | _, _ => false
    end.
End ListEqb.

(** requirement paths: tuples of strings *)
Definition path := list string.
Definition path_eqb : path -> path -> bool := list_eqb String.eqb.
