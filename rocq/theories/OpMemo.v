(** The [functools.lru_cache(2048)] tables of dp/op.py:37,113,131. *)
From Coq Require Import List ZArith Bool.
From Verif Require Import Prelude Op.
Import ListNotations.

(** Cache keys are compared with python equality of the arguments: 1, True and
    Decimal('1.00') are the same key. (Keyword order is part of a real key; the model has
    the single order op, lhs, rhs, i.e. fewer separate tables, each with this behaviour.) *)
Definition key := (operator * value * value)%type.

Definition op_eqb (a b : operator) : bool :=
  match a, b with
  | OLt, OLt | OLte, OLte | OGt, OGt | OGte, OGte | OEq, OEq | ONeq, ONeq | OIn, OIn | ONin, ONin => true
  | _, _ => false
  end.
Definition value_eqb (a b : value) : bool :=
  match a, b with
  | VS x, VS y => py_eq x y
  | VT x, VT y => list_eqb py_eq x y
  | _, _ => false
  end.
Definition key_eqb (a b : key) : bool :=
  op_eqb (fst (fst a)) (fst (fst b)) && value_eqb (snd (fst a)) (snd (fst b)) && value_eqb (snd a) (snd b).

Definition table := list (key * bool).
Record memo := mkMemo { m_op : table; m_tuples : table; m_half : table }.
Definition memo_empty := mkMemo [] [] [].

(** hit: move to the front; miss: add in front and drop the least recently used entry
    beyond 2048 *)
Definition lookup (t : table) (k : key) : option bool :=
  match find (fun e => key_eqb (fst e) k) t with Some (_, b) => Some b | None => None end.
Definition remember (t : table) (k : key) (b : bool) : table :=
  firstn (2 * 1024) ((k, b) :: filter (fun e => negb (key_eqb (fst e) k)) t).

Definition st := memo -> res bool * memo.

Definition cached (get : memo -> table) (set : memo -> table -> memo) (k : key) (body : st) : st :=
  fun m =>
    match lookup (get m) k with
    | Some b => (Ok b, set m (remember (get m) k b))
    | None =>
      match body m with
      | (Ok b, m') => (Ok b, set m' (remember (get m') k b))
      | (Err e, m') => (Err e, m')               (* exceptions are not cached *)
      end
    end.

Definition set_op m t := mkMemo t (m_tuples m) (m_half m).
Definition set_tuples m t := mkMemo (m_op m) t (m_half m).
Definition set_half m t := mkMemo (m_op m) (m_tuples m) t.

Fixpoint any_m {A} (f : A -> st) (l : list A) : st :=
  match l with
  | [] => fun m => (Ok false, m)
  | x :: t => fun m => match f x m with
                       | (Ok true, m') => (Ok true, m')
                       | (Ok false, m') => any_m f t m'
                       | (Err e, m') => (Err e, m')
                       end
  end.
Fixpoint all_m {A} (f : A -> st) (l : list A) : st :=
  match l with
  | [] => fun m => (Ok true, m)
  | x :: t => fun m => match f x m with
                       | (Ok true, m') => all_m f t m'
                       | (Ok false, m') => (Ok false, m')
                       | (Err e, m') => (Err e, m')
                       end
  end.

(** apply_operator on two scalars *)
Definition scalar_m (op : operator) (a b : scalar) : st :=
  cached m_op set_op (op, VS a, VS b) (fun m => (op_scalar op a b, m)).

(** the $in / $nin branches of apply_operator__half_tuple (dp/op.py:158-174) *)
Definition half_in_body (op : operator) (l r : value) : st :=
  match op, l, r with
  | OIn, VT a, VS b => any_m (fun v => scalar_m OEq v b) a
  | OIn, VS a, VT b => any_m (fun v => scalar_m OEq a v) b
  | ONin, VT a, VS b => all_m (fun v => scalar_m ONeq v b) a
  | ONin, VS a, VT b => all_m (fun v => scalar_m ONeq a v) b
  | _, _, _ => fun m => (Err TypeErr, m)
  end.
(** apply_operator called with $in / $nin, one tuple operand, no None *)
Definition top_in_m (op : operator) (l r : value) : st :=
  cached m_op set_op (op, l, r) (cached m_half set_half (op, l, r) (half_in_body op l r)).

(** dp/op.py:131-177 apply_operator__half_tuple *)
Definition half_m (op : operator) (l r : value) : st :=
  cached m_half set_half (op, l, r)
    (match op with
     | OEq =>
       match l, r with
       | VT [x], VS b => scalar_m OEq x b
       | VT [], VS b => fun m => (Ok false, m)
       | VS a, VT [x] => scalar_m OEq a x
       | VS a, VT [] => fun m => (Ok false, m)
       | _, _ => top_in_m OIn l r
       end
     | ONeq => top_in_m ONin l r
     | OIn | ONin => half_in_body op l r
     | _ => fun m => (Err OtherErr, m)
     end).

(** dp/op.py:37-110 apply_operator with its memo tables *)
Definition apply_m (op : operator) (l r : value) : st :=
  cached m_op set_op (op, l, r)
    (match l, r with
     | VS a, VS b => fun m => (op_scalar op a b, m)
     | VS a, VT b => if is_none a then fun m => (Ok false, m) else half_m op l r
     | VT a, VS b => if is_none b then fun m => (Ok false, m) else half_m op l r
     | VT a, VT b => cached m_tuples set_tuples (op, l, r) (fun m => (op_tuples op a b, m))
     end).

(** a history of calls *)
Fixpoint run_m (m : memo) (calls : list key) : memo :=
  match calls with
  | [] => m
  | (op, l, r) :: t => run_m (snd (apply_m op l r m)) t
  end.
