(** dp/op.py, with the python values it is applied to. *)
From Coq Require Import List ZArith QArith Bool String.
From Verif Require Import Prelude Dec Course.
Import ListNotations.
Local Open Scope string_scope.

(** The scalar values that reach apply_operator: fields of courses, areas and music slips
    on the left, loaded expectations (predicate_clause.py:351-380) on the right. *)
Inductive scalar :=
| SNone
| SBool (b : bool)
| SInt (z : Z)
| SDec (d : dec)
| SStr (s : string)
| SGrade (g : grade_code)
| SOpt (o : grade_option).

(** A value is a scalar or a flat tuple (right-hand tuples are flattened by
    predicate_clause.py:371-372; the only tuple fields on the left hold strings). *)
Inductive value := VS (s : scalar) | VT (l : list scalar).

(** dp/op.py:9-17 *)
Inductive operator := OLt | OLte | OGt | OGte | OEq | ONeq | OIn | ONin.

(** member name of a GradeCode *)
Definition grade_name (g : grade_code) : string :=
  match g with
  | GA => "A" | GAplus => "A_plus" | GAminus => "A_minus"
  | GB => "B" | GBplus => "B_plus" | GBminus => "B_minus"
  | GC => "C" | GCplus => "C_plus" | GCminus => "C_minus"
  | GD => "D" | GDplus => "D_plus" | GDminus => "D_minus" | GF => "F"
  | G_BC => "_BC" | G_AB => "_AB" | G_NG => "_NG" | G_IP => "_IP" | G_I => "_I"
  | G_P => "_P" | G_N => "_N" | G_S => "_S" | G_U => "_U" | G_AU => "_AU"
  | G_UA => "_UA" | G_WF => "_WF" | G_WP => "_WP" | G_W => "_W" | G_REG => "_REG"
  end.
Definition option_name (o : grade_option) : string :=
  match o with
  | GoAudit => "Audit" | GoGrade => "Grade" | GoNoGrade => "NoGrade" | GoPN => "PN" | GoSU => "SU"
  end.

(** [str(x)] *)
Definition py_str (s : scalar) : string :=
  match s with
  | SNone => "None"
  | SBool true => "True"
  | SBool false => "False"
  | SInt z => str_of_Z z
  | SDec d => str_of_dec d
  | SStr s => s
  | SGrade g => "GradeCode." ++ grade_name g
  | SOpt o => "GradeOption." ++ option_name o
  end.

(** bool, int and Decimal compare as numbers *)
Definition num (s : scalar) : option Q :=
  match s with
  | SBool true => Some 1%Q
  | SBool false => Some 0%Q
  | SInt z => Some (inject_Z z)
  | SDec d => Some (dval d)
  | _ => None
  end.

(** dp/data/course_enums.py:145-175 grade_code_ordering, as positions *)
Definition grade_rank (g : grade_code) : Z :=
  (match g with
   | G_BC => 0 | G_AB => 1 | G_NG => 2 | G_IP => 3 | G_I => 4 | G_P => 5 | G_N => 6
   | G_S => 7 | G_U => 8 | G_AU => 9 | G_UA => 10 | G_WF => 11 | G_WP => 12 | G_W => 13
   | G_REG => 14
   | GF => 15 | GDminus => 16 | GD => 17 | GDplus => 18 | GCminus => 19 | GC => 20
   | GCplus => 21 | GBminus => 22 | GB => 23 | GBplus => 24 | GAminus => 25 | GA => 26
   | GAplus => 27
   end)%Z.

Definition grade_eqb (a b : grade_code) : bool := if grade_code_eq_dec a b then true else false.
Definition opt_eqb (a b : grade_option) : bool := if grade_option_eq_dec a b then true else false.

(** [a == b] *)
Definition py_eq (a b : scalar) : bool :=
  match a, b with
  | SNone, SNone => true
  | SStr x, SStr y => String.eqb x y
  | SGrade x, SGrade y => grade_eqb x y
  | SOpt x, SOpt y => opt_eqb x y
  | _, _ => match num a, num b with
            | Some x, Some y => Qeqb x y
            | _, _ => false
            end
  end.

(** three-way comparison behind [<], [<=], [>], [>=]; TypeError when python has none
    (the ordering methods of GradeCode are dp/data/course_enums.py:120-142) *)
Definition py_cmp (a b : scalar) : res comparison :=
  match a, b with
  | SStr x, SStr y => Ok (String.compare x y)
  | SGrade x, SGrade y => Ok (grade_rank x ?= grade_rank y)%Z
  | _, _ => match num a, num b with
            | Some x, Some y => Ok (Qcompare x y)
            | _, _ => Err TypeErr
            end
  end.

Definition is_str (s : scalar) : bool := match s with SStr _ => true | _ => false end.
Definition is_none (s : scalar) : bool := match s with SNone => true | _ => false end.

(** dp/op.py:64-65, on scalars *)
Definition none_mismatch (a b : scalar) : bool := (is_none a || is_none b) && negb (py_eq a b).

(** dp/op.py:73-110: both operands scalars *)
Definition op_scalar (op : operator) (l r : scalar) : res bool :=
  if none_mismatch l r then Ok false else
  let r' := if is_str l && negb (is_str r) then SStr (py_str r) else r in     (* 73-74 *)
  let l' := if negb (is_str l) && is_str r' then SStr (py_str l) else l in    (* 75-76 *)
  match op with
  | OEq => Ok (py_eq l' r')
  | ONeq => Ok (negb (py_eq l' r'))
  | OLt => let! c := py_cmp l' r' in Ok (match c with Lt => true | _ => false end)
  | OLte => let! c := py_cmp l' r' in Ok (match c with Gt => false | _ => true end)
  | OGt => let! c := py_cmp l' r' in Ok (match c with Gt => true | _ => false end)
  | OGte => let! c := py_cmp l' r' in Ok (match c with Lt => false | _ => true end)
  | OIn | ONin => Err TypeErr                                                 (* 110 *)
  end.

(** [any(...)] / [all(...)] over a generator: stops at the first hit, exceptions escape *)
Section AnyAll.
  Context {A : Type} (f : A -> res bool).
  Fixpoint any_res (l : list A) : res bool :=
    match l with
    | [] => Ok false
    | x :: t => let! b := f x in if b then Ok true else any_res t
    end.
  Fixpoint all_res (l : list A) : res bool :=
    match l with
    | [] => Ok true
    | x :: t => let! b := f x in if b then all_res t else Ok false
    end.
End AnyAll.

(** dp/op.py:113-128 apply_operator__tuples *)
Definition op_tuples (op : operator) (l r : list scalar) : res bool :=
  match op with
  | OIn =>
    match l, r with
    | [], _ => Ok false
    | _, [] => Ok false
    | _, _ => Ok (existsb (fun x => existsb (String.eqb (py_str x)) (map py_str r)) l)
    end
  | _ => Err OtherErr
  end.

(** dp/op.py:131-177 apply_operator__half_tuple, left operand a tuple. A None on the right
    never gets here: apply_operator answers False first (line 64). *)
Definition op_half_l (op : operator) (l : list scalar) (r : scalar) : res bool :=
  match op with
  | OEq =>
    match l with
    | [x] => op_scalar OEq x r
    | [] => Ok false
    | _ => any_res (fun v => op_scalar OEq v r) l
    end
  | ONeq => all_res (fun v => op_scalar ONeq v r) l
  | OIn => any_res (fun v => op_scalar OEq v r) l
  | ONin => all_res (fun v => op_scalar ONeq v r) l
  | _ => Err OtherErr
  end.

(** the same, right operand a tuple *)
Definition op_half_r (op : operator) (l : scalar) (r : list scalar) : res bool :=
  match op with
  | OEq =>
    match r with
    | [x] => op_scalar OEq l x
    | [] => Ok false
    | _ => any_res (fun v => op_scalar OEq l v) r
    end
  | ONeq => all_res (fun v => op_scalar ONeq l v) r
  | OIn => any_res (fun v => op_scalar OEq l v) r
  | ONin => all_res (fun v => op_scalar ONeq l v) r
  | _ => Err OtherErr
  end.

(** dp/op.py:37-110 apply_operator, without its memo table (see OpMemo) *)
Definition apply_operator (op : operator) (l r : value) : res bool :=
  match l, r with
  | VS a, VS b => op_scalar op a b
  | VS a, VT b => if is_none a then Ok false else op_half_r op a b
  | VT a, VS b => if is_none b then Ok false else op_half_l op a b
  | VT a, VT b => op_tuples op a b
  end.
