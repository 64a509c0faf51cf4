(** Limit.load and LimitSet.load (dp/limit.py:49-78, 136-140). *)
From Coq Require Import List Bool Arith ZArith QArith String Ascii.
From Verif Require Import Prelude Dec Course Paths Op OpMemo Context CondExpr Predicate Limit Keys.
Import ListNotations.
Local Open Scope string_scope.

(** what may be given as an amount: null, a truth value, an integer, a decimal fraction, a
    text, or something else *)
Inductive lval := LNull | LBool (b : bool) | LInt (z : Z) | LFloat (d : dec) | LStr (s : string) | LOther.
(** a limit of a specification: the three spellings of the key, the clause, the message (absent
    or null), and whether there are other keys *)
Record raw_limit := mkRawLimit {
  rl_spaced : option lval; rl_dashed : option lval; rl_underscored : option lval;
  rl_where : option wdata; rl_message : option string; rl_extra : bool }.

(** [s.split()], for ASCII white space; [acc] is the word being read *)
Fixpoint words (s acc : string) : list string :=
  let flush := if acc =? "" then [] else [acc] in
  match s with
  | "" => flush
  | String c t => if white c then (flush ++ words t "")%list else words t (acc ++ String c "")
  end.
(** [int(v)]: an integer of white space and digits with or without a minus sign *)
Definition amount_int (v : lval) : res Z :=
  match v with
  | LNull | LOther => Err TypeErr
  | LBool b => Ok (if b then 1 else 0)%Z
  | LInt z => Ok z
  | LFloat d => Ok (int_of_Q (dval d))
  | LStr s => py_int (strip s)
  end.
(** dp/limit.py:64-76 *)
Definition load_amount (v : lval) : res (dec * at_most_what) :=
  match amount_int v, v with
  | Ok z, _ => Ok (mkDec z 0, Courses)
  | Err ValueErr, LStr s =>
    match words s "" with
    | [n; unit] =>
      let! d := dec_of_str n in
      if (unit =? "course") || (unit =? "courses") then Ok (d, Courses)
      else if (unit =? "credit") || (unit =? "credits") then Ok (d, Credits)
      else Err ValueErr
    | _ => Err ValueErr
    end
  | Err e, _ => Err e
  end.

(** a loaded limit; [ll_original] are the values as written, which python compares too *)
Record loaded_limit := mkLoadedLimit {
  ll_at_most : dec; ll_what : at_most_what; ll_where : pred; ll_original : list value; ll_message : option string }.
(** the values of a clause as written (dp/predicate_clause.py:362), in order *)
Fixpoint originals (w : wdata) : list value :=
  match w with
  | WAnd l | WOr l => flat_map originals l
  | WNot w => originals w
  | WIf _ t e => originals t ++ match e with Some w => originals w | None => [] end
  | WKeys l => flat_map (fun kd => map snd (cd_ops (snd kd))) l
  end%list.
(** dp/limit.py:49-78; the assertion on line 62 never fails, since a clause is never false *)
Definition load_limit (cx : ctx) (c : constants) (r : raw_limit) : res loaded_limit :=
  let at_most := get (rl_spaced r) (get (rl_dashed r) (get (rl_underscored r) LNull)) in
  match at_most with
  | LNull => Err OtherErr
  | v =>
    if rl_extra r then Err AssertErr
    else
      let! w := key (rl_where r) in
      let! p := load_predicate cx c DtCourse w in
      let! (d, what) := load_amount v in
      Ok (mkLoadedLimit d what p (originals w) (rl_message r))
  end.

(** ** Equality of loaded limits, as keys of dictionaries *)
Definition opt_same {A} (f : A -> A -> bool) (a b : option A) : bool :=
  match a, b with Some x, Some y => f x y | None, None => true | _, _ => false end.
Definition pfun_eq_dec (a b : pfun) : {a = b} + {a <> b}. Proof. decide equality. Defined.
(** attrs equality of dp/conditional_expression.py:77-173 *)
Fixpoint pexpr_eqb (a b : pexpr) : bool :=
  match a, b with
  | EAnd l r, EAnd l' r' => list_eqb pexpr_eqb l l' && opt_same Bool.eqb r r'
  | EOr l r, EOr l' r' => list_eqb pexpr_eqb l l' && opt_same Bool.eqb r r'
  | ENot e r, ENot e' r' => pexpr_eqb e e' && opt_same Bool.eqb r r'
  | EFun f x r, EFun f' x' r' => (if pfun_eq_dec f f' then true else false) && (x =? x') && opt_same Bool.eqb r r'
  | _, _ => false
  end.
(** attrs equality of dp/predicate_clause.py:108-185, except [original] *)
Definition leaf_eqb (a b : leaf) : bool :=
  (l_key a =? l_key b) && op_eqb (l_op a) (l_op b) && value_eqb (l_expected a) (l_expected b) && opt_same value_eqb (l_covid a) (l_covid b).
Fixpoint pred_eqb (a b : pred) : bool :=
  match a, b with
  | PAnd l, PAnd l' | POr l, POr l' => list_eqb pred_eqb l l'
  | PNot p, PNot p' => pred_eqb p p'
  | PIf c t e, PIf c' t' e' =>
    pexpr_eqb c c' && pred_eqb t t' && match e, e' with Some x, Some y => pred_eqb x y | None, None => true | _, _ => false end
  | PLeaf l, PLeaf l' => leaf_eqb l l'
  | _, _ => false
  end.
Definition what_eqb (a b : at_most_what) : bool := match a, b with Courses, Courses | Credits, Credits => true | _, _ => false end.
Definition limit_eqb (a b : loaded_limit) : bool :=
  Qeqb (dval (ll_at_most a)) (dval (ll_at_most b)) && what_eqb (ll_what a) (ll_what b) && pred_eqb (ll_where a) (ll_where b) &&
  list_eqb value_eqb (ll_original a) (ll_original b) && opt_same String.eqb (ll_message a) (ll_message b).
(** as a key, a limit is the first one that equals it *)
Fixpoint first_same (l : list loaded_limit) (x : loaded_limit) : nat :=
  match l with [] => 0 | y :: t => if limit_eqb y x then 0 else S (first_same t x) end.
Definition keyed (all : list loaded_limit) (x : loaded_limit) : limit := mkLimit (first_same all x) (ll_at_most x) (ll_what x) (ll_where x).
(** dp/limit.py:136-140 *)
Definition load_limits (cx : ctx) (c : constants) (data : option (list raw_limit)) : res (list limit) :=
  match data with
  | None => Ok []
  | Some l => let! ls := mapr (load_limit cx c) l in Ok (map (keyed ls) ls)
  end.
