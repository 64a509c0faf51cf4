(** What the data of a limit says, apart from the loader. *)
From Coq Require Import List Bool Arith ZArith QArith String Ascii.
From Verif Require Import Prelude Dec Course Op Context CondExpr Predicate Limit LabelSpec StudentLoad StudentSpec LimitLoad.
Import Limit.
Import ListNotations.
Local Open Scope string_scope.

(** ** Texts *)
Definition sign_text (negative : bool) : string := if negative then "-" else "".
Definition signed (negative : bool) (z : Z) : Z := if negative then (- z)%Z else z.
(** digits, perhaps with a point before some of them *)
Inductive decimal_text : string -> dec -> Prop :=
| dt_whole neg ds : ds <> "" -> all_in numerals ds -> decimal_text (sign_text neg ++ ds) (mkDec (signed neg (year_number ds)) 0)
| dt_point neg a b : b <> "" -> all_in numerals a -> all_in numerals b ->
    decimal_text (sign_text neg ++ a ++ "." ++ b) (mkDec (signed neg (year_number (a ++ b))) (- Z.of_nat (String.length b))).
Definition no_blank (s : string) : Prop := forall c, In c (list_ascii_of_string s) -> ~ In c blanks.
Definition two_words (s n u : string) : Prop :=
  exists a b c, s = a ++ n ++ b ++ u ++ c /\ all_in blanks a /\ all_in blanks b /\ all_in blanks c /\ b <> "" /\
    n <> "" /\ u <> "" /\ no_blank n /\ no_blank u.

(** ** Amounts *)
Inductive unit_of : string -> at_most_what -> Prop :=
| un_1 : unit_of "course" Courses | un_2 : unit_of "courses" Courses | un_3 : unit_of "credit" Credits | un_4 : unit_of "credits" Credits.
(** without the fraction *)
Definition toward_zero (q : Q) (z : Z) : Prop :=
  (0 <= q -> inject_Z z <= q /\ q < inject_Z (z + 1))%Q /\ (q < 0 -> inject_Z (z - 1) < q /\ q <= inject_Z z)%Q.
Inductive amount_of : lval -> dec -> at_most_what -> Prop :=
| ao_int z : amount_of (LInt z) (mkDec z 0) Courses
| ao_true : amount_of (LBool true) (mkDec 1 0) Courses
| ao_false : amount_of (LBool false) (mkDec 0 0) Courses
| ao_float d z : toward_zero (dval d) z -> amount_of (LFloat d) (mkDec z 0) Courses
| ao_text s t z : trimmed s t -> numeral_text t z -> amount_of (LStr s) (mkDec z 0) Courses
| ao_words s n u d what : two_words s n u -> decimal_text n d -> unit_of u what -> amount_of (LStr s) d what.

(** ** Limits *)
(** the first spelling of the key that is there *)
Inductive given (r : raw_limit) : lval -> Prop :=
| gv_spaced v : rl_spaced r = Some v -> given r v
| gv_dashed v : rl_spaced r = None -> rl_dashed r = Some v -> given r v
| gv_underscored v : rl_spaced r = None -> rl_dashed r = None -> rl_underscored r = Some v -> given r v.
(** the values written in a clause, in order *)
Inductive written_in : wdata -> list value -> Prop :=
| wi_and l vs : Forall2 written_in l vs -> written_in (WAnd l) (List.concat vs)
| wi_or l vs : Forall2 written_in l vs -> written_in (WOr l) (List.concat vs)
| wi_not w vs : written_in w vs -> written_in (WNot w) vs
| wi_if c t vs : written_in t vs -> written_in (WIf c t None) vs
| wi_else c t e vs us : written_in t vs -> written_in e us -> written_in (WIf c t (Some e)) (vs ++ us)
| wi_keys l vs : Forall2 (fun kd v => v = map snd (cd_ops (snd kd))) l vs -> written_in (WKeys l) (List.concat vs).
Record limit_of (cx : ctx) (c : constants) (r : raw_limit) (l : loaded_limit) : Prop := {
  lo_amount : exists v, given r v /\ v <> LNull /\ amount_of v (ll_at_most l) (ll_what l);
  lo_keys : rl_extra r = false;
  lo_where : exists w, rl_where r = Some w /\ load_predicate cx c DtCourse w = Ok (ll_where l) /\ written_in w (ll_original l);
  lo_message : ll_message l = rl_message r }.

(** ** Limits that count together *)
Inductive same_value : value -> value -> Prop :=
| sv_one x y : py_eq x y = true -> same_value (VS x) (VS y)
| sv_many l m : Forall2 (fun x y => py_eq x y = true) l m -> same_value (VT l) (VT m).
Inductive same_opt {A} (P : A -> A -> Prop) : option A -> option A -> Prop :=
| so_none : same_opt P None None
| so_some x y : P x y -> same_opt P (Some x) (Some y).
Record same_leaf (a b : leaf) : Prop := {
  sl_key : l_key a = l_key b; sl_op : l_op a = l_op b; sl_expected : same_value (l_expected a) (l_expected b);
  sl_covid : same_opt same_value (l_covid a) (l_covid b) }.
Inductive same_pred : pred -> pred -> Prop :=
| sp_and l m : Forall2 same_pred l m -> same_pred (PAnd l) (PAnd m)
| sp_or l m : Forall2 same_pred l m -> same_pred (POr l) (POr m)
| sp_not p q : same_pred p q -> same_pred (PNot p) (PNot q)
| sp_if c t u : same_pred t u -> same_pred (PIf c t None) (PIf c u None)
| sp_else c t u e f : same_pred t u -> same_pred e f -> same_pred (PIf c t (Some e)) (PIf c u (Some f))
| sp_leaf a b : same_leaf a b -> same_pred (PLeaf a) (PLeaf b).
Record same_key (a b : loaded_limit) : Prop := {
  sk_amount : (dval (ll_at_most a) == dval (ll_at_most b))%Q; sk_what : ll_what a = ll_what b;
  sk_where : same_pred (ll_where a) (ll_where b); sk_original : Forall2 same_value (ll_original a) (ll_original b);
  sk_message : ll_message a = ll_message b }.
(** the limit as a key: the place of the first one that is the same *)
Definition key_of (all : list loaded_limit) (x : loaded_limit) (k : nat) : Prop :=
  (exists y, nth_error all k = Some y /\ same_key y x) /\ forall j y, (j < k)%nat -> nth_error all j = Some y -> ~ same_key y x.
Record stands_for_limit (all : list loaded_limit) (x : loaded_limit) (l : limit) : Prop := {
  sf_id : key_of all x (lm_id l); sf_amount : lm_at_most l = ll_at_most x; sf_what : lm_what l = ll_what x; sf_where : lm_where l = ll_where x }.
Definition limits_of (cx : ctx) (c : constants) (data : option (list raw_limit)) (ls : list limit) : Prop :=
  match data with
  | None => ls = []
  | Some raws => exists all, Forall2 (limit_of cx c) raws all /\ Forall2 (stands_for_limit all) all ls
  end.

(** ** Limits that cannot be read *)
Definition amount_given (r : raw_limit) (v : lval) : Prop := given r v /\ v <> LNull.
(** the first of these that applies is what is raised *)
Inductive limit_refused (cx : ctx) (c : constants) (r : raw_limit) : err -> Prop :=
| lr_amount : (forall v, ~ amount_given r v) -> limit_refused cx c r OtherErr
| lr_keys v : amount_given r v -> rl_extra r = true -> limit_refused cx c r AssertErr
| lr_no_where v : amount_given r v -> rl_extra r = false -> rl_where r = None -> limit_refused cx c r KeyErr
| lr_where v w e : amount_given r v -> rl_extra r = false -> rl_where r = Some w -> load_predicate cx c DtCourse w = Err e -> limit_refused cx c r e
| lr_kind w p : amount_given r LOther -> rl_extra r = false -> rl_where r = Some w -> load_predicate cx c DtCourse w = Ok p -> limit_refused cx c r TypeErr
| lr_text s w p : amount_given r (LStr s) -> rl_extra r = false -> rl_where r = Some w -> load_predicate cx c DtCourse w = Ok p ->
    (forall d what, ~ amount_of (LStr s) d what) -> limit_refused cx c r ValueErr.
(** the first limit that cannot be read *)
Definition limits_refused (cx : ctx) (c : constants) (data : option (list raw_limit)) (e : err) : Prop :=
  exists pre r post, data = Some (pre ++ r :: post)%list /\ (forall x, In x pre -> exists l, limit_of cx c x l) /\ limit_refused cx c r e.
