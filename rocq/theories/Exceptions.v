(** dp/exception.py and the exception lookups of dp/context.py. *)
From Coq Require Import List ZArith Bool String.
From Verif Require Import Prelude Dec Status.
Import ListNotations.

(** dp/exception.py:12-20 ExceptionAction *)
Inductive exc_type := XInsert | XForceInsert | XOverride | XValue | XBlock | XCourseCredits | XCourseSubject.

(** dp/exception.py:23-83: the exception classes, without the path *)
Inductive exc_action :=
| AInsert (clbid : string) (forced : bool)
| AOverride (s : status)
| ABlock (clbid : string)
| AValue (v : dec)
| ACredits (clbid : string) (credits : dec)
| ASubject (clbid : string) (subject : string).

Record exc := mkExc { ex_path : path; ex_act : exc_action }.

(** dp/exception.py:86-91 Migration (date and comment left out) *)
Record migration := mkMig { mig_from : path; mig_to : path }.

(** The dictionary of one raw exception (dp/exception.py:108): fields that are not present
    are [None]; the texts of numbers are given as the Decimal they denote. *)
Record raw_exc := mkRaw {
  rx_type : option exc_type;          (* None: a text that is no ExceptionAction *)
  rx_path : path;
  rx_clbid : option string;
  rx_value : option dec;
  rx_credits : option dec;
  rx_subject : option string;
}.

(** [data[key]] *)
Definition field {A} (o : option A) : res A := match o with Some a => Ok a | None => Err KeyErr end.

(** dp/exception.py:112-115, one migration: [l[0:n] == from], then [l[0:n] = to] *)
Definition migrate1 (p : path) (m : migration) : path :=
  let n := List.length (mig_from m) in
  if path_eqb (firstn n p) (mig_from m) then mig_to m ++ skipn n p else p.

(** dp/exception.py:108-133 load_exception *)
Definition load_exception (ms : list migration) (r : raw_exc) : res exc :=
  match rx_type r with
  | None => Err ValueErr
  | Some ty =>
    let p := fold_left migrate1 ms (rx_path r) in
    match ty with
    | XInsert => let! c := field (rx_clbid r) in Ok (mkExc p (AInsert c false))
    | XForceInsert => let! c := field (rx_clbid r) in Ok (mkExc p (AInsert c true))
    | XOverride => Ok (mkExc p (AOverride Done))
    | XBlock => let! c := field (rx_clbid r) in Ok (mkExc p (ABlock c))
    | XValue => let! v := field (rx_value r) in Ok (mkExc p (AValue v))
    | XCourseCredits => let! c := field (rx_clbid r) in let! v := field (rx_credits r) in Ok (mkExc p (ACredits c v))
    | XCourseSubject => let! c := field (rx_clbid r) in let! s := field (rx_subject r) in Ok (mkExc p (ASubject c s))
    end
  end.

(** dp/context.py:19 ExceptionsDict: insertion ordered *)
Definition exc_dict := list (path * list exc).

Fixpoint xget (d : exc_dict) (p : path) : option (list exc) :=
  match d with
  | [] => None
  | (q, l) :: t => if path_eqb p q then Some l else xget t p
  end.
Fixpoint xadd (d : exc_dict) (e : exc) : exc_dict :=
  match d with
  | [] => [(ex_path e, [e])]
  | (q, l) :: t => if path_eqb (ex_path e) q then (q, l ++ [e]) :: t else (q, l) :: xadd t e
  end.

(** dp/context.py:26-32 group_exceptions *)
Definition group_exceptions (l : list exc) : exc_dict := fold_left xadd l [].

(** [self.exceptions.get(path, [])] *)
Definition exc_at (d : exc_dict) (p : path) : list exc :=
  match xget d p with Some l => l | None => [] end.

(** dp/context.py:138-154 has_exception_beneath, without the cache *)
Definition prefix_eqb (p q : path) : bool := path_eqb (firstn (List.length p) q) p.
Definition has_exception_beneath (d : exc_dict) (p : path) : bool :=
  (match xget d p with Some _ => true | None => false end)
  || existsb (fun e => prefix_eqb p (ex_path e)) (flat_map snd d).

(** dp/context.py:47 exceptions_path_lookup_cache *)
Definition beneath_cache := list (path * bool).
Fixpoint cget (c : beneath_cache) (p : path) : option bool :=
  match c with
  | [] => None
  | (q, b) :: t => if path_eqb p q then Some b else cget t p
  end.
(** dp/context.py:138-154 has_exception_beneath *)
Definition has_exception_beneath_cached (d : exc_dict) (c : beneath_cache) (p : path) : bool * beneath_cache :=
  match cget c p with
  | Some b => (b, c)
  | None => let b := has_exception_beneath d p in (b, c ++ [(p, b)])
  end.
Fixpoint beneath_queries (d : exc_dict) (c : beneath_cache) (ps : list path) : beneath_cache :=
  match ps with
  | [] => c
  | p :: t => beneath_queries d (snd (has_exception_beneath_cached d c p)) t
  end.

Definition is_insert (e : exc) : bool := match ex_act e with AInsert _ _ => true | _ => false end.
Definition is_override (e : exc) : bool := match ex_act e with AOverride _ => true | _ => false end.
Definition is_block (e : exc) : bool := match ex_act e with ABlock _ => true | _ => false end.
Definition is_value (e : exc) : bool := match ex_act e with AValue _ => true | _ => false end.

(** dp/context.py:156-162 get_insert_exceptions *)
Definition get_inserts (d : exc_dict) (p : path) : list exc := filter is_insert (exc_at d p).
(** dp/context.py:164-174 get_insert_exceptions_beneath *)
Definition get_inserts_beneath (d : exc_dict) (p : path) : list exc :=
  if has_exception_beneath d p
  then flat_map (fun g => if prefix_eqb p (fst g) then filter is_insert (snd g) else []) d
  else [].
(** dp/context.py:176-184 get_waive_exception *)
Definition get_waive (d : exc_dict) (p : path) : option exc := find is_override (exc_at d p).
(** dp/context.py:186-194 has_waive_exception_for_conditional_expression *)
Definition has_waive_for_expression (d : exc_dict) (key : string) : bool :=
  match find is_override (exc_at d [key]) with
  | Some e => match ex_act e with AOverride s => status_eqb s Done | _ => false end
  | None => false
  end.
(** dp/context.py:196-202 get_block_exceptions *)
Definition get_blocks (d : exc_dict) (p : path) : list exc := filter is_block (exc_at d p).
(** dp/context.py:204-212 get_value_exception *)
Definition get_value (d : exc_dict) (p : path) : option exc := find is_value (exc_at d p).

(** clbid of an insert or block exception *)
Definition exc_clbid (e : exc) : string :=
  match ex_act e with
  | AInsert c _ | ABlock c | ACredits c _ | ASubject c _ => c
  | _ => ""%string
  end.
Definition exc_forced (e : exc) : bool := match ex_act e with AInsert _ f => f | _ => false end.
