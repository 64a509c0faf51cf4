(** dp/assertion_clause.py *)
From Coq Require Import List ZArith QArith Bool String.
From Verif Require Import Prelude Dec Status Course Exceptions Op Context CondExpr Predicate Apply.
Import ListNotations.
Local Open Scope string_scope.
Local Open Scope list_scope.

(** exact sum and difference of Decimals, with the smaller exponent *)
Definition dscale (e : Z) (d : dec) : Z := (dcoef d * 10 ^ (dexp d - e))%Z.
Definition dadd (a b : dec) : dec :=
  let e := Z.min (dexp a) (dexp b) in mkDec (dscale e a + dscale e b) e.
Definition dsub (a b : dec) : dec :=
  let e := Z.min (dexp a) (dexp b) in mkDec (dscale e a - dscale e b) e.

(** dp/assertion_clause.py:37-40 ValueChangeMode *)
Inductive vmode := VAdd | VSubtract | VSet.
(** dp/assertion_clause.py:44-47 ValueChange *)
Record vchange := mkChange { vc_mode : vmode; vc_expr : pexpr; vc_amount : dec }.

(** dp/assertion_clause.py:69-93 Assertion. [original] is a string or an int as in the
    specification. *)
Record assertion := mkAs {
  as_path : path; as_state : status; as_type : data_type; as_where : option pred;
  as_key : akey; as_op : operator; as_expected : dec; as_original : option scalar;
  as_changes : list vchange; as_at_most : bool; as_message : option string;
  as_label : option string; as_ip_pass : bool; as_evaluated : bool; as_overridden : bool;
  as_resolved : option Q; as_items : option (list scalar); as_clbids : option (list string);
  as_inserted : option (list string);
}.

(** dp/assertion_clause.py:294-298, 402-405 ConditionalAssertion, DynamicConditionalAssertion *)
Inductive any_assertion :=
| APlain (a : assertion)
| AIf (p : path) (c : pexpr) (t : assertion) (e : option assertion)
| AWhen (p : path) (c : dexpr) (t : assertion).

(** [apply_operator(lhs, op, rhs)] of two Decimals: numeric comparison, TypeError for the
    membership operators; AssertionProofs.compare_num_op relates it to Op.apply_operator *)
Definition compare_num (op : operator) (l r : Q) : res bool :=
  match op with
  | OEq => Ok (Qeqb l r)
  | ONeq => Ok (negb (Qeqb l r))
  | OLt => Ok (Qltb l r)
  | OLte => Ok (Qleb l r)
  | OGt => Ok (Qltb r l)
  | OGte => Ok (Qleb r l)
  | OIn | ONin => Err TypeErr
  end.

(** the status of a comparison that does not hold: dp/assertion_clause.py:495-508, 522-535,
    578-591 *)
Definition unmet (op : operator) (v e : Q) : status :=
  match op with
  | OGt => if Qltb 0 v && Qleb v e then NeedsMoreItems else Empty
  | OGte | OEq => if Qltb 0 v && Qltb v e then NeedsMoreItems else Empty
  | OLt | OLte => FailedInvariant
  | ONeq | OIn | ONin => Empty
  end.

(** dp/assertion_clause.py:486-510 evaluate_with_areas, 513-537 evaluate_with_items *)
Definition evaluate_plain (a : assertion) (r : res applied) : res (status * applied) :=
  let! calc := r in
  let! b := compare_num (as_op a) (ap_value calc) (dval (as_expected a)) in
  Ok (if b then Done else unmet (as_op a) (ap_value calc) (dval (as_expected a)), calc).

(** dp/assertion_clause.py:540-593 evaluate_with_courses. The second application gets a
    generator (line 550), so what iterates it twice finds nothing the second time. *)
Definition evaluate_with_courses (a : assertion) (cs : list course) : res (status * applied) :=
  let e := dval (as_expected a) in
  let! calc := apply_courses (as_key a) cs cs in
  let! b := compare_num (as_op a) (ap_value calc) e in
  if b then
    let has_ip := existsb c_in_progress (ap_courses calc) in
    let! no_ip :=
      if has_ip then
        let! calc' := apply_courses (as_key a) (filter (fun c => negb (c_in_progress c)) cs) [] in
        compare_num (as_op a) (ap_value calc') e
      else Ok true in
    if as_ip_pass a || no_ip then Ok (Done, calc)
    else if has_ip then
      let enrolled := existsb c_ip_this_term (ap_courses calc) in
      let registered := existsb c_ip_in_future (ap_courses calc) in
      let incomplete := existsb c_incomplete (ap_courses calc) in
      if negb (enrolled || registered || incomplete) then Err AssertErr
      else if (enrolled || incomplete) && negb registered then Ok (PendingCurrent, calc)
      else if registered then Ok (PendingRegistered, calc)
      else Err OtherErr
    else Ok (Done, calc)
  else Ok (unmet (as_op a) (ap_value calc) e, calc).

(** AttributeError for an item of another kind *)
Definition as_course (x : item) : res course := match x with ICourse c => Ok c | _ => Err OtherErr end.
Definition as_area (x : item) : res area_ptr := match x with IArea a => Ok a | _ => Err OtherErr end.

(** dp/assertion_clause.py:235-246 Assertion.evaluate *)
Definition evaluate_items (a : assertion) (data : list item) : res (status * applied) :=
  match as_type a with
  | DtCourse => let! cs := mapr as_course data in evaluate_with_courses a cs
  | DtArea => let! l := mapr as_area data in evaluate_plain a (apply_areas (as_key a) l)
  | DtPerformance | DtRecital => evaluate_plain a (apply_data (as_key a) data)
  end.

(** dp/assertion_clause.py:200-213: what the insert exceptions add *)
Fixpoint insert_items (cx : ctx) (es : list exc) (data : list item) (ins : list string) : res (list item * list string) :=
  match es with
  | [] => Ok (data, ins)
  | x :: t =>
    let! c := forced_by_clbid cx (exc_clbid x) in                                  (* line 202 *)
    if exc_forced x then insert_items cx t (data ++ [ICourse c]) (ins ++ [c_clbid c])
    else match find_by_clbid cx (exc_clbid x) with
         | Some m => insert_items cx t (data ++ [ICourse m]) (ins ++ [c_clbid m])
         | None => insert_items cx t data ins
         end
  end.
(** [l.remove(x)]: the first equal element; nothing when there is none (the ValueError is
    caught on line 220) *)
Fixpoint remove_first (x : item) (l : list item) : list item :=
  match l with
  | [] => []
  | y :: t => if item_eqb y x then t else y :: remove_first x t
  end.
(** dp/assertion_clause.py:215-221: what the block exceptions take away *)
Fixpoint block_items (cx : ctx) (es : list exc) (data : list item) : res (list item) :=
  match es with
  | [] => Ok data
  | x :: t => let! c := forced_by_clbid cx (exc_clbid x) in block_items cx t (remove_first (ICourse c) data)
  end.

Definition with_outcome (a : assertion) (s : status) (calc : applied) (ins : list string) : assertion :=
  mkAs (as_path a) s (as_type a) (as_where a) (as_key a) (as_op a) (as_expected a) (as_original a)
    (as_changes a) (as_at_most a) (as_message a) (as_label a) (as_ip_pass a) true (as_overridden a)
    (Some (ap_value calc)) (Some (ap_data calc)) (Some (map c_clbid (ap_courses calc))) (Some ins).

(** dp/assertion_clause.py:191-233 Assertion.audit_and_resolve *)
Definition audit_assertion (cx : ctx) (data : list item) (a : assertion) : res assertion :=
  if as_overridden a then Ok a else
  let! filtered := match as_where a with
                   | Some w => filter_res (fun x => apply_pred x w) data
                   | None => Ok data
                   end in
  let! di := insert_items cx (get_inserts (cx_exc cx) (as_path a)) filtered [] in
  let! kept := block_items cx (get_blocks (cx_exc cx) (as_path a)) (fst di) in
  let! sr := evaluate_items a kept in
  Ok (with_outcome a (fst sr) (snd sr) (snd di)).

(** dp/assertion_clause.py:337-350, 440-447 audit_and_resolve *)
Definition audit_any (cx : ctx) (data : list item) (a : any_assertion) : res any_assertion :=
  match a with
  | APlain x => let! r := audit_assertion cx data x in Ok (APlain r)
  | AIf p c t e =>
    let! c' := evaluate cx c in
    match e_result c' with
    | Some true => let! r := audit_assertion cx data t in Ok (AIf p c' r e)
    | Some false =>
      match e with
      | Some f => let! r := audit_assertion cx data f in Ok (AIf p c' t (Some r))
      | None => Ok a
      end
    | None => Err OtherErr
    end
  | AWhen p c t =>
    let! cs := mapr as_course data in
    let! c' := eval_dyn cs c in
    match d_result c' with
    | Some true => let! r := audit_assertion cx data t in Ok (AWhen p c' r)
    | _ => Ok a
    end
  end.

(** dp/assertion_clause.py:248-249, 352-358, 449-456 status *)
Definition any_status (a : any_assertion) : status :=
  match a with
  | APlain x => as_state x
  | AIf _ c t e =>
    match e_result c, e with
    | Some true, _ => as_state t
    | Some false, Some f => as_state f
    | _, _ => Empty
    end
  | AWhen _ c t =>
    match d_result c with
    | Some true => as_state t
    | Some false => Empty
    | None => Done
    end
  end.

(** dp/assertion_clause.py:257-272 Assertion.rank: the first component (the second is 1) *)
Definition as_rank (a : assertion) : Q :=
  match as_state a with
  | Done | Waived => 1
  | _ =>
    match as_resolved a with
    | None => 0
    | Some r =>
      match as_op a with
      | OLt | OLte => 0
      | _ => if Qeqb (dval (as_expected a)) 0 then 0 else Qminb 1 (r / dval (as_expected a))
      end
    end
  end.
(** dp/assertion_clause.py:360-366, 458-466 rank *)
Definition any_rank (a : any_assertion) : Q :=
  match a with
  | APlain x => as_rank x
  | AIf _ c t e =>
    match e_result c, e with
    | Some true, _ => as_rank t
    | Some false, Some f => as_rank f
    | _, _ => 0
    end
  | AWhen _ c t =>
    match d_result c with
    | Some true => as_rank t
    | Some false => 0
    | None => 1
    end
  end.
(** the second component of every rank above *)
Definition any_max_rank (a : any_assertion) : Q := 1.

(** dp/assertion_clause.py:274-290 and the corresponding methods of the conditional
    assertions (375-397, 472-483) *)
Definition as_is_simple_count (a : assertion) : bool :=
  match as_key a with KCourses | KTerms => true | _ => false end.
Definition as_is_simple_sum (a : assertion) : bool :=
  match as_key a with KSumCredits => true | _ => false end.
Definition as_is_lt (a : assertion) : bool := match as_op a with OLt | OLte => true | _ => false end.
Definition as_at_least_0 (a : assertion) : bool :=
  match as_op a with OGte => Qeqb (dval (as_expected a)) 0 | _ => false end.
Definition on_any (f : assertion -> bool) (a : any_assertion) : bool :=
  match a with
  | APlain x => f x
  | AIf _ _ t e => f t || match e with Some x => f x | None => false end
  | AWhen _ _ t => f t
  end.
Definition any_is_lt : any_assertion -> bool := on_any as_is_lt.
Definition any_at_least_0 : any_assertion -> bool := on_any as_at_least_0.

(** [int(Decimal)]: towards zero *)
Definition int_of_Q (q : Q) : Z := Z.quot (Qnum q) (Zpos (Qden q)).

(** dp/assertion_clause.py:729-767 input_size_range *)
Definition input_size_range (a : assertion) (maximum : Z) : gen Z :=
  let q := dval (as_expected a) in
  let e := int_of_Q q in
  if negb (Qeqb q (inject_Z e)) then gfail TypeErr else
  let exactly := if (maximum <? e)%Z then gret [maximum] else gret (zrange e (e + 1)) in
  match as_op a with
  | OEq => exactly
  | OGte => if as_at_most a then exactly
            else if (maximum <? e)%Z then gret [maximum] else gret (zrange e (Z.max (e + 1) (maximum + 1)))
  | ONeq => gret (zrange 0 e ++ zrange (e + 1) (Z.max (e + 1) (maximum + 1)))
  | OGt => if (maximum <? e)%Z then gret [maximum] else gret (zrange (e + 1) (Z.max (e + 2) (maximum + 1)))
  | OLt => gret (zrange 0 e)
  | OLte => gret (zrange 0 (e + 1))
  | OIn | ONin => gfail TypeErr
  end.

(** ** Loading *)

(** the expected value as written: an int, a string, a bool, null, a list or a float *)
Inductive raw_expected := RInt (z : Z) | RStr (s : string) | RBool (b : bool) | RNone | RList | RFloat.
(** the dictionary of the key: its operator entries, its $changes, its flags.
    [av_bad] says that there is a key that is not allowed ('$ifs' among them). *)
Record raw_value := mkRawValue {
  av_ops : list (operator * raw_expected);
  av_changes : list (xdata * list (option vmode * scalar));
  av_at_most : bool; av_ip_pass : bool; av_bad : bool }.
Record raw_assertion := mkRawAs {
  rw_where : option wdata; rw_message : option string; rw_label : option string;
  rw_assert : list (string * raw_value) }.

(** dp/assertion_clause.py:50-65 ValueChange.load *)
Definition load_change (cx : ctx) (d : xdata * list (option vmode * scalar)) : res vchange :=
  let! e0 := load_expr cx (fst d) in
  let! e := evaluate cx e0 in
  match snd d with
  | [(m, x)] =>
    match m with
    | None => Err ValueErr
    | Some mode => let! amount := dec_of_scalar x in Ok (mkChange mode e amount)
    end
  | _ => Err AssertErr
  end.

(** dp/assertion_clause.py:706-726 load_expected_value *)
Definition load_as_expected (c : constants) (r : raw_expected) : res (dec * scalar) :=
  match r with
  | RList | RFloat => Err TypeErr
  | RInt z => Ok (dec_of_Z z, SInt z)
  | RStr s =>
    let! v := get_by_name c (SStr s) in
    match v with
    | inl _ => Err AssertErr
    | inr (SInt z) => Ok (dec_of_Z z, SStr s)
    | inr (SStr t) => let! d := dec_of_str t in Ok (d, SStr s)
    | inr _ => Err AssertErr
    end
  | RBool _ | RNone => Err AssertErr
  end.

(** dp/assertion_clause.py:654-665 *)
Definition apply_change (e : dec) (ch : vchange) : dec :=
  if truthy (e_result (vc_expr ch)) then
    match vc_mode ch with
    | VAdd => dadd e (vc_amount ch)
    | VSubtract => dsub e (vc_amount ch)
    | VSet => vc_amount ch
    end
  else e.

Definition actions_of (m : data_type) : list akey :=
  match m with
  | DtCourse => course_actions
  | DtArea => area_actions
  | DtPerformance | DtRecital => other_actions
  end.
(** [expected == original] *)
Definition same_as_original (e : dec) (o : scalar) : bool := py_eq (SDec e) o.

(** dp/assertion_clause.py:596-703 load_single_assertion; no caller forbids operators *)
Definition load_single_assertion (cx : ctx) (c : constants) (m : data_type) (p : path) (r : raw_assertion) : res assertion :=
  let p' := p ++ [".assert"] in
  let! w := match rw_where r with
            | None => Ok None
            | Some x => let! q := load_predicate cx c m x in Ok (Some q)
            end in
  match rw_assert r with
  | [(name, v)] =>
    match find (fun k => akey_name k =? name) (actions_of m) with
    | None => Err AssertErr
    | Some key =>
      match av_ops v with
      | [(op, raw)] =>
        match op with
        | OIn | ONin => Err AssertErr
        | _ =>
          let! changes := mapr (load_change cx) (av_changes v) in
          let! eo := load_as_expected c raw in
          let changed := fold_left apply_change changes (fst eo) in
          let expected := match get_value (cx_exc cx) p' with
                          | Some x => match ex_act x with AValue d => d | _ => changed end
                          | None => changed
                          end in
          let waived := match get_waive (cx_exc cx) p' with Some _ => true | None => false end in
          if av_bad v then Err AssertErr else
          Ok (mkAs p' (if waived then Waived else Empty) m w key op expected
                (if same_as_original expected (snd eo) then None else Some (snd eo))
                changes (av_at_most v) (rw_message r) (rw_label r) (av_ip_pass v) false waived
                None None None None)
        end
      | _ => Err AssertErr
      end
    end
  | _ => Err AssertErr
  end.

(** the specification data of an assertion *)
Inductive raw_any :=
| RwPlain (r : raw_assertion)
| RwIf (x : xdata) (t : raw_assertion) (e : option raw_assertion)
| RwWhen (x : xdata) (t : raw_assertion).

(** dp/assertion_clause.py:95-110 Assertion.load, 305-326 ConditionalAssertion.load,
    408-430 DynamicConditionalAssertion.load *)
Definition load_any (cx : ctx) (c : constants) (m : data_type) (p : path) (r : raw_any) : res any_assertion :=
  match r with
  | RwPlain x => let! a := load_single_assertion cx c m p x in Ok (APlain a)
  | RwIf x t e =>
    let! cond := load_expr cx x in
    let! at_ := load_single_assertion cx c m (p ++ ["/t"]) t in
    let! ae := match e with
               | None => Ok None
               | Some y => let! z := load_single_assertion cx c m (p ++ ["/f"]) y in Ok (Some z)
               end in
    Ok (AIf p cond at_ ae)
  | RwWhen x t =>
    match m with
    | DtCourse =>
      let! cond := load_dyn x in
      let! at_ := load_single_assertion cx c m (p ++ ["/t"]) t in
      Ok (AWhen p cond at_)
    | _ => Err AssertErr
    end
  end.
