(** What the printed report says, in terms of the result itself and not of the dictionary that
    is printed: the text of every part, and which results can be printed at all. *)
From Coq Require Import List ZArith QArith Bool String Ascii.
From Verif Require Import Prelude Dec Status Course Claims Exceptions Op Context CondExpr Paths Keys Predicate Limit Apply Assertion Query CourseRule Tree Area ListFacts Json JsonSpec.
Import ListNotations.
Local Open Scope string_scope.
Local Infix "+++" := (@app _) (at level 61, right associativity).

(** a text put together from pieces *)
Definition pieces (l : list string) : string := String.concat "" l.
Definition blanks (n : nat) : string := String.concat "" (repeat " " n).
Definition in_parens (b : bool) (t : string) : string := if b then pieces ["("; t; ")"] else t.
Definition when (b : bool) (t : string) : string := if b then t else "".
Definition headed (h : string) (l : list string) : list string := match l with [] => [] | _ => h :: l end.

(** ** Marks *)
Definition mark (s : status) : string :=
  match s with
  | Waived => "💜" | Done => "💚" | PendingCurrent => "💖" | PendingRegistered => "🧡"
  | NeedsMoreItems => "💙" | PendingApproval => "❓" | Empty => "🌀" | FailedInvariant => "🚫️"
  end.
(** The mark of a course says what is known of the course itself; the rule that found it matters
    only when it was waived. *)
Definition known_mark (c : course) : string :=
  if c_incomplete c then "⛔️ [dnf]"
  else if c_ip_this_term c then "💖 [ip!]"
  else if c_ip_in_future c then "🧡 [ip-]"
  else if c_in_progress c then "💙 [ip?]"
  else if c_repeat c then "💕 [rep]"
  else "💚 [ ok]".
Definition course_mark (s : status) (c : option course) : string :=
  match s, c with
  | Waived, Some _ => "💜 [ovr]" | Waived, None => "💜 [wvd]"
  | _, None => "🌀      " | _, Some c => known_mark c
  end.
Definition met_mark (s : status) : string :=
  match s with Waived => "💜 [wvd]" | Done => "💚 [ ok]" | _ => "🌀      " end.
Definition holds_mark (r : option bool) : string :=
  match r with Some true => "t." | Some false => "f!" | None => "??" end.
Definition then_mark (r : option bool) : string := match r with Some true => "t." | _ => "" end.
Definition else_mark (r : option bool) : string := match r with Some false => "f!" | _ => "" end.
Definition sign (o : operator) : string :=
  match o with
  | OLt => "<" | OLte => "≤" | OGt => ">" | OGte => "≥" | OEq => "==" | ONeq => "!=" | OIn => "∈" | ONin => "∉"
  end.
Definition finished (s : status) : bool := match s with Done | Waived => true | _ => false end.
Definition passes (s : status) : bool :=
  match s with Done | Waived | PendingCurrent | PendingRegistered => true | _ => false end.

(** ** Courses *)
(** the last row of the transcript with the id *)
Definition row_with (cs : list course) (k : string) : option course :=
  fold_left (fun found c => if c_clbid c =? k then Some c else found) cs None.
Definition section_suffix (c : course) : string :=
  match c_sub_type c with StLab => ".L" | StFlac => ".F" | StDiscussion => ".D" | _ => "" end.
Definition course_and_term (c : course) : string :=
  pieces [c_subject c; " "; c_number c; match c_section c with Some s => s | None => "" end; section_suffix c; " ";
          str_of_Z (c_year c); "-"; c_term c].
Definition course_in_full (c : course) : string :=
  let home := c_institution c =? "STOLAF" in
  pieces ([course_and_term c; " """; c_name c; """ "] +++ (if home then [] else ["["; c_institution c; "] "])
          +++ [str_of_dec (c_credits c); " "; grade_value (c_grade_code c); if home then " id=" else " #"; c_clbid c]
          +++ map (fun a => " #" ++ a) (isort str_leb (c_attributes c))).

Section Words.
  Variables (repr quote : string -> string) (g4 dtext : Q -> string).
  Variable transcript : list course.
  Variables paths ranks : bool.

  (** python's texts of values *)
  Definition shown_bool (b : bool) : string := if b then "True" else "False".
  Definition shown_scalar (inside : bool) (s : scalar) : string :=
    let t x := if inside then repr x else x in
    match s with
    | SNone => "None" | SBool b => shown_bool b | SInt z => str_of_Z z | SDec d => t (str_of_dec d)
    | SStr s => t s | SGrade g => t (grade_value g) | SOpt o => t (option_value o)
    end.
  Definition shown_value (v : value) : string :=
    match v with VS s => shown_scalar false s | VT l => pieces ["["; String.concat ", " (map (shown_scalar true) l); "]"] end.

  (** ** Conditions and clauses *)
  Fixpoint condition (nested : bool) (e : pexpr) : string :=
    match e with
    | EAnd l _ => in_parens nested (String.concat " and " (map (condition true) l))
    | EOr l _ => in_parens nested (String.concat " or " (map (condition true) l))
    | ENot x r => pieces ["(NOT "; condition true x; " => "; holds_mark r; ")"]
    | EFun f a r => pieces ["("; pfun_value f; " "; repr a; " => "; holds_mark r; ")"]
    end.
  Fixpoint dyn_condition (nested : bool) (e : dexpr) : string :=
    match e with
    | DAnd l _ => in_parens nested (String.concat " and " (map (dyn_condition true) l))
    | DOr l _ => in_parens nested (String.concat " or " (map (dyn_condition true) l))
    | DFun f a r => pieces ["("; dfun_value f; " "; repr a; " => "; holds_mark r; ")"]
    end.
  Definition key_word (k : string) : string :=
    if k =? "attributes" then "bucket" else if k =? "is_in_progress" then "in-progress"
    else if k =? "is_stolaf" then "from STOLAF" else k.
  Definition leaf_words (l : leaf) : string :=
    match l_op l, l_expected l with
    | OEq, VS (SBool true) => key_word (l_key l)
    | OEq, VS (SBool false) => pieces ["not """; key_word (l_key l); """"]
    | o, v => pieces [key_word (l_key l); " "; sign o; " "; shown_value v]
    end.
  Fixpoint clause (nested : bool) (p : pred) : string :=
    match p with
    | PAnd l => in_parens nested (String.concat " and " (map (clause true) l))
    | POr l => in_parens nested (String.concat " or " (map (clause true) l))
    | PNot _ => ""
    | PIf c t e => in_parens nested (pieces ["If: ["; condition false c; "] Then ("; then_mark (e_result c); "): ["; clause false t;
        "] Else ("; else_mark (e_result c); "): ["; match e with Some x => clause false x | None => "do nothing" end; "]"])
    | PLeaf l => leaf_words l
    end.
  (** There is no text for a clause that is negated. *)
  Fixpoint clause_printable (p : pred) : bool :=
    match p with
    | PAnd l | POr l => forallb clause_printable l
    | PNot _ => false
    | PIf _ t e => clause_printable t && match e with Some x => clause_printable x | None => true end
    | PLeaf _ => true
    end.
  Definition where_printable (o : option pred) : bool := match o with Some p => clause_printable p | None => true end.

  (** ** Lines *)
  Definition path_line (indent : nat) (p : path) : list string :=
    if paths then [pieces [blanks indent; "["; String.concat ", " (map quote p); "]"]] else [].
  Definition rank_words (r m : Q) (s : status) : string :=
    when ranks (pieces ["("; g4 r; "|"; dtext m; "|"; if passes s then "t" else "f"; ") "]).
  Definition limits_lines (lead : string) (l : list limit) : list string :=
    headed (lead ++ "Subject to these limits:")
      (map (fun x => pieces [lead; "- at most "; str_of_dec (lm_at_most x); " "; match lm_what x with Courses => "Courses" | Credits => "Credits" end;
                             " where "; clause false (lm_where x)]) l).
  Definition limits_printable (l : list limit) : bool := forallb (fun x => clause_printable (lm_where x)) l.

  (** a course rule shows the course it claimed, and its own name as long as it has none *)
  Definition claimed_row (k : kind) (r : crule) : option course :=
    match c_claims k r with [] => None | cl :: _ => row_with transcript (c_clbid (cl_course cl)) end.
  Definition given_text (o : option string) : bool := match o with None | Some "" => false | _ => true end.
  Definition text_or_none (o : option string) : string := match o with Some s => s | None => "None" end.
  Definition course_lines (indent : nat) (k : kind) (r : crule) : list string :=
    path_line indent (r_path r) +++
    [pieces [blanks indent; rank_words (c_rank k r) (c_max_rank k r) (c_status k r); course_mark (c_status k r) (claimed_row k r); " ";
       match claimed_row k r with
       | Some c => pieces [strip (c_identity c); " "; repr (c_name c)]
       | None => match r_course r, r_ap r with
                 | (None | Some ""), Some "" => text_or_none (r_course r)
                 | (None | Some ""), a => text_or_none a
                 | c, _ => text_or_none c
                 end
       end;
       match r_institution r with None | Some "" => "" | Some i => pieces [" ["; i; "]"] end]].

  Definition item_label (s : scalar) : string := shown_scalar false s.
  (** the amount that was counted is a text in the dictionary, and is quoted *)
  Definition assertion_lines (indent : nat) (inserted : list string) (a : assertion) : list string :=
    let sub := pieces [blanks indent; "      "] in
    let far := pieces [sub; "             "] in
    let resolved := match as_resolved a with Some q => pieces [" ["; repr (dtext q); "]"] | None => "" end in
    let original := match as_original a with
                    | None | Some SNone => ""
                    | Some s => match s with
                                | SBool _ | SInt _ => pieces [" [via "; shown_scalar true s; "]"]
                                | _ => if shown_scalar false s =? str_of_dec (as_expected a) then "" else pieces [" [via "; shown_scalar true s; "]"]
                                end
                    end in
    let label := match as_label a with None | Some "" => "" | Some l => pieces [" [label: """; l; """]"] end in
    path_line indent (as_path a) +++
    [pieces [blanks indent; rank_words (as_rank a) 1 (as_state a); " - "; mark (as_state a); " "; akey_name (as_key a); resolved; " "; sign (as_op a); " ";
       str_of_dec (as_expected a); original; label; " ["; status_value (as_state a); "]"]] +++
    match as_where a with Some p => [pieces [far; "where "; clause false p]] | None => [] end +++
    match as_resolved a with
    | Some _ => [pieces [far; "resolved items: ["; String.concat ", " (map repr (isort str_leb (map item_label (match as_items a with Some l => l | None => [] end)))); "]"]]
    | None => []
    end +++
    headed (far ++ "resolved courses:")
      (map (fun k =>
         let ins := when (existsb (String.eqb k) (inserted +++ match as_inserted a with Some l => l | None => [] end)) " [ins]" in
         match row_with transcript k with
         | Some c => pieces [far; "  -"; ins; " "; known_mark c; " "; course_in_full c]
         | None => pieces [sub; "  -"; ins; " #"; match py_int k with Ok z => str_of_Z z | Err _ => "" end]
         end) (isort str_leb (match as_clbids a with Some l => l | None => [] end))).
  (** an id that is not on the transcript has to be a number *)
  Definition id_printable (k : string) : bool :=
    match row_with transcript k with Some _ => true | None => match py_int k with Ok _ => true | Err _ => false end end.
  Definition assertion_printable (a : assertion) : bool :=
    where_printable (as_where a) && forallb id_printable (match as_clbids a with Some l => l | None => [] end).
  (** An assertion that depends on a condition shows both branches, whichever is in force. *)
  Definition any_lines (indent : nat) (inserted : list string) (a : any_assertion) : list string :=
    match a with
    | APlain x => assertion_lines indent inserted x
    | AIf p c t e =>
      path_line indent p +++ [pieces [blanks indent; "If: "; condition false c]; pieces [blanks indent; "Then: "; then_mark (e_result c)]] +++
      assertion_lines (indent + 4) inserted t +++
      match e with
      | Some x => pieces [blanks indent; "Otherwise: "; else_mark (e_result c)] :: assertion_lines (indent + 4) inserted x
      | None => [pieces [blanks indent; "Otherwise ("; else_mark (e_result c); "): do nothing"]]
      end
    | AWhen p c t =>
      path_line indent p +++ [pieces [blanks indent; "If: "; dyn_condition false c]; pieces [blanks indent; "Then: "; then_mark (d_result c)]] +++
      assertion_lines (indent + 4) inserted t +++ [pieces [blanks indent; "Otherwise ("; else_mark (d_result c); "): do nothing"]]
    end.
  Definition any_printable (a : any_assertion) : bool :=
    match a with
    | APlain x => assertion_printable x
    | AIf _ _ t e => assertion_printable t && match e with Some x => assertion_printable x | None => true end
    | AWhen _ _ t => assertion_printable t
    end.

  (** A query shows its status with its clause only; its rank stands where its indentation
      should. *)
  Definition query_lines (indent : nat) (k : kind) (q : query) : list string :=
    let b := blanks indent in
    path_line indent (q_path q) +++
    match q_where q with
    | Some p => [pieces [b; mark (q_status q); " ["; status_value (q_status q); "] Given courses matching "; clause false p]]
    | None => []
    end +++ limits_lines (b ++ " ") (q_limit q) +++
    headed (b ++ " Matching courses:")
      (map (fun cl => let id := c_clbid (cl_course cl) in
         match row_with transcript id with
         | Some c => pieces [b; "    "; when (existsb (String.eqb id) (q_inserted q)) "[ins] "; known_mark c; " "; course_in_full c]
         | None => pieces [b; "    !!!!! ""!!!!!"" ("; id; ")"]
         end) (match k with KRes => q_claims q | _ => [] end)) +++
    headed (b ++ " Pre-claimed courses which cannot be re-claimed:")
      (map (fun cl => let id := c_clbid (cl_course cl) in
         match row_with transcript id with
         | Some c => pieces [b; "    "; c_identity c; " """; c_name c; """ ("; c_clbid c; ")"]
         | None => pieces [b; "    !!!!! ""!!!!!"" ("; id; ")"]
         end) (match k with KRes => q_failures q | _ => [] end)) +++
    [(if ranks then rank_words (q_rank q) (q_max_rank q) (q_status q) else b) ++ " There must be:"] +++
    flat_map (any_lines (indent + 4) (q_inserted q)) (q_asserts q).
  Definition query_printable (q : query) : bool :=
    where_printable (q_where q) && limits_printable (q_limit q) && forallb any_printable (q_asserts q).

  (** ** Parts *)
  Definition node_rank_words (n : node) : string :=
    match rank_of n with Ok (r, m) => rank_words r m (status_of n) | Err _ => "" end.
  Definition how_many (count : Z) (size : nat) : string :=
    let n := str_of_Z (Z.of_nat size) in
    match size with
    | 2%nat => if (count =? 1)%Z then pieces ["either of (these "; n; ")"] else if (count =? 2)%Z then pieces ["both of (these "; n; ")"]
               else pieces ["at least "; str_of_Z count; " of "; n]
    | _ => if (count =? Z.of_nat size)%Z then pieces ["all of (these "; n; ")"] else if (count =? 1)%Z then pieces ["any of (these "; n; ")"]
           else pieces ["at least "; str_of_Z count; " of "; n]
    end.
  Fixpoint spaced (gap : list string) (l : list (list string)) : list string :=
    match l with [] => [] | x :: t => x +++ (match t with [] => [] | _ => gap end) +++ spaced gap t end.
  (** a requirement is left out if it is not below the path that was asked for *)
  Definition asked_for (only : option path) (p : path) : bool :=
    match only with None => true | Some q => path_eqb (firstn (List.length q) p) q end.

  Fixpoint report (only : option path) (indent : nat) (n : node) {struct n} : list string :=
    match n with
    | NCourse k r => course_lines indent k r
    | NQuery k q => query_lines indent k q
    | NCount k i items =>
      let b := pieces [blanks indent; node_rank_words n] in
      path_line indent (n_path i) +++
      [pieces [b; mark (status_of n); " "; how_many (n_count i) (List.length items); " (ok: ";
               str_of_Z (Z.of_nat (List.length (filter (fun x => finished (status_of x)) items))); "; need: "; str_of_Z (n_count i); ")"]] +++
      match n_audits i with
      | [] => []
      | _ => [pieces [b; " This requirement has a post-audit [status="; status_value (count_audit_status i); "]:"]; pieces [b; " There must be:"]] +++
             flat_map (any_lines (indent + 4) []) (n_audits i) +++ [""]
      end +++
      spaced (if Nat.eqb (List.length items) 2 then [] else [""]) (map (report only (indent + 4)) items)
    | NReq k i result =>
      if asked_for only (e_path i) then
        let b := pieces [blanks indent; node_rank_words n] in
        path_line indent (e_path i) +++
        [pieces [b; mark (status_of n); " Requirement("; e_name i; ") ["; status_value (status_of n); "]"]] +++
        if e_audited i then [pieces [b; "    is manually audited"]]
        else match result with Some x => report only (indent + 4) x | None => [] end
      else []
    | NCond k i t f =>
      let b := pieces [blanks indent; node_rank_words n] in
      path_line indent (d_path i) +++ [pieces [b; "If "; condition false (d_cond i); ":"]; pieces [b; "Then:"]] +++
      report None (indent + 4) t +++
      match f with Some x => pieces [b; "Otherwise:"] :: report None (indent + 4) x | None => [pieces [b; "Otherwise, do nothing"]] end
    | NProf k i c =>
      path_line indent (f_path i) +++
      [pieces [blanks indent; node_rank_words n; met_mark (status_of n); " Proficiency="; f_proficiency i]] +++
      match c with Some (k', r) => if finished (c_status k' r) then course_lines (indent + 4) k' r else [] | None => [] end
    end.
  (** A proficiency has to have a course. What is not shown does not matter. *)
  Fixpoint printable (only : option path) (n : node) {struct n} : bool :=
    match n with
    | NCourse _ _ => true
    | NQuery _ q => query_printable q
    | NCount _ i items => forallb any_printable (n_audits i) && forallb (printable only) items
    | NReq _ i result =>
      if asked_for only (e_path i) then
        if e_audited i then true else match result with Some x => printable only x | None => true end
      else true
    | NCond _ _ t f => printable None t && match f with Some x => printable None x | None => true end
    | NProf _ _ c => match c with Some _ => true | None => false end
    end.

  Definition area_report (only : option path) (v : area_result) : list string :=
    path_line 0 ["$"] +++
    [pieces [repr (u_name (v_area v)); " audit status: "; status_value (area_status v); ". (rank ";
             match area_rank v with Ok (r, m) => pieces [dtext r; " of "; dtext m] | Err _ => "" end; "; gpa: "; str_of_dec (area_gpa v); ")"]] +++
    limits_lines "" (u_limit (v_area v)) +++ [""] +++ report only 0 (v_result v).
  Definition area_printable (only : option path) (v : area_result) : bool :=
    limits_printable (u_limit (v_area v)) && printable only (v_result v).

  (** the names on a path: its steps that start with a percent sign *)
  Definition names_of (p : path) : list string :=
    map (fun s => match s with String _ t => t | "" => "" end)
      (filter (fun s => match s with String c _ => Ascii.eqb c "%" | "" => false end) p).
  Definition claim_line (area id : string) (p : path) : string :=
    match row_with transcript id with
    | Some c => pieces ["  - "; course_and_term c; " """; c_name c; """ at "; String.concat " > " (area :: names_of p)]
    | None => ""
    end.
  Definition line_end : string := String (ascii_of_nat 10) "".
  Definition claims_section (v : area_result) : list string :=
    flat_map (fun kc => flat_map (fun p => [claim_line (u_name (v_area v)) (fst kc) p; line_end]) (snd kc)) (keyed_claims v).
  (** asking for a path shows the requirements at it and no claims *)
  Definition claims_shown (only : option path) : bool := match only with None | Some [] => true | _ => false end.
  Definition claims_printable (v : area_result) : bool :=
    forallb (fun kc => forallb (fun _ : path => match row_with transcript (fst kc) with Some _ => true | None => false end) (snd kc)) (keyed_claims v).
  Definition output (only : option path) (v : area_result) : list string :=
    String.concat line_end (area_report only v) ::
    (if claims_shown only then [line_end; line_end; "Claimed courses:"; line_end] +++ claims_section v else []).
  Definition output_printable (only : option path) (v : area_result) : bool :=
    area_printable only v && (negb (claims_shown only) || claims_printable v).
End Words.

(** ** Which parts are shown *)

(** Whether the part at a place is shown when a path is asked for, and what is asked for below it. A
    requirement has to lie at the path, everything below one that is audited by hand is left
    out, both branches of a conditional are shown whatever was asked for, and the course of a proficiency is
    shown when it counts. *)
Fixpoint shown (only : option path) (n : node) (l : list step) {struct l} : option (option path) :=
  match l with
  | [] => match n with NReq _ i _ => if asked_for only (e_path i) then Some only else None | _ => Some only end
  | s :: t =>
    match part n s with
    | None => None
    | Some m =>
      match n with
      | NReq _ i _ => if asked_for only (e_path i) && negb (e_audited i) then shown only m t else None
      | NCond _ _ _ _ => shown None m t
      | NProf _ _ (Some (k, r)) => if finished (c_status k r) then shown only m t else None
      | _ => shown only m t
      end
    end
  end.
(** the parts that a place lies in, without the one at the place *)
Fixpoint above (n : node) (l : list step) : list node :=
  match l with
  | [] => []
  | s :: t => n :: match part n s with Some m => above m t | None => [] end
  end.
Definition by_hand (n : node) : bool := match n with NReq _ i _ => e_audited i | _ => false end.
Definition is_requirement (n : node) : bool := match n with NReq _ _ _ => true | _ => false end.
(** what a part needs by itself to be printed *)
Definition own_printable (transcript : list course) (n : node) : bool :=
  match n with
  | NQuery _ q => query_printable transcript q
  | NCount _ i _ => forallb (any_printable transcript) (n_audits i)
  | NProf _ _ None => false
  | _ => true
  end.
(** the line of a requirement *)
Definition requirement_line (g4 dtext : Q -> string) (ranks : bool) (indent : nat) (n : node) (i : req_info) : string :=
  pieces [blanks indent; node_rank_words g4 dtext ranks n; mark (status_of n); " Requirement("; e_name i; ") ["; status_value (status_of n); "]"].
Definition clbid_of (cl : claim) : string := c_clbid (cl_course cl).
