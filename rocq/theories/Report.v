(** The printed report of a result: dp/stringify_v3.py, reading what Json writes (after
    json.loads, dp/__main__.py:148). The functions
    are generators of lines; an exception ends the report, so that they give either all lines or
    an exception. *)
From Coq Require Import List ZArith QArith Bool String Ascii.
From Verif Require Import Prelude Dec Status Course Op Paths Keys Json Area ListFacts.
Import ListNotations.
Local Open Scope string_scope.
Local Infix "+++" := (@app _) (at level 61, right associativity).

(** ** Reading dictionaries *)
Definition dict := list (string * json).
(** the value of a key, with a function applied to it *)
Section Find.
  Context {B : Type} (f : json -> B).
  Fixpoint jfind (k : string) (d : dict) : option B :=
    match d with
    | [] => None
    | (x, v) :: t => if x =? k then Some (f v) else jfind k t
    end.
End Find.
(** [d.get(k)] of a key that may be missing *)
Definition jget (d : dict) (k : string) : option json := jfind (fun j => j) k d.
(** [d[k]] *)
Definition jkey (d : dict) (k : string) : res json := key (jget d k).
(** [d[k]] for any value: None and other values that are no dictionaries cannot be subscripted *)
Definition jobj (j : json) : res dict := match j with JObj d => Ok d | _ => Err TypeErr end.
(** [f(d[k])] *)
Definition jsub {B} (f : json -> res B) (k : string) (d : dict) : res B :=
  match jfind f k d with Some r => r | None => Err KeyErr end.
(** [bool(x)] *)
Definition jtrue (j : json) : bool :=
  match j with
  | JNull => false
  | JBool b => b
  | JInt z => negb (z =? 0)%Z
  | JStr s => negb (s =? "")
  | JNum _ => true
  | JList l => match l with [] => false | _ => true end
  | JObj d => match d with [] => false | _ => true end
  end.
Definition jis (j : json) (s : string) : bool := match j with JStr t => t =? s | _ => false end.
Definition jitems (j : json) : res (list json) := match j with JList l => Ok l | _ => Err TypeErr end.
(** a list of texts *)
Definition jtext (j : json) : res string := match j with JStr s => Ok s | _ => Err TypeErr end.
Definition jtexts (j : json) : res (list string) := let! l := jitems j in mapr jtext l.
Definition passing_value (j : json) : bool := existsb (fun s => jis j (status_value s)) passing_statuses.
Definition ok_value (j : json) : bool := existsb (fun s => jis j (status_value s)) WAIVED_AND_DONE.

(** dp/op.py:180-198 str_operator *)
Definition str_operator (s : string) : res string :=
  if s =? "LessThan" then Ok "<" else if s =? "LessThanOrEqualTo" then Ok "≤"
  else if s =? "GreaterThan" then Ok ">" else if s =? "GreaterThanOrEqualTo" then Ok "≥"
  else if s =? "EqualTo" then Ok "==" else if s =? "NotEqualTo" then Ok "!="
  else if s =? "In" then Ok "∈" else if s =? "NotIn" then Ok "∉" else Err TypeErr.

(** dp/stringify_v3.py:99-115 calculate_emoji *)
Definition emoji_of (s : json) : string :=
  if jis s "waived" then "💜" else if jis s "done" then "💚" else if jis s "pending-current" then "💖"
  else if jis s "pending-registered" then "🧡" else if jis s "needs-more-items" then "💙"
  else if jis s "pending-approval" then "❓" else if jis s "empty" then "🌀" else "🚫️".
(** dp/stringify_v3.py:145-165 emojify_course *)
Definition emojify_course (c : option course) (s : json) : string :=
  if jis s "waived" then match c with Some _ => "💜 [ovr]" | None => "💜 [wvd]" end
  else match c with
  | None => "🌀      "
  | Some c =>
    if c_incomplete c then "⛔️ [dnf]" else if c_ip_this_term c then "💖 [ip!]"
    else if c_ip_in_future c then "🧡 [ip-]" else if c_in_progress c then "💙 [ip?]"
    else if c_repeat c then "💕 [rep]" else "💚 [ ok]"
  end.

(** dp/data/course.py:134-144 course_with_term, year_term; 119-126 verbose *)
Definition with_term (c : course) : string :=
  let suffix := match c_sub_type c with StLab => ".L" | StFlac => ".F" | StDiscussion => ".D" | _ => "" end in
  c_subject c ++ " " ++ c_number c ++ match c_section c with Some s => s | None => "" end ++ suffix ++ " "
  ++ str_of_Z (c_year c) ++ "-" ++ c_term c.
Definition verbose (c : course) : string :=
  let attrs := match c_attributes c with
               | [] => ""
               | l => " " ++ String.concat " " (map (fun a => "#" ++ a) (isort str_leb l))
               end in
  if c_institution c =? "STOLAF"
  then with_term c ++ " """ ++ c_name c ++ """ " ++ str_of_dec (c_credits c) ++ " " ++ grade_value (c_grade_code c)
       ++ " id=" ++ c_clbid c ++ attrs
  else with_term c ++ " """ ++ c_name c ++ """ [" ++ c_institution c ++ "] " ++ str_of_dec (c_credits c) ++ " "
       ++ grade_value (c_grade_code c) ++ " #" ++ c_clbid c ++ attrs.
(** [{c.clbid: c for c in transcript}[k]]: the last row wins *)
Definition on_transcript (cs : list course) (k : string) : option course :=
  find (fun c => c_clbid c =? k) (rev cs).

Fixpoint spaces (n : nat) : string := match n with O => "" | S m => String " " (spaces m) end.

Section Text.
  (** python's [repr] and [json.dumps] of a text, the format [.4g] of a float and the text of a
      Decimal of the given value *)
  Variables (repr quote : string -> string) (g4 dtext : Q -> string).

  (** [repr] and [str] of a value *)
  Fixpoint pyrepr (j : json) : string :=
    match j with
    | JNull => "None"
    | JBool true => "True"
    | JBool false => "False"
    | JInt z => str_of_Z z
    | JStr s => repr s
    | JNum q => repr (dtext q)
    | JList l => "[" ++ String.concat ", " (map pyrepr l) ++ "]"
    | JObj d => "{" ++ String.concat ", " (map (fun kv => repr (fst kv) ++ ": " ++ pyrepr (snd kv)) d) ++ "}"
    end.
  Definition pystr (j : json) : string := match j with JStr s => s | JNum q => dtext q | _ => pyrepr j end.
  (** json.dumps; the indentation of line 91 is left out *)
  Fixpoint dumps (j : json) : string :=
    match j with
    | JNull => "null"
    | JBool true => "true"
    | JBool false => "false"
    | JInt z => str_of_Z z
    | JStr s => quote s
    | JNum q => quote (dtext q)
    | JList l => "[" ++ String.concat ", " (map dumps l) ++ "]"
    | JObj d => "{" ++ String.concat ", " (map (fun kv => quote (fst kv) ++ ": " ++ dumps (snd kv)) d) ++ "}"
    end.
  (** [f"{float(x):.4g}"] of a rank *)
  Definition rank_text (j : json) : res string := match j with JNum q => Ok (g4 q) | _ => Err ValueErr end.

  (** ** Expressions and predicates *)

  Definition headline (j : json) : string :=
    match j with JBool true => "t." | JBool false => "f!" | _ => "??" end.
  (** dp/stringify_v3.py:465-496 str_expression *)
  Fixpoint str_expression (nested : bool) (j : json) : res string :=
    match j with
    | JObj d =>
      let! ty := jkey d "type" in
      let joined sep :=
        let! l := jsub (fun v => match v with JList l => mapr (str_expression true) l | _ => Err TypeErr end) "expressions" d in
        let text := String.concat sep l in Ok (if nested then "(" ++ text ++ ")" else text) in
      if jis ty "pred-expr" || jis ty "pred-dyn-expr" then
        let! r := jkey d "result" in
        let! f := jkey d "function" in
        let! a := jkey d "argument" in
        Ok ("(" ++ pystr f ++ " " ++ pyrepr a ++ " => " ++ headline r ++ ")")
      else if jis ty "pred-expr--not" then
        let! r := jkey d "result" in
        let! x := jsub (str_expression true) "expression" d in
        Ok ("(NOT " ++ x ++ " => " ++ headline r ++ ")")
      else if jis ty "pred-expr--or" || jis ty "pred-dyn-expr--or" then joined " or "
      else if jis ty "pred-expr--and" || jis ty "pred-dyn-expr--and" then joined " and "
      else Err OtherErr
    | _ => Err TypeErr
    end.
  Definition label_text (d : dict) : string :=
    match jget d "label" with
    | Some l => if jtrue l then " [label: """ ++ pystr l ++ """]" else ""
    | None => ""
    end.
  (** dp/stringify_v3.py:430-462 str_single_predicate *)
  Definition str_single_predicate (raw_only : bool) (d : dict) : res string :=
    let! key := jkey d "key" in
    let key := if jis key "attributes" then "bucket" else if jis key "is_in_progress" then "in-progress"
               else if jis key "is_stolaf" then "from STOLAF" else pystr key in
    let! expected := jkey d "expected" in
    let expected := if raw_only then get (jget d "expected_verbatim") expected else expected in
    let postscript := match jget d "expected_verbatim" with Some v => " [via " ++ pyrepr v ++ "]" | None => "" end
                      ++ label_text d in
    let! o := jkey d "operator" in
    let! op := let! t := jtext o in str_operator t in
    Ok (match jis o "EqualTo", expected with
        | true, JBool true => key ++ postscript
        | true, JBool false => "not """ ++ key ++ """" ++ postscript
        | _, _ => key ++ " " ++ op ++ " " ++ pystr expected ++ postscript
        end).
  (** dp/stringify_v3.py:390-427 str_predicate. The branches of a conditional are printed with
      nested and raw_only off. *)
  Fixpoint str_predicate (nested raw_only : bool) (j : json) : res string :=
    match j with
    | JObj d =>
      let! ty := jkey d "type" in
      let paren text := if nested then "(" ++ text ++ ")" else text in
      let joined sep :=
        let! l := jsub (fun v => match v with JList l => mapr (str_predicate true raw_only) l | _ => Err TypeErr end) "predicates" d in
        Ok (paren (String.concat sep l)) in
      if jis ty "predicate" then str_single_predicate raw_only d
      else if jis ty "pred--or" then joined " or "
      else if jis ty "pred--and" then joined " and "
      else if jis ty "pred--if" then
        let! c := jkey d "condition" in
        let! cond := str_expression false c in
        let! t := jsub (str_predicate false false) "when_true" d in
        let! cd := jobj c in
        let! r := jkey cd "result" in
        let tb := match r with JBool true => "t." | _ => "" end in
        let fb := match r with JBool false => "f!" | _ => "" end in
        let! e := jsub (fun v => if jtrue v then str_predicate false false v else Ok "do nothing") "when_false" d in
        Ok (paren ("If: [" ++ cond ++ "] Then (" ++ tb ++ "): [" ++ t ++ "] Else (" ++ fb ++ "): [" ++ e ++ "]"))
      else Err OtherErr
    | _ => Err TypeErr
    end.

  (** ** Lines *)

  Variable transcript : list course.
  Variables show_paths show_ranks : bool.

  (** dp/stringify_v3.py:93-96 print_path, when paths are shown *)
  Definition path_lines (d : dict) (indent : nat) : res (list string) :=
    if show_paths then let! p := jkey d "path" in Ok [spaces indent ++ dumps p] else Ok [].
  Definition rank_prefix (d : dict) : res string :=
    if show_ranks then
      let! r := jkey d "rank" in
      let! t := rank_text r in
      let! m := jkey d "max_rank" in
      let! s := jkey d "status" in
      Ok ("(" ++ t ++ "|" ++ pystr m ++ "|" ++ (if passing_value s then "t" else "f") ++ ") ")
    else Ok "".
  Definition where_text (d : dict) : res string := jsub (str_predicate false false) "where" d.
  (** dp/stringify_v3.py:135-138, 302-305 *)
  Definition limit_lines (lead : string) (d : dict) : res (list string) :=
    let! l := jkey d "limit" in
    if jtrue l then
      let! limits := jitems l in
      let! lines := mapr (fun x =>
        let! x := jobj x in
        let! n := jkey x "at_most" in
        let! w := jkey x "at_most_what" in
        let! p := where_text x in
        Ok (lead ++ "- at most " ++ pystr n ++ " " ++ pystr w ++ " where " ++ p)) limits in
      Ok ((lead ++ "Subject to these limits:") :: lines)
    else Ok [].

  (** dp/stringify_v3.py:168-201 print_course *)
  Definition print_course (indent : nat) (j : json) : res (list string) :=
    let! d := jobj j in
    let! ps := path_lines d indent in
    let! rp := rank_prefix d in
    let! cls := let! l := jkey d "claims" in jitems l in
    let! course := match cls with
                   | [] => Ok None
                   | x :: _ => let! k := let! cd := jobj x in jkey cd "clbid" in
                               let! k := jtext k in Ok (on_transcript transcript k)
                   end in
    let! s := jkey d "status" in
    let! name := jkey d "course" in
    let! ap := jkey d "ap" in
    let display := match course with
                   | Some c => strip (course_ident c) ++ " " ++ repr (c_name c)
                   | None => if negb (jtrue name) && negb (jis ap "") then pystr ap else pystr name
                   end in
    let! i := jkey d "institution" in
    let institution := if jtrue i then " [" ++ pystr i ++ "]" else "" in
    Ok (ps +++ [spaces indent ++ rp ++ emojify_course course s ++ " " ++ display ++ institution]).

  (** dp/stringify_v3.py:204-228 print_proficiency *)
  Definition print_proficiency (indent : nat) (d : dict) : res (list string) :=
    let! ps := path_lines d indent in
    let! rp := rank_prefix d in
    let! s := jkey d "status" in
    let mark := if jis s "waived" then "💜 [wvd]" else if jis s "done" then "💚 [ ok]" else "🌀      " in
    let! p := jkey d "proficiency" in
    let! c := jkey d "course" in
    let! cs := let! cd := jobj c in jkey cd "status" in
    let! below := if ok_value cs then print_course (indent + 4) c else Ok [] in
    Ok (ps +++ [spaces indent ++ rp ++ mark ++ " Proficiency=" ++ pystr p] +++ below).

  (** dp/stringify_v3.py:521-602 str_single, 636-669_assertion *)
  Definition str_single_assertion (indent : nat) (inserted : list string) (d : dict) : res (list string) :=
    let! ps := path_lines d indent in
    let! rp := rank_prefix d in
    let gap := "             " in
    let! s := jkey d "status" in
    let! key := jkey d "key" in
    let resolved := match jget d "resolved" with
                    | None | Some JNull => None
                    | Some v => Some v
                    end in
    let resolved_text := match resolved with Some v => " [" ++ pyrepr v ++ "]" | None => "" end in
    let! expected := jkey d "expected" in
    let postscript := match jget d "original" with Some v => " [via " ++ pyrepr v ++ "]" | None => "" end
                      ++ label_text d in
    let! o := jkey d "operator" in
    let! op := let! t := jtext o in str_operator t in
    let clause := match jis o "EqualTo", expected with
                  | true, JBool true => pystr key ++ resolved_text ++ postscript
                  | true, JBool false => "not """ ++ pystr key ++ """" ++ resolved_text ++ postscript
                  | _, _ => pystr key ++ resolved_text ++ " " ++ op ++ " " ++ pystr expected ++ postscript
                  end in
    let prefix := spaces indent ++ spaces 6 in
    let! w := jkey d "where" in
    let! wl := if jtrue w then let! t := where_text d in Ok [prefix ++ gap ++ "where " ++ t] else Ok [] in
    let! il := match resolved with
               | None => Ok []
               | Some _ =>
                 let! ts := match jget d "resolved_items" with Some l => jtexts l | None => Ok [] end in
                 Ok [prefix ++ gap ++ "resolved items: " ++ pystr (jstrs (isort str_leb ts))]
               end in
    let! ks := match jget d "resolved_clbids" with Some l => jtexts l | None => Ok [] end in
    let! ip := match jget d "in_progress_clbids" with Some l => jtexts l | None => Ok [] end in
    let! cl := mapr (fun k =>
      let! own := let! l := jkey d "inserted_clbids" in jtexts l in
      let ins := if existsb (String.eqb k) inserted || existsb (String.eqb k) own then " [ins]" else "" in
      match on_transcript transcript k with
      | None =>
        let! z := py_int k in
        Ok (prefix ++ "  -" ++ (if existsb (String.eqb k) ip then " [ip?]" else "") ++ ins ++ " #" ++ str_of_Z z)
      | Some c => Ok (prefix ++ gap ++ "  -" ++ ins ++ " " ++ emojify_course (Some c) JNull ++ " " ++ verbose c)
      end) (isort str_leb ks) in
    Ok (ps +++ [spaces indent ++ rp ++ " - " ++ emoji_of s ++ " " ++ clause ++ " [" ++ pystr s ++ "]"] +++ wl +++ il
        +++ match cl with [] => [] | _ => (prefix ++ gap ++ "resolved courses:") :: cl end).

  (** dp/stringify_v3.py:499-518 str_assertion_clause, 605-633 str_conditional_assertion *)
  Fixpoint str_assertion (indent : nat) (inserted : list string) (j : json) {struct j} : res (list string) :=
    match j with
    | JObj d =>
      let! ty := jkey d "type" in
      if jis ty "assertion" then str_single_assertion indent inserted d
      else if jis ty "assertion--if" || jis ty "assertion--when" then
        let! ps := path_lines d indent in
        let! c := jkey d "condition" in
        let! cond := str_expression false c in
        let! r := let! cd := jobj c in jkey cd "result" in
        let tb := match r with JBool true => "t." | _ => "" end in
        let fb := match r with JBool false => "f!" | _ => "" end in
        let! t := jsub (str_assertion (indent + 4) inserted) "when_true" d in
        let! e := match jfind (fun v => if jtrue v then let! l := str_assertion (indent + 4) inserted v in
                                                        Ok ((spaces indent ++ "Otherwise: " ++ fb) :: l)
                                        else Ok [spaces indent ++ "Otherwise (" ++ fb ++ "): do nothing"]) "when_false" d with
                  | Some r => r
                  | None => Ok [spaces indent ++ "Otherwise (" ++ fb ++ "): do nothing"]
                  end in
        Ok (ps +++ [spaces indent ++ "If: " ++ cond; spaces indent ++ "Then: " ++ tb] +++ t +++ e)
      else Err OtherErr
    | _ => Err TypeErr
    end.

  (** dp/stringify_v3.py:281-331 print_query *)
  Definition print_query (indent : nat) (d : dict) : res (list string) :=
    let! ps := path_lines d indent in
    let! rp := rank_prefix d in
    let prefix := spaces indent in
    let! s := jkey d "status" in
    let! w := jkey d "where" in
    let! wl := if jtrue w then let! t := where_text d in
                               Ok [prefix ++ emoji_of s ++ " [" ++ pystr s ++ "] Given courses matching " ++ t]
               else Ok [] in
    let! ll := limit_lines (prefix ++ " ") d in
    let! inserted := let! l := jkey d "inserted" in jtexts l in
    let! cls := let! l := jkey d "claims" in jitems l in
    let! cl := mapr (fun x =>
      let! k := let! x := jobj x in let! k := jkey x "clbid" in jtext k in
      Ok (match on_transcript transcript k with
          | None => prefix ++ "    !!!!! ""!!!!!"" (" ++ k ++ ")"
          | Some c => prefix ++ "    " ++ (if existsb (String.eqb k) inserted then "[ins] " else "")
                      ++ emojify_course (Some c) JNull ++ " " ++ verbose c
          end)) cls in
    let! fls := let! l := jkey d "failures" in jitems l in
    let! fl := mapr (fun x =>
      let! k := let! x := jobj x in let! k := jkey x "clbid" in jtext k in
      Ok (match on_transcript transcript k with
          | None => prefix ++ "    !!!!! ""!!!!!"" (" ++ k ++ ")"
          | Some c => prefix ++ "    " ++ course_ident c ++ " """ ++ c_name c ++ """ (" ++ c_clbid c ++ ")"
          end)) fls in
    let! asserts := let! l := jkey d "assertions" in jitems l in
    let! al := mapr (str_assertion (indent + 4) inserted) asserts in
    Ok (ps +++ wl +++ ll
        +++ match cl with [] => [] | _ => (prefix ++ " Matching courses:") :: cl end
        +++ match fl with [] => [] | _ => (prefix ++ " Pre-claimed courses which cannot be re-claimed:") :: fl end
        +++ [(if rp =? "" then prefix else rp) ++ " There must be:"] +++ List.concat al).

  (** dp/stringify_v3.py:248-258 *)
  Definition describe (count : json) (size : nat) : string :=
    let n := str_of_Z (Z.of_nat size) in
    let is z := match count with JInt c => (c =? z)%Z | _ => false end in
    if is 1%Z && Nat.eqb size 2 then "either of (these " ++ n ++ ")"
    else if is 2%Z && Nat.eqb size 2 then "both of (these " ++ n ++ ")"
    else if is (Z.of_nat size) then "all of (these " ++ n ++ ")"
    else if is 1%Z then "any of (these " ++ n ++ ")"
    else "at least " ++ pystr count ++ " of " ++ n.
  (** dp/stringify_v3.py:231-272 print_count, without the items *)
  Definition count_lines (indent : nat) (d : dict) (items : list json) : res (list string) :=
    let! ps := path_lines d indent in
    let! rp := rank_prefix d in
    let prefix := spaces indent ++ rp in
    let! s := jkey d "status" in
    let! count := jkey d "count" in
    let! ss := mapr (fun x => let! x := jobj x in jkey x "status") items in
    let oks := List.length (filter ok_value ss) in
    let! audit := jkey d "audit" in
    let! al := if jtrue audit then
                 let! st := jkey d "audit_status" in
                 let! l := jitems audit in
                 let! lines := mapr (str_assertion (indent + 4) []) l in
                 Ok ([prefix ++ " This requirement has a post-audit [status=" ++ pystr st ++ "]:"; prefix ++ " There must be:"]
                     +++ List.concat lines +++ [""])
               else Ok [] in
    Ok (ps +++ [prefix ++ emoji_of s ++ " " ++ describe count (List.length items) ++ " (ok: "
               ++ str_of_Z (Z.of_nat oks) ++ "; need: " ++ pystr count ++ ")"] +++ al).
  (** 274-278: the lines of the items, an empty line between them unless there are two *)
  Fixpoint item_lines (two : bool) (l : list (list string)) : list string :=
    match l with
    | [] => []
    | [x] => x
    | x :: t => x +++ (if two then [] else [""]) +++ item_lines two t
    end.
  (** dp/stringify_v3.py:345-360 print_requirement, up to the result *)
  Definition requirement_lines (indent : nat) (d : dict) : res (list string) :=
    let! ps := path_lines d indent in
    let! rp := rank_prefix d in
    let! s := jkey d "status" in
    let! name := jkey d "name" in
    Ok (ps +++ [spaces indent ++ rp ++ emoji_of s ++ " Requirement(" ++ pystr name ++ ") [" ++ pystr s ++ "]"]).
  (** lines 342-343 *)
  Definition is_elsewhere (only : option path) (d : dict) : res bool :=
    match only with
    | None | Some [] => Ok false
    | Some p =>
      let! j := jkey d "path" in
      let! q := jtexts j in
      Ok (negb (path_eqb (firstn (List.length p) q) p))
    end.
  (** dp/stringify_v3.py:118-142 print_area, up to the result *)
  Definition area_lines (indent : nat) (d : dict) : res (list string) :=
    let! ps := path_lines d indent in
    let! name := jkey d "name" in
    let! s := jkey d "status" in
    let! r := jkey d "rank" in
    let! m := jkey d "max_rank" in
    let! g := jkey d "gpa" in
    let! ll := limit_lines "" d in
    Ok (ps +++ [pyrepr name ++ " audit status: " ++ pystr s ++ ". (rank " ++ pystr r ++ " of " ++ pystr m
               ++ "; gpa: " ++ pystr g ++ ")"] +++ ll +++ [""]).

  (** dp/stringify_v3.py:60-90 print_result, with print_area, print_count, print_requirement,
      print_conditional (363-387). A conditional does not pass [only_path] on. *)
  Fixpoint print_result (only : option path) (indent : nat) (j : json) {struct j} : res (list string) :=
    match j with
    | JObj d =>
      let! ty := jkey d "type" in
      if jis ty "area" then
        let! l := area_lines indent d in
        let! r := jsub (print_result only 0) "result" d in
        Ok (l +++ r)
      else if jis ty "course" then print_course indent j
      else if jis ty "count" then
        let! items := let! l := jkey d "items" in jitems l in
        let! l := count_lines indent d items in
        let! ls := jsub (fun v => match v with JList l => mapr (print_result only (indent + 4)) l | _ => Err TypeErr end) "items" d in
        Ok (l +++ item_lines (Nat.eqb (List.length items) 2) ls)
      else if jis ty "query" then print_query indent d
      else if jis ty "requirement" then
        let! elsewhere := is_elsewhere only d in
        if (elsewhere : bool) then Ok []
        else
          let! l := requirement_lines indent d in
          let! audited := jkey d "is_audited" in
          if jtrue audited then
            let! rp := rank_prefix d in
            Ok (l +++ [spaces indent ++ rp ++ "    is manually audited"])
          else
            let! r := jsub (fun v => if jtrue v then print_result only (indent + 4) v else Ok []) "result" d in
            Ok (l +++ r)
      else if jis ty "conditional" then
        let! ps := path_lines d indent in
        let! rp := rank_prefix d in
        let prefix := spaces indent ++ rp in
        let! c := let! c := jkey d "condition" in str_expression false c in
        let! t := jsub (print_result None (indent + 4)) "when_true" d in
        let! e := match jfind (fun v => if jtrue v then let! l := print_result None (indent + 4) v in
                                                        Ok ((prefix ++ "Otherwise:") :: l)
                                        else Ok [prefix ++ "Otherwise, do nothing"]) "when_false" d with
                  | Some r => r
                  | None => Ok [prefix ++ "Otherwise, do nothing"]
                  end in
        Ok (ps +++ [prefix ++ "If " ++ c ++ ":"; prefix ++ "Then:"] +++ t +++ e)
      else if jis ty "proficiency" then print_proficiency indent d
      else Ok [dumps j]
    | _ => Err TypeErr
    end.

  (** dp/stringify_v3.py:56-57 claimed_path *)
  Definition claimed_path (p : path) : string :=
    String.concat " > " (flat_map (fun s => match s with String "%" t => [t] | _ => [] end) p).
  Definition newline : string := String "010" "".
  (** dp/stringify_v3.py:11-53 summarize, after its first line (the number of audits and the time
      they took) and the two line ends behind it *)
  Definition summarize (result : json) (claims : list (string * list path)) (only : option path) : res (list string) :=
    let! body := print_result only 0 result in
    let body := String.concat newline body in
    if match only with None | Some [] => false | _ => true end then Ok [body]
    else
      let! name := let! d := jobj result in jkey d "name" in
      let! lines := mapr (fun kc => mapr (fun p =>
        let! c := key (on_transcript transcript (fst kc)) in
        Ok ["  - " ++ with_term c ++ " """ ++ c_name c ++ """ at " ++ claimed_path (("%" ++ pystr name) :: p); newline]) (snd kc)) claims in
      Ok ([body; newline; newline; "Claimed courses:"; newline] +++ List.concat (List.concat lines)).
End Text.

(** dp/__main__.py:148-164: what is printed of an area *)
Definition print_area (repr quote : string -> string) (g4 dtext : Q -> string) (show_paths show_ranks : bool)
  (transcript : list course) (only : option path) (v : area_result) : res (list string) :=
  let! j := area_json v in
  summarize repr quote g4 dtext transcript show_paths show_ranks j (keyed_claims v) only.
