(** The export of stored results as rows of a table: dp/stringify_csv.py, dp/bin/csvify.py and
    dp/bin/excelify.py. *)
From Coq Require Import List ZArith QArith Bool String Ascii.
From Verif Require Import Prelude Dec Status Course Op Keys Json Area ListFacts Report.
Import ListNotations.
Local Open Scope string_scope.
Local Infix "+++" := (@app _) (at level 61, right associativity).

(** a heading and the value below it *)
Definition cell := (string * json)%type.

Section Cells.
  (** as in Report; [title] is the name of a requirement with its arrows made into lines
      (dp/stringify_csv.py:74-77) *)
  Variables (repr : string -> string) (dtext : Q -> string) (title : string -> string).
  (** [Csvify.transcript] as its list of rows *)
  Variable transcript : list course.

  (** "\n↳ " *)
  Definition below (a b : string) : string := a ++ newline ++ "↳ " ++ b.
  (** [x in ('EqualTo')]: part of a text, as the parentheses make no tuple *)
  Definition within_text (j : json) (s : string) : res bool :=
    match j with
    | JStr t => Ok (existsb (fun i => String.eqb (substring i (String.length t) s) t) (seq 0 (S (String.length s))))
    | _ => Err TypeErr
    end.
  (** dp/stringify_csv.py:119-151 assertion *)
  Definition assertion_cells (j : json) : res (list cell) :=
    let! rule := jobj j in
    let! _ := jkey rule "status" in
    let! a := let! a := jkey rule "assertion" in jobj a in
    let! expected := jkey a "expected" in
    let! o := jkey a "operator" in
    let! leader :=
      if jis o "LessThan" || jis o "LessThanOrEqualTo" then Ok "at most"
      else let! e := within_text o "EqualTo" in
           if (e : bool) then Ok "exactly"
           else let! n := within_text o "NotEqualTo" in Ok (if (n : bool) then "not" else "need") in
    let! k := jkey a "key" in
    let head := leader ++ " " ++ pystr repr dtext expected ++ " " ++ pystr repr dtext k in
    let! ks := match jget a "resolved_clbids" with Some l => jtexts l | None => Ok [] end in
    let! names := mapr (fun k => let! c := key (on_transcript transcript k) in Ok (course_ident c)) ks in
    let resolved := String.concat ", " (isort str_leb names) in
    let! head := match jget rule "where" with
                 | Some w => if jtrue w then let! t := str_predicate repr dtext false true w in Ok (head ++ " where " ++ t)
                             else Ok head
                 | None => Ok head
                 end in
    let! s := jkey a "status" in
    Ok [(head, JStr (pystr repr dtext s ++ ": " ++ resolved))].
  (** dp/stringify_csv.py:102-117 query *)
  Definition query_cells (d : dict) : res (list cell) :=
    let! w := jkey d "where" in
    let! lead := if jtrue w then let! t := str_predicate repr dtext false true w in Ok ("where " ++ t) else Ok "" in
    let! l := let! l := jkey d "assertions" in jitems l in
    let! cells := mapr (fun a => let! _ := jkey d "source" in assertion_cells a) l in
    Ok (map (fun kv => (if lead =? "" then fst kv else below lead (fst kv), snd kv)) (List.concat cells)).
  (** dp/stringify_csv.py:89-95 course: the tuple of line 95 is not yielded *)
  Definition course_cells (d : dict) : res (list cell) :=
    let! s := jkey d "status" in
    let! c := jkey d "course" in
    Ok (if passing_value s then [(pystr repr dtext c, c)] else []).
  (** dp/stringify_csv.py:97-100 proficiency *)
  Definition proficiency_cells (d : dict) : res (list cell) :=
    let! p := jkey d "proficiency" in
    let! c := jkey d "course" in
    let! v := if jtrue c then let! cd := jobj c in jkey cd "course"
              else let! s := jkey d "status" in Ok (JStr (if passing_value s then "done" else "")) in
    Ok [(pystr repr dtext p, v)].
  (** dp/stringify_csv.py:62-66 dispatch, with area (68-69), requirement (71-87) and count
      (153-181). [waived] is only looked at on line 172, which is not reached: the loop of lines
      159-170 returns at the first item. *)
  Fixpoint cells (j : json) : res (list cell) :=
    match j with
    | JObj d =>
      let! _ := jkey d "status" in
      let! ty := jkey d "type" in
      if jis ty "area" then jsub cells "result" d
      else if jis ty "course" then course_cells d
      else if jis ty "proficiency" then proficiency_cells d
      else if jis ty "count" then
        let! n := jkey d "count" in
        jsub (fun v => match v with
          | JList l =>
            match n, l with
            | JInt 1, x :: _ => cells x
            | _, _ => let! ls := mapr cells l in Ok (List.concat ls)
            end
          | _ => Err TypeErr
          end) "items" d
      else if jis ty "query" then query_cells d
      else if jis ty "requirement" then
        let! name := let! n := jkey d "name" in jtext n in
        jsub (fun v => match v with
          | JObj r =>
            let! t := jkey r "type" in
            if jis t "course" then let! c := jkey r "course" in Ok [(title name, c)]
            else let! l := cells v in Ok (map (fun kv => (below (title name) (fst kv), snd kv)) l)
          | _ => Err TypeErr
          end) "result" d
      else Err KeyErr
    | _ => Err TypeErr
    end.
  (** dp/stringify_csv.py:54-60 process *)
  Definition process (stnum : string) (root : json) : res (list cell) :=
    let! d := jobj root in
    let! g := jkey d "gpa" in
    let! s := jkey d "status" in
    let! l := cells root in
    Ok ([("Student", JStr stnum); ("GPA", g); ("Status", s); ("Classification", JStr "???"); ("Ant. Grad. Date", JStr "May 2000")] +++ l).
End Cells.

(** ** Tables *)

(** [dict] of pairs: a later value takes the place of an earlier one *)
Fixpoint put (k : string) (v : json) (d : list cell) : list cell :=
  match d with
  | [] => [(k, v)]
  | (x, w) :: t => if x =? k then (x, v) :: t else (x, w) :: put k v t
  end.
Definition dict_of (l : list cell) : list cell := fold_left (fun d kv => put (fst kv) (snd kv) d) l [].

(** dp/bin/csvify.py:30-41: the keys of the first row are the header; csv.DictWriter refuses a row
    with a key that is not in it (ValueError) and leaves the places of missing keys empty.
    The rows are those of all files. *)
Definition csv_table (rows : list (list cell)) : res (list string * list (list json)) :=
  match rows with
  | [] => Err IndexErr
  | first :: _ =>
    let header := map fst first in
    let! body := mapr (fun row =>
      if forallb (fun kv => existsb (String.eqb (fst kv)) header) row
      then Ok (map (fun k => get (jget row k) (JStr "")) header)
      else Err ValueErr) rows in
    Ok (header, body)
  end.

(** dp/bin/excelify.py:164-185 compute_style: the style of a cell, and its text *)
Inductive style := StyleDefault | StyleDone | StylePending | StylePartial | StyleFailed.
Definition starts (p s : string) : bool := String.prefix p s.
Fixpoint has_colon (s : string) : bool := match s with EmptyString => false | String c t => Ascii.eqb c ":" || has_colon t end.
(** [value.replace(old, new)] for an [old] that is not empty *)
Fixpoint replace_fuel (n : nat) (old new s : string) : string :=
  match n with
  | O => s
  | S n =>
    match s with
    | EmptyString => ""
    | String c t =>
      if String.prefix old s then new ++ replace_fuel n old new (substring (String.length old) (String.length s) s)
      else String c (replace_fuel n old new t)
    end
  end.
Definition replace (old new s : string) : string := replace_fuel (S (String.length s)) old new s.
Definition compute_style (s : string) : style * string :=
  if starts "done:" s then (StyleDone, s)
  else if starts "pending-current:" s then (StylePending, replace "pending-current:" "in-progress:" s)
  else if starts "needs-more-items:" s then (StylePartial, replace "needs-more-items:" "partial:" s)
  else if starts "failed-invariant:" s then (StyleFailed, s)
  else if has_colon s then (StyleDefault, s)
  else if s =? "" then (StyleDefault, s) else (StyleDone, s).
(** dp/bin/excelify.py:101-130: the header comes from the first row, the cells of every row from
    its own values in order. A value that is None has no [startswith]. *)
Definition excel_cell (col : nat) (v : json) : res (style * json) :=
  if Nat.leb col 5 then Ok (StyleDefault, v)
  else match v with
       | JStr s => let (st, t) := compute_style s in Ok (st, JStr t)
       | _ => Err OtherErr (* AttributeError *)
       end.
Fixpoint excel_row (col : nat) (vs : list json) : res (list (style * json)) :=
  match vs with
  | [] => Ok []
  | v :: t => let! c := excel_cell col v in let! r := excel_row (S col) t in Ok (c :: r)
  end.
Definition excel_table (rows : list (list cell)) : res (list string * list (list (style * json))) :=
  match rows with
  | [] => Err IndexErr
  | first :: _ =>
    let! body := mapr (fun row => excel_row 1 (map snd row)) rows in
    Ok (map fst first, body)
  end.
