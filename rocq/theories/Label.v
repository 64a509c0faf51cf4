(** Labels of the courses of a template: dp/data/student.py:181-287. The two regular expressions
    are written out and matched as python's [re] does, alternatives in order of priority.
    Text is bytes; [\d] stands for the ASCII digits (python's [\d] also matches other digits). *)
From Coq Require Import List Bool Arith ZArith String Ascii.
From Verif Require Import Prelude Paths Claims Transcript Course Context CourseRule Loader.
Import ListNotations.
Local Open Scope string_scope.

(** ** Regular expressions *)
Inductive re :=
| RChar (p : ascii -> bool)                                  (* one character *)
| RMany (p : ascii -> bool) (least : nat) (most : option nat) (* greedy repetition *)
| RSeq (a b : re)
| ROpt (a : re)                                              (* greedy [?] *)
| RCap (name : string) (a : re)                              (* a named group *)
| REnd.                                                      (* [$] *)
Definition caps := list (string * string).

(** what was consumed between [s] and its end [t] *)
Definition consumed (s t : string) : string := substring 0 (String.length s - String.length t) s.
Fixpoint many (p : ascii -> bool) (least : nat) (most : option nat) (s : string) (k : string -> option caps) : option caps :=
  let stop := match least with O => k s | S _ => None end in
  match s with
  | EmptyString => stop
  | String c t =>
    if p c && negb (match most with Some O => true | _ => false end)
    then match many p (pred least) (option_map pred most) t k with
         | Some r => Some r
         | None => stop
         end
    else stop
  end.
Definition newline : ascii := "010"%char.
Fixpoint rmatch (r : re) (s : string) (cs : caps) (k : string -> caps -> option caps) : option caps :=
  match r with
  | RChar p => match s with String c t => if p c then k t cs else None | EmptyString => None end
  | RMany p least most => many p least most s (fun t => k t cs)
  | RSeq a b => rmatch a s cs (fun t cs' => rmatch b t cs' k)
  | ROpt a => match rmatch a s cs k with Some x => Some x | None => k s cs end
  | RCap n a => rmatch a s cs (fun t cs' => k t (cs' ++ [(n, consumed s t)])%list)
  | REnd => match s with
            | EmptyString => k s cs
            | String c EmptyString => if Ascii.eqb c newline then k s cs else None
            | _ => None
            end
  end.
(** [re.match]: at the start of the text *)
Definition re_match (r : re) (s : string) : option caps := rmatch r s [] (fun _ cs => Some cs).

Definition between (a b : nat) (c : ascii) : bool := Nat.leb a (nat_of_ascii c) && Nat.leb (nat_of_ascii c) b.
Definition upper (c : ascii) : bool := between 65 90 c.
Definition digit (c : ascii) : bool := between 48 57 c.
Definition is_char (x c : ascii) : bool := Ascii.eqb c x.
Definition any_char (c : ascii) : bool := negb (Ascii.eqb c newline).

(** dp/data/student.py:181-189 DEPTNUM_REGEX *)
Definition deptnum : re :=
  RSeq (RCap "subject" (RMany (fun c => upper c || is_char "/" c) 2 (Some 5)))
  (RSeq (RChar (is_char " "))
  (RSeq (RCap "num" (RMany digit 3 (Some 3)))
  (RSeq (ROpt (RCap "section" (RChar upper)))
  (RSeq (ROpt (RSeq (RChar any_char) (RCap "sub_type" (RChar upper))))
  (RSeq (ROpt (RSeq (RChar (is_char " ")) (RSeq (RCap "year" (RMany digit 4 (Some 4))) (RSeq (RChar (is_char "-")) (RCap "term" (RChar any_char))))))
        (ROpt (RSeq (RChar (is_char " ")) (RSeq (RChar (is_char "[")) (RSeq (RCap "inst" (RMany any_char 1 None)) (RChar (is_char "]"))))))))))).
Fixpoint literal (s : string) (r : re) : re :=
  match s with EmptyString => r | String c t => RSeq (RChar (is_char c)) (literal t r) end.
(** dp/data/student.py:191-196 NAME_REGEX *)
Definition name_regex : re :=
  literal "name="
  (RSeq (RCap "name" (RMany (fun c => negb (is_char "(" c) && negb (is_char "[" c)) 0 None))
  (RSeq (ROpt (RSeq (RChar (is_char " ")) (RSeq (RChar (is_char "[")) (RSeq (RCap "inst" (RMany any_char 1 None)) (RChar (is_char "]"))))))
        REnd)).

(** [match_groups.get(n, '') or ''] *)
Definition cap (cs : caps) (n : string) : string :=
  match find (fun p => fst p =? n) cs with Some (_, v) => v | None => "" end.

(** ** Finding the course of a label *)
(** the first item that passes; the filter is lazy *)
Fixpoint first_res {A} (f : A -> res bool) (l : list A) : res (option A) :=
  match l with
  | [] => Ok None
  | x :: t => let! b := f x in if b then Ok (Some x) else first_res f t
  end.
(** dp/data/student.py:213-257 parse_identified_course *)
Definition label_filter (cs : caps) (year : option Z) : filter_args :=
  mkFilter None (if cap cs "subject" =? "" then None else Some (cap cs "subject" ++ " " ++ cap cs "num")) None
    (if_given (cap cs "inst")) None year (if_given (cap cs "term")) (if_given (cap cs "section"))
    (sub_type_lookup (cap cs "sub_type")) None None.
Definition identified_course (cs : caps) (transcript : list course) : res template :=
  let! year := (if cap cs "year" =? "" then Ok None else let! z := py_int (cap cs "year") in Ok (Some z)) in
  let! found := first_res (course_filter (label_filter cs year)) transcript in
  Ok (match found with
      | Some c => mkTemplate (c_subject c) (c_number c) (cap cs "section") (cap cs "sub_type") year (cap cs "term") (cap cs "inst") "" (c_clbid c)
      | None => mkTemplate (cap cs "subject") (cap cs "num") (cap cs "section") (cap cs "sub_type") year (cap cs "term") (cap cs "inst") "" ""
      end).
(** dp/data/student.py:260-288 parse_named_course *)
Definition named_course (cs : caps) (transcript : list course) : template :=
  let name := cap cs "name" in
  let inst := cap cs "inst" in
  match find (fun c => ((name =? "") || (c_name c =? name)) && ((inst =? "") || (c_institution c =? inst))) transcript with
  | Some c => mkTemplate (c_subject c) (c_number c) "" "" None "" inst name (c_clbid c)
  | None => mkTemplate "" "" "" "" None "" inst name ""
  end.
(** dp/data/student.py:198-210 parse_template_course_rule *)
Definition parse_label (label : string) (transcript : list course) : res (option template) :=
  match re_match deptnum label with
  | Some cs => let! t := identified_course cs transcript in Ok (Some t)
  | None => match re_match name_regex label with
            | Some cs => Ok (Some (named_course cs transcript))
            | None => Ok None
            end
  end.

(** ** The templates of a student *)
(** dp/data/student.py:20-31: attrs compares the fields in order; a year is four digits or absent *)
Definition year_cmp (a b : option Z) : comparison :=
  match a, b with
  | None, None => Eq | None, Some _ => Lt | Some _, None => Gt
  | Some x, Some y => Z.compare x y
  end.
Definition template_cmp (a b : template) : comparison :=
  then_cmp (String.compare (tp_subject a) (tp_subject b))
  (then_cmp (String.compare (tp_num a) (tp_num b))
  (then_cmp (String.compare (tp_section a) (tp_section b))
  (then_cmp (String.compare (tp_sub_type a) (tp_sub_type b))
  (then_cmp (year_cmp (tp_year a) (tp_year b))
  (then_cmp (String.compare (tp_term a) (tp_term b))
  (then_cmp (String.compare (tp_institution a) (tp_institution b))
  (then_cmp (String.compare (tp_name a) (tp_name b))
            (String.compare (tp_clbid a) (tp_clbid b))))))))).
Definition keyed_cmp (a b : string * template) : comparison :=
  then_cmp (String.compare (fst a) (fst b)) (template_cmp (snd a) (snd b)).
Definition keyed_leb (a b : string * template) : bool := match keyed_cmp a b with Gt => false | _ => true end.
Definition keyed_eqb (a b : string * template) : bool := match keyed_cmp a b with Eq => true | _ => false end.

(** dp/data/student.py:119-125; [tord] is the order in which the set is gone through *)
Definition templates_of (tord : list (string * template) -> list (string * template))
    (data : list (string * list string)) (transcript : list course) : res (list (string * template)) :=
  let! l := mapr (fun kl => let! o := parse_label (snd kl) transcript in Ok (match o with Some t => [(fst kl, t)] | None => [] end))
              (flat_map (fun kv => map (fun label => (fst kv, label)) (snd kv)) data) in
  Ok (isort keyed_leb (tord (dedup keyed_eqb (List.concat l)))).
(** dp/data/student.py:172-177 templates_as_dict *)
Definition templates_as_dict (l : list (string * template)) : list (string * list template) :=
  fold_left (fun d kt => dset d (fst kt) (match dget d (fst kt) with Some v => v | None => [] end ++ [snd kt])%list) l [].
