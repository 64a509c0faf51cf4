(** What labels of template courses say, apart from the regular expressions. *)
From Coq Require Import List Bool Arith ZArith String Ascii Sorting.Sorted.
From Verif Require Import Prelude Transcript Course Loader.
Import ListNotations.
Local Open Scope string_scope.

Definition capitals : list ascii := list_ascii_of_string "ABCDEFGHIJKLMNOPQRSTUVWXYZ".
Definition numerals : list ascii := list_ascii_of_string "0123456789".
Definition letter (c : ascii) : Prop := In c capitals.
Definition all_in (l : list ascii) (s : string) : Prop := forall c, In c (list_ascii_of_string s) -> In c l.
Definition linefeed : ascii := Ascii false true false true false false false false.
Definition one (c : ascii) : string := String c "".

(** Each optional part is there if the text goes on like it, and the rest of the text is left. *)
Inductive section_part : string -> string -> string -> Prop :=
| sp_yes c r : letter c -> section_part (String c r) (one c) r
| sp_no s : (forall c r, letter c -> s <> String c r) -> section_part s "" s.
(** any character and a letter *)
Inductive sub_part : string -> string -> string -> Prop :=
| bp_yes a c r : a <> linefeed -> letter c -> sub_part (String a (String c r)) (one c) r
| bp_no s : (forall a c r, a <> linefeed -> letter c -> s <> String a (String c r)) -> sub_part s "" s.
Definition year_text (y : string) : Prop := String.length y = 4 /\ all_in numerals y.
Inductive term_part : string -> string -> string -> string -> Prop :=
| tp_yes y t r : year_text y -> t <> linefeed -> term_part (" " ++ y ++ "-" ++ String t r) y (one t) r
| tp_no s : (forall y t r, year_text y -> t <> linefeed -> s <> " " ++ y ++ "-" ++ String t r) -> term_part s "" "" s.
Definition line (s : string) : Prop := ~ In linefeed (list_ascii_of_string s).
(** no bracket is closed before the end of the line *)
Definition unclosed (s : string) : Prop := forall a b, s = a ++ "]" ++ b -> ~ line a.
Inductive inst_part : string -> string -> string -> Prop :=
| ip_yes i r : i <> "" -> line i -> unclosed r -> inst_part (" [" ++ i ++ "]" ++ r) i r
| ip_no s : (forall i r, i <> "" -> line i -> s <> " [" ++ i ++ "]" ++ r) -> inst_part s "" s.

Record fields := mkFields { l_subject : string; l_num : string; l_section : string; l_sub : string; l_year : string; l_term : string; l_inst : string }.
(** a label that starts with a subject and a number; what is left over is ignored *)
Definition identifies (s : string) (f : fields) (left_over : string) : Prop :=
  exists s1 s2 s3 s4,
    s = l_subject f ++ " " ++ l_num f ++ s1 /\
    (2 <= String.length (l_subject f) <= 5)%nat /\ all_in ("/"%char :: capitals) (l_subject f) /\
    String.length (l_num f) = 3 /\ all_in numerals (l_num f) /\
    section_part s1 (l_section f) s2 /\ sub_part s2 (l_sub f) s3 /\
    term_part s3 (l_year f) (l_term f) s4 /\ inst_part s4 (l_inst f) left_over.

(** a label that gives a name *)
Definition clean (s : string) : Prop := ~ In "("%char (list_ascii_of_string s) /\ ~ In "["%char (list_ascii_of_string s).
Inductive names : string -> string -> string -> Prop :=
| nm_plain n : clean n -> names ("name=" ++ n) n ""
| nm_inst n i e : clean n -> i <> "" -> line i -> e = "" \/ e = one linefeed -> names ("name=" ++ n ++ " [" ++ i ++ "]" ++ e) n i.

(** ** The class a label means *)
Inductive sub_letter : string -> sub_type -> Prop :=
| sl_e : sub_letter "E" StEnsemble | sl_l : sub_letter "L" StLab | sl_f : sub_letter "F" StFlac | sl_d : sub_letter "D" StDiscussion.
(** the number a text of four digits stands for *)
Definition numeral_value (c : ascii) : Z := Z.of_nat (nat_of_ascii c) - 48.
Definition year_number (y : string) : Z := fold_left (fun z c => 10 * z + numeral_value c)%Z (list_ascii_of_string y) 0%Z.
Definition fits (f : fields) (c : course) : Prop :=
  c_identity c = l_subject f ++ " " ++ l_num f /\
  (l_section f <> "" -> c_section c = Some (l_section f)) /\
  (forall t, sub_letter (l_sub f) t -> c_sub_type c = t) /\
  (l_year f <> "" -> c_year c = year_number (l_year f) /\ c_term c = l_term f) /\
  (if String.eqb (l_inst f) "" then c_stolaf c = true else c_institution c = l_inst f).
Definition carries (name inst : string) (c : course) : Prop :=
  (name <> "" -> c_name c = name) /\ (inst <> "" -> c_institution c = inst).
(** the first course with a property *)
Definition first_of (P : course -> Prop) (l : list course) (o : option course) : Prop :=
  match o with
  | Some c => exists a b, l = a ++ c :: b /\ P c /\ forall x, In x a -> ~ P x
  | None => forall x, In x l -> ~ P x
  end%list.
Definition year_given (y : string) : option Z := if String.eqb y "" then None else Some (year_number y).
Inductive label_means (transcript : list course) : string -> option template -> Prop :=
| lm_id s f left_over o : identifies s f left_over -> first_of (fits f) transcript o ->
    label_means transcript s (Some (mkTemplate (match o with Some c => c_subject c | None => l_subject f end)
                                               (match o with Some c => c_number c | None => l_num f end)
                                               (l_section f) (l_sub f) (year_given (l_year f)) (l_term f) (l_inst f) ""
                                               (match o with Some c => c_clbid c | None => "" end)))
| lm_name s n i o : (forall f r, ~ identifies s f r) -> names s n i -> first_of (carries n i) transcript o ->
    label_means transcript s (Some (mkTemplate (match o with Some c => c_subject c | None => "" end)
                                               (match o with Some c => c_number c | None => "" end)
                                               "" "" None "" i n (match o with Some c => c_clbid c | None => "" end)))
| lm_none s : (forall f r, ~ identifies s f r) -> (forall n i, ~ names s n i) -> label_means transcript s None.

(** ** Labels as they are written *)
Definition written (f : fields) : string :=
  l_subject f ++ " " ++ l_num f ++ l_section f ++
  (if String.eqb (l_sub f) "" then "" else "." ++ l_sub f) ++
  (if String.eqb (l_year f) "" then "" else " " ++ l_year f ++ "-" ++ l_term f) ++
  (if String.eqb (l_inst f) "" then "" else " [" ++ l_inst f ++ "]").
Definition letter_or_none (s : string) : Prop := s = "" \/ exists c, s = one c /\ letter c.
Definition well_formed (f : fields) : Prop :=
  (2 <= String.length (l_subject f) <= 5)%nat /\ all_in ("/"%char :: capitals) (l_subject f) /\
  String.length (l_num f) = 3 /\ all_in numerals (l_num f) /\
  letter_or_none (l_section f) /\ letter_or_none (l_sub f) /\
  (l_year f = "" /\ l_term f = "" \/ year_text (l_year f) /\ exists t, l_term f = one t /\ t <> linefeed) /\
  line (l_inst f).

(** ** The templates of a student *)
(** all pairs of a key and what one of its labels means *)
Definition meant (data : list (string * list string)) (transcript : list course) (kt : string * template) : Prop :=
  exists labels label, In (fst kt, labels) data /\ In label labels /\ label_means transcript label (Some (snd kt)).
(** sorted by key, then by the fields *)
Inductive before_year : option Z -> option Z -> Prop :=
| by_none y : before_year None (Some y)
| by_some x y : (x < y)%Z -> before_year (Some x) (Some y).
Inductive skey := SK (s : string) | YK (y : option Z).
Definition skey_lt (a b : skey) : Prop :=
  match a, b with SK s, SK t => String.compare s t = Lt | YK x, YK y => before_year x y | _, _ => False end.
Definition sort_fields (kt : string * template) : list skey :=
  let t := snd kt in
  [SK (fst kt); SK (tp_subject t); SK (tp_num t); SK (tp_section t); SK (tp_sub_type t); YK (tp_year t); SK (tp_term t);
   SK (tp_institution t); SK (tp_name t); SK (tp_clbid t)]%list.
Inductive fields_lt : list skey -> list skey -> Prop :=
| fl_here x y l m : skey_lt x y -> fields_lt (x :: l) (y :: m)
| fl_there x l m : fields_lt l m -> fields_lt (x :: l) (x :: m).
Definition ascending (l : list (string * template)) : Prop :=
  StronglySorted (fun a b => fields_lt (sort_fields a) (sort_fields b)) l.
(** the templates of one key, in order *)
Inductive of_key (k : string) : list (string * template) -> list template -> Prop :=
| ok_nil : of_key k [] []
| ok_same t l ts : of_key k l ts -> of_key k ((k, t) :: l) (t :: ts)
| ok_other k' t l ts : k' <> k -> of_key k l ts -> of_key k ((k', t) :: l) ts.
