(** What auditing a list of students comes to, said without messages. *)
From Coq Require Import List ZArith QArith Bool String Ascii Sorted.
From Verif Require Import Transcript Prelude Dec Status Course Exceptions Paths Context Predicate Tree Loader Driver Area AreaLoad Label StudentLoad Run Json Report Claimed Catalog Client Bulk.
From Verif Require Import LabelSpec StudentSpec LimitLoadSpec ClientSpec.
Import ListNotations.
Local Open Scope string_scope.
Local Open Scope list_scope.

(** ** What is asked for *)

(** the words of a line *)
Inductive separated : string -> list string -> Prop :=
| sp_none s : all_in StudentSpec.blanks s -> separated s []
| sp_word a w r l : all_in StudentSpec.blanks a -> w <> "" -> no_blank w -> r = "" \/ (exists c t, r = String c t /\ In c StudentSpec.blanks) ->
    separated r l -> separated (a ++ w ++ r)%string (w :: l).
(** lexicographic order *)
Inductive not_behind : list string -> list string -> Prop :=
| nb_nil l : not_behind [] l
| nb_less x y a b : String.compare x y = Lt -> not_behind (x :: a) (y :: b)
| nb_same x a b : not_behind a b -> not_behind (x :: a) (x :: b).
(** every line once, in order, the whole [n] times *)
Definition to_do (lines : list string) (n : Z) (rows : list (list string)) : Prop :=
  exists once, StronglySorted not_behind once /\ NoDup once /\ (forall l, In l once <-> exists s, In s lines /\ separated s l) /\
    rows = List.concat (repeat once (Z.to_nat n)).
(** the catalog up to its first dash *)
Definition starts_of (catalog y : string) : Prop :=
  ~ In "-"%char (list_ascii_of_string y) /\ (catalog = y \/ exists t, catalog = (y ++ "-" ++ t)%string).

(** ** One of them *)
Section Row.
  Variable tord : list (string * template) -> list (string * template).
  Variable ord : list course -> list course.
  Variable nord : list node -> list node.
  Variables (repr quote : string -> string) (g4 dtext : Q -> string).

  (** the error is reported with the student's number *)
  Definition fails (d : sdata) (e : ends) : Prop :=
    (d_stnum d <> None /\ e = Some (Ok 1%Z)) \/ (d_stnum d = None /\ e = Some (Err KeyErr)).
  (** what is printed of the best result *)
  Definition shows (o : bulk_options) (stnum catalog code : string) (transcript : list course) (v : area_result) (p : bline) : Prop :=
    (bo_table o = true /\ (exists j, area_json v = Ok j) /\ exists q m, area_rank v = Ok (q, m) /\
       p = BTable stnum catalog code (JStr (str_of_dec (area_gpa v))) (JNum q) (JNum m)) \/
    (bo_table o = false /\ exists l, print_area repr quote g4 dtext (bo_paths o) (bo_ranks o) transcript None v = Ok l /\ p = BReport l).
  Inductive audit_ends (o : bulk_options) (d : sdata) (xs : list raw_entry) (s : spec) (stnum catalog code : string) : list bline -> ends -> Prop :=
  | ae_transcript es st : bo_transcript o = true -> run_student tord d xs s = Ok (es, st) ->
      audit_ends o d xs s stnum catalog code [BTranscript (map transcript_row_of (t_courses (sl_student st)))] None
  | ae_no_transcript x e : bo_transcript o = true -> run_student tord d xs s = Err x -> fails d e -> audit_ends o d xs s stnum catalog code [] e
  | ae_broke an x u e : bo_transcript o = false -> comes_to tord ord nord d xs s an (Broke x) u -> fails d e -> audit_ends o d xs s stnum catalog code [] e
  | ae_none an u : bo_transcript o = false -> comes_to tord ord nord d xs s an NoWay u -> audit_ends o d xs s stnum catalog code [] (Some (Ok 2%Z))
  | ae_best an v n u es st p : bo_transcript o = false -> comes_to tord ord nord d xs s an (Best v n) u -> run_student tord d xs s = Ok (es, st) ->
      shows o stnum catalog code (t_failed (sl_student st)) v p -> audit_ends o d xs s stnum catalog code [p] None
  | ae_unseen an v n u es st e : bo_transcript o = false -> comes_to tord ord nord d xs s an (Best v n) u -> run_student tord d xs s = Ok (es, st) ->
      (forall p, ~ shows o stnum catalog code (t_failed (sl_student st)) v p) -> fails d e -> audit_ends o d xs s stnum catalog code [] e.
  (** one of the rows: what is printed, and whether the program ends there *)
  Inductive row_ends (o : bulk_options) (w : world) : list string -> list bline -> ends -> Prop :=
  | re_shape row : List.length row <> 3%nat -> row_ends o w row [] (Some (Err ValueErr))
  | re_year stnum catalog code y x : starts_of catalog y -> py_int y = Err x -> row_ends o w [stnum; catalog; code] [] (Some (Err x))
  | re_no_area stnum catalog code y year : starts_of catalog y -> py_int y = Ok year -> find_area (wd_listing w) year code = None ->
      row_ends o w [stnum; catalog; code] [BMissing code catalog] (Some (Ok 1%Z))
  | re_invocation stnum catalog code y year folder : starts_of catalog y -> py_int y = Ok year -> find_area (wd_listing w) year code = Some folder ->
      bo_invocation o = true -> row_ends o w [stnum; catalog; code] [BInvocation stnum folder code] None
  | re_no_student stnum catalog code y year folder x : starts_of catalog y -> py_int y = Ok year -> find_area (wd_listing w) year code = Some folder ->
      bo_invocation o = false -> wd_student w stnum = Err x -> row_ends o w [stnum; catalog; code] [] (Some (Err x))
  | re_no_spec stnum catalog code y year folder d xs x : starts_of catalog y -> py_int y = Ok year -> find_area (wd_listing w) year code = Some folder ->
      bo_invocation o = false -> wd_student w stnum = Ok (d, xs) -> wd_area w folder code = Err x -> row_ends o w [stnum; catalog; code] [] (Some (Err x))
  | re_no_number stnum catalog code y year folder d xs s : starts_of catalog y -> py_int y = Ok year -> find_area (wd_listing w) year code = Some folder ->
      bo_invocation o = false -> wd_student w stnum = Ok (d, xs) -> wd_area w folder code = Ok s ->
      bo_quiet o = false -> bo_table o = false -> d_stnum d = None -> row_ends o w [stnum; catalog; code] [] (Some (Err KeyErr))
  | re_audit stnum catalog code y year folder d xs s out e : starts_of catalog y -> py_int y = Ok year -> find_area (wd_listing w) year code = Some folder ->
      bo_invocation o = false -> wd_student w stnum = Ok (d, xs) -> wd_area w folder code = Ok s ->
      bo_quiet o = true \/ bo_table o = true \/ d_stnum d <> None -> audit_ends o d xs s stnum catalog code out e ->
      row_ends o w [stnum; catalog; code] out e.
  (** the rows one after the other, up to the first at which the program ends *)
  Inductive rows_end (o : bulk_options) (w : world) : list (list string) -> list bline -> res Z -> Prop :=
  | rs_all rows outs : Forall2 (fun r out => row_ends o w r out None) rows outs -> rows_end o w rows (List.concat outs) (Ok 0%Z)
  | rs_stop done outs r out z rest : Forall2 (fun r out => row_ends o w r out None) done outs -> row_ends o w r out (Some z) ->
      rows_end o w (done ++ r :: rest) (List.concat outs ++ out) z.
End Row.
