(** Student.load and constants (dp/data/student.py:79-170), AreaPointer.from_dict and the music classes'
    from_dict. The data of a student is given by what it holds under each key;
    keys that may be absent are options, and an absent list or dictionary is an empty one.
    Rows of courses are as in [Transcript]; numbers in the data are integers, not floats. *)
From Coq Require Import List Bool Arith ZArith QArith String Ascii.
From Verif Require Import Prelude Dec Paths Claims Course Exceptions Context Predicate Transcript Loader Label Area.
From Verif Require Export Keys.
Import ListNotations.
Local Open Scope string_scope.

(** null, true or false, an integer or a text *)
Inductive jv := JNull | JBool (b : bool) | JInt (z : Z) | JStr (s : string).
(** [int(v)] *)
Definition int_of (v : jv) : res Z :=
  match v with
  | JNull => Err TypeErr
  | JBool b => Ok (if b then 1 else 0)%Z
  | JInt z => Ok z
  | JStr s => py_int s
  end.
(** [Decimal(v)] *)
Definition decimal_of (v : jv) : res dec :=
  match v with
  | JNull => Err TypeErr
  | JBool b => Ok (mkDec (if b then 1 else 0) 0)
  | JInt z => Ok (mkDec z 0)
  | JStr s => dec_of_str s
  end.
(** [not v] *)
Definition falsy (v : jv) : bool :=
  match v with JNull => true | JBool b => negb b | JInt z => (z =? 0)%Z | JStr s => s =? "" end.

(** dp/data/area_enums.py:5-18 *)
Definition area_status_of : string -> res Context.area_status := of_table
  [("what-if", AsWhatIf); ("what-if-drop", AsWhatIfDrop); ("declared", AsDeclared); ("certified", AsCertified); ("awarded", AsAwarded)].
Definition area_kind_of : string -> res area_kind := of_table
  [("degree", AkDegree); ("major", AkMajor); ("concentration", AkConcentration); ("emphasis", AkEmphasis)].
Record raw_area := mkRawArea {
  ra_code : option string; ra_status : option string; ra_kind : option string; ra_name : option string;
  ra_degree : option string; ra_gpa : option jv; ra_dept : option string; ra_terms : option Z }.
(** dp/data/area_pointer.py:56-69 from_dict *)
Definition load_pointer (a : raw_area) : res area_ptr :=
  let! code := key (ra_code a) in
  let! status := bind (key (ra_status a)) area_status_of in
  let! kind := bind (key (ra_kind a)) area_kind_of in
  let! name := key (ra_name a) in
  let! degree := key (ra_degree a) in
  let! gpa := match ra_gpa a with Some v => let! d := decimal_of v in Ok (Some d) | None => Ok None end in
  Ok (mkArea code status kind name degree (ra_dept a) gpa (ra_terms a)).

(** dp/data/music.py:71-75 muspf_status_lookup *)
Definition perf_status_of (s : string) : res (option perf_status) :=
  if s =? "E" then Ok (Some PsEntrance) else if s =? "C" then Ok (Some PsContinuance)
  else if s =? "" then Ok None else Err KeyErr.
Record raw_slip := mkRawSlip { rs_name : option string; rs_id : option string; rs_year : option jv; rs_term : option jv }.
Record raw_perf := mkRawPerf { rp_slip : raw_slip; rp_role : option string; rp_status : option string }.
(** dp/data/music.py:114-120 MusicAttendance.from_dict *)
Definition load_slip (r : raw_slip) : res slip :=
  let! name := key (rs_name r) in
  let! id := key (rs_id r) in
  let! year := bind (key (rs_year r)) int_of in
  let! term := bind (key (rs_term r)) int_of in
  Ok (mkSlip year id term name).
(** dp/data/music.py:84-92 MusicPerformance.from_dict *)
Definition load_perf (r : raw_perf) : res performance :=
  let! s := load_slip (rp_slip r) in
  let! status := perf_status_of (get (rp_status r) "") in
  Ok (mkPerf s (rp_role r) status).
(** dp/data/music.py:62-63 sort_order *)
Definition slip_cmp (a b : slip) : comparison :=
  then_cmp (Z.compare (s_year a) (s_year b))
    (then_cmp (Z.compare (s_term a) (s_term b))
       (then_cmp (String.compare (s_name a) (s_name b)) (String.compare (s_id a) (s_id b)))).
Definition slip_leb (a b : slip) : bool := match slip_cmp a b with Gt => false | _ => true end.
Definition perf_leb (a b : performance) : bool := slip_leb (mp_slip a) (mp_slip b).

(** dp/data/music.py:133-141 MusicProficiencyStatus.parse *)
Definition parse_proficiency (v : jv) : res prof_status :=
  match v with
  | JBool b => Ok (if b then PrYes else PrNo)
  | JStr s => if s =? "" then Ok PrNo else of_table [("N", PrNo); ("Y", PrYes); ("E", PrExam); ("C", PrClass)] s
  | _ => Err ValueErr
  end.
(** dp/data/music.py:153-160 MusicProficiencies.from_dict *)
Definition load_proficiencies (d : list (string * jv)) : res proficiencies :=
  let look k := parse_proficiency (get (dget d k) (JStr "N")) in
  let! g := look "guitar" in
  let! k1 := look "keyboard_1" in
  let! k2 := look "keyboard_2" in
  let! k3 := look "keyboard_3" in
  let! k4 := look "keyboard_4" in
  Ok (mkProf g k1 k2 k3 k4).

(** [s.split(', ')]; [acc] is the part read so far *)
Fixpoint split_comma (s acc : string) : list string :=
  match s with
  | "" => [acc]
  | String c t =>
    match t with
    | String d u => if Ascii.eqb c "," && Ascii.eqb d " " then acc :: split_comma u "" else split_comma t (acc ++ String c "")
    | "" => split_comma t (acc ++ String c "")
    end
  end.
(** dp/data/music.py:200-205 parse_medium *)
Definition parse_medium (s : string) : string + list string :=
  if existsb (Ascii.eqb ",") (list_ascii_of_string s) then inr (map strip (split_comma s "")) else inl s.
(** dp/data/music.py:194-214 MusicMediums *)
Definition medium := (string + list string)%type.
Record mediums := mkMediums { md_ppm : medium; md_ppm2 : medium; md_spm : medium; md_spm2 : medium }.
Definition load_mediums (d : list (string * string)) : mediums :=
  let look k := parse_medium (get (dget d k) "Unknown") in
  mkMediums (look "ppm") (look "ppm2") (look "spm") (look "spm2").

(** the keys of the data of a student *)
Record sdata := mkData {
  d_stnum : option string; d_curriculum : option jv; d_catalog : option jv; d_matriculation : option jv;
  d_areas : list raw_area; d_current_term : option string; d_courses : list row;
  d_perf : list raw_perf; d_slips : list raw_slip; d_prof : list (string * jv); d_mediums : list (string * string);
  d_templates : list (string * list string) }.
(** dp/data/student.py:61-79 Student *)
Record loaded := mkLoaded {
  sl_stnum : string; sl_curriculum : Z; sl_catalog : Z; sl_matriculation : Z; sl_code : string;
  sl_student : student; sl_mediums : mediums; sl_templates : list (string * template) }.

(** dp/data/student.py:115-119 *)
Definition matriculation_of (o : option jv) : res Z :=
  match o with Some v => if falsy v then Ok 0%Z else int_of v | None => Ok 0%Z end.
(** dp/data/student.py:129-132 *)
Definition curriculum_of (o : option jv) : res Z :=
  int_of (match get o (JStr "None") with JStr s => JStr (if s =? "None" then "0" else s) | v => v end).
(** dp/data/student.py:134-138 *)
Definition catalog_of (o : option jv) : res Z :=
  match int_of (get o (JInt 0)) with Err ValueErr => Ok 0%Z | r => r end.

(** dp/data/student.py:80-154 load; [tord] is the order of the set of templates *)
Definition load_student (tord : list (string * template) -> list (string * template)) (d : sdata)
    (code : string) (os : list exc) (credits : list (string * string)) : res loaded :=
  let! areas := mapr load_pointer (d_areas d) in
  let areas := student_areas code areas in
  let! courses := student_courses (d_current_term d) os credits false (d_courses d) in
  let! failed := student_courses (d_current_term d) os credits true (d_courses d) in
  let! perf := mapr load_perf (d_perf d) in
  let! slips := mapr load_slip (d_slips d) in
  let! prof := load_proficiencies (d_prof d) in
  let mediums := load_mediums (d_mediums d) in
  let! matriculation := matriculation_of (d_matriculation d) in
  let! templates := templates_of tord (d_templates d) courses in
  let! curriculum := curriculum_of (d_curriculum d) in
  let! catalog := catalog_of (d_catalog d) in
  Ok (mkLoaded (get (d_stnum d) "000000") curriculum catalog matriculation code
        (mkStudent courses failed areas (isort perf_leb perf) (isort slip_leb slips) prof) mediums templates).
(** dp/data/student.py:156-170 constants *)
Definition constants_of (s : loaded) : constants :=
  mkConst (sl_matriculation s) (terms_since_declaring (sl_code s) (t_areas (sl_student s))) (md_ppm (sl_mediums s)) (sl_code s).
