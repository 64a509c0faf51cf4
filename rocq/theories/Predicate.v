(** dp/predicate_clause.py, dp/constants.py and the apply_predicate methods of the items
    a where clause can be applied to. The lru_cache tables on the methods are left out. *)
From Coq Require Import List ZArith Bool String Ascii.
From Verif Require Import Prelude Dec Course Op Context CondExpr.
Import ListNotations.
Local Open Scope string_scope.
Local Open Scope list_scope.

(** dp/predicate_clause.py:179-186 Predicate ([original] is only printed) *)
Record leaf := mkLeaf { l_key : string; l_op : operator; l_expected : value; l_covid : option value }.

(** dp/predicate_clause.py:108-158 the loaded clauses *)
Inductive pred :=
| PAnd (l : list pred)
| POr (l : list pred)
| PNot (p : pred)
| PIf (c : pexpr) (t : pred) (e : option pred)
| PLeaf (l : leaf).

(** the items clauses are applied to (dp/data_type.py; recitals are plain slips) *)
Inductive item := ICourse (c : course) | IArea (a : area_ptr) | IPerf (p : performance) | ISlip (s : slip).

(** dp/predicate_clause.py:219-221 compare *)
Definition compare_leaf (l : leaf) (v : value) : res bool := apply_operator (l_op l) v (l_expected l).
(** dp/predicate_clause.py:223-227 compare_in_covid. The second half of the test on line 225
    is always true: an expected value is never None (line 341). *)
Definition compare_in_covid (l : leaf) (v : value) : res bool :=
  match l_covid l with
  | None => compare_leaf l v
  | Some w => apply_operator (l_op l) v w
  end.

(** member names (dp/data/course_enums.py:25-34, 45-62) *)
Definition sub_type_name (s : sub_type) : string :=
  match s with
  | StDiscussion => "Discussion" | StEnsemble => "Ensemble" | StFlac => "Flac" | StLab => "Lab"
  | StResearch => "Research" | StSeminar => "Seminar" | StTopic => "Topic" | StNormal => "Normal"
  end.
Definition course_type_name (t : course_type) : string :=
  match t with
  | CtSemester => "Semester" | CtInterim => "Interim" | CtSummer => "Summer" | CtCarleton => "Carleton"
  | CtInterimExchange => "InterimExchange" | CtOffCampusCourse => "OffCampusCourse"
  | CtOffCampusProgram => "OffCampusProgram" | CtContinuingEducation => "ContinuingEducation"
  | CtAP => "AP" | CtPSEO => "PSEO" | CtAdjustment => "Adjustment" | CtGeReq => "GeReq"
  | CtOther => "Other" | CtTransfer => "Transfer" | CtParaCollege => "ParaCollege"
  end.

Definition vstr (s : string) : value := VS (SStr s).
Definition vstrs (l : list string) : value := VT (map SStr l).

(** dp/data/course.py:180-189 apply_predicate__subject: what the clause is compared with *)
Definition subject_value (c : course) : string :=
  match c_chbi c with
  | Some n => if ((n =? 125) || (n =? 126))%Z then "CHEM" else "BIO"
  | None => c_subject c
  end.
(** dp/data/course.py:192-202 apply_predicate__grade *)
Definition apply_grade (c : course) (l : leaf) : res bool :=
  if c_covid c then
    let v := match c_grade_code c, c_su_grade c with
             | G_S, Some g => g
             | g, _ => g
             end in
    compare_in_covid l (VS (SGrade v))
  else compare_leaf l (VS (SGrade (c_grade_code c))).

(** dp/data/course.py:149-284 apply_predicate and clause_application_lookup *)
Definition course_apply (c : course) (l : leaf) : res bool :=
  let k := l_key l in
  if k =? "ap" then if course_type_eqb (c_course_type c) CtAP then compare_leaf l (vstr (c_name c)) else Ok false
  else if k =? "attributes" then compare_leaf l (vstrs (c_attributes c))
  else if k =? "attribute" then compare_leaf l (vstrs (c_attributes c))
  else if k =? "clbid" then compare_leaf l (vstr (c_clbid c))
  else if k =? "course" then compare_leaf l (vstr (c_identity c))
  else if k =? "course_type" then compare_leaf l (vstr (course_type_name (c_course_type c)))
  else if k =? "credits" then compare_leaf l (VS (SDec (c_credits c)))
  else if k =? "crsid" then compare_leaf l (vstr (c_crsid c))
  else if k =? "gereqs" then compare_leaf l (vstrs (c_gereqs c))
  else if k =? "grade" then apply_grade c l
  else if k =? "grade_option" then compare_leaf l (VS (SOpt (c_grade_option c)))
  else if k =? "institution" then compare_leaf l (vstr (c_institution c))
  else if k =? "is_in_gpa" then compare_leaf l (VS (SBool (c_in_gpa c)))
  else if k =? "is_in_progress" then compare_leaf l (VS (SBool (c_in_progress c)))
  else if k =? "is_stolaf" then compare_leaf l (VS (SBool (c_stolaf c)))
  else if k =? "lab" then compare_leaf l (VS (SBool (c_lab c)))
  else if k =? "level" then compare_leaf l (VS (SInt (c_level c)))
  else if k =? "name" then compare_leaf l (vstr (c_name c))
  else if k =? "number" then compare_leaf l (vstr (c_number c))
  else if k =? "semester" then compare_leaf l (vstr (c_term c))
  else if k =? "subject" then compare_leaf l (vstr (subject_value c))
  else if k =? "type" then compare_leaf l (vstr (sub_type_name (c_sub_type c)))
  else if k =? "year" then compare_leaf l (VS (SInt (c_year c)))
  else Err AssertErr.

(** dp/data/area_enums.py:5-18 member names *)
Definition area_status_name (s : area_status) : string :=
  match s with
  | AsWhatIf => "WhatIf" | AsWhatIfDrop => "WhatIfDrop" | AsDeclared => "Declared"
  | AsCertified => "Certified" | AsAwarded => "Awarded"
  end.
Definition area_kind_name (k : area_kind) : string :=
  match k with
  | AkDegree => "Degree" | AkMajor => "Major" | AkConcentration => "Concentration" | AkEmphasis => "Emphasis"
  end.
(** dp/data/area_pointer.py:71-93 *)
Definition area_apply (a : area_ptr) (l : leaf) : res bool :=
  let k := l_key l in
  if k =? "code" then compare_leaf l (vstr (a_code a))
  else if k =? "status" then compare_leaf l (vstr (area_status_name (a_status a)))
  else if (k =? "kind") || (k =? "type") then compare_leaf l (vstr (area_kind_name (a_kind a)))
  else if k =? "name" then compare_leaf l (vstr (a_name a))
  else if k =? "degree" then compare_leaf l (vstr (a_degree a))
  else if k =? "gpa" then match a_gpa a with Some g => compare_leaf l (VS (SDec g)) | None => Ok false end
  else Err TypeErr.
(** dp/data/music.py:38-48 *)
Definition slip_apply (s : slip) (l : leaf) : res bool :=
  let k := l_key l in
  if k =? "name" then compare_leaf l (vstr (s_name s))
  else if k =? "year" then compare_leaf l (VS (SInt (s_year s)))
  else if k =? "term" then compare_leaf l (VS (SInt (s_term s)))
  else Err TypeErr.
(** dp/data/music.py:38-48, 94-105 *)
Definition perf_apply (p : performance) (l : leaf) : res bool :=
  let k := l_key l in
  if k =? "status" then
    match mp_status p with
    | None => Ok false
    | Some PsEntrance => compare_leaf l (vstr "entrance")
    | Some PsContinuance => compare_leaf l (vstr "continuance")
    end
  else if k =? "role" then
    match mp_role p with
    | None => Ok false
    | Some r => if r =? "" then Ok false else compare_leaf l (vstr r)
    end
  else slip_apply (mp_slip p) l.

(** dp/predicate_clause.py:229-231 Predicate.apply *)
Definition leaf_apply (x : item) (l : leaf) : res bool :=
  match x with
  | ICourse c => course_apply c l
  | IArea a => area_apply a l
  | IPerf p => perf_apply p l
  | ISlip s => slip_apply s l
  end.

(** the apply methods (dp/predicate_clause.py:118-120, 133-135, 148-150, 169-176) *)
Fixpoint apply_pred (x : item) (p : pred) : res bool :=
  match p with
  | PAnd l => all_res (apply_pred x) l
  | POr l => any_res (apply_pred x) l
  | PNot q => let! b := apply_pred x q in Ok (negb b)
  | PIf c t e =>
    if truthy (e_result c) then apply_pred x t
    else match e with Some q => apply_pred x q | None => Ok false end
  | PLeaf l => leaf_apply x l
  end.

(** ** Loading *)

(** dp/constants.py:20-25; the medium is a string or a tuple of strings *)
Record constants := mkConst {
  k_matriculation : Z; k_terms : Z; k_medium : string + list string; k_code : string }.

Definition starts_dollar (s : string) : bool :=
  match s with String c _ => Ascii.eqb c "$" | EmptyString => false end.
(** dp/constants.py:27-53 get_by_name: ValueError for an unknown name (line 34) *)
Definition get_by_name (c : constants) (s : scalar) : res (list scalar + scalar) :=
  match s with
  | SStr v =>
    if negb (starts_dollar v) then Ok (inr s)
    else if v =? "$matriculation-year" then Ok (inr (SInt (k_matriculation c)))
    else if v =? "$terms-since-declaring-major" then Ok (inr (SInt (k_terms c)))
    else if v =? "$primary-performing-medium" then
      match k_medium c with
      | inl m => Ok (inr (SStr m))
      | inr ms => Ok (inl (map SStr ms))
      end
    else if v =? "$current-area-code" then Ok (inr (SStr (k_code c)))
    else if v =? "$current-area-code-music-exam" then Ok (inr (SStr (String.append "Exam: " (k_code c))))
    else Err ValueErr
  | _ => Ok (inr s)
  end.

(** dp/data/course_enums.py:88-118 GradeCode(value) *)
Definition grade_of_value (s : string) : res grade_code :=
  match find (fun p => fst p =? s)
    [("A", GA); ("A+", GAplus); ("A-", GAminus); ("B", GB); ("B+", GBplus); ("B-", GBminus);
     ("C", GC); ("C+", GCplus); ("C-", GCminus); ("D", GD); ("D+", GDplus); ("D-", GDminus);
     ("F", GF); ("BC", G_BC); ("AB", G_AB); ("NG", G_NG); ("IP", G_IP); ("I", G_I); ("P", G_P);
     ("N", G_N); ("S", G_S); ("U", G_U); ("AU", G_AU); ("UA", G_UA); ("WF", G_WF); ("WP", G_WP);
     ("W", G_W); ("DP_REG", G_REG)] with
  | Some (_, g) => Ok g
  | None => Err ValueErr
  end.
(** dp/data/course_enums.py:6-12 GradeOption(value) *)
Definition option_of_value (s : string) : res grade_option :=
  match find (fun p => fst p =? s)
    [("audit", GoAudit); ("grade", GoGrade); ("no grade", GoNoGrade); ("p/n", GoPN); ("s/u", GoSU)] with
  | Some (_, g) => Ok g
  | None => Err ValueErr
  end.

(** [Decimal(s)] for the plain notation [-]digits[.digits]; exponents, underscores and
    special values are left out (they give an error here). *)
Definition digit_of (a : ascii) : option Z :=
  let n := Z.of_nat (nat_of_ascii a) in
  if ((48 <=? n) && (n <=? 57))%Z then Some (n - 48)%Z else None.
Fixpoint dec_frac (s : string) (coef : Z) (ex : Z) : option dec :=
  match s with
  | EmptyString => Some (mkDec coef ex)
  | String a t => match digit_of a with Some d => dec_frac t (coef * 10 + d)%Z (ex - 1)%Z | None => None end
  end.
Fixpoint dec_int (s : string) (coef : Z) : option dec :=
  match s with
  | EmptyString => Some (mkDec coef 0)
  | String a t =>
    if Ascii.eqb a "." then match t with EmptyString => None | _ => dec_frac t coef 0 end
    else match digit_of a with Some d => dec_int t (coef * 10 + d)%Z | None => None end
  end.
Definition dec_of_str (s : string) : res dec :=
  let r := match s with
           | EmptyString => None
           | String "-" EmptyString => None
           | String "-" t => match dec_int t 0 with Some d => Some (mkDec (- dcoef d) (dexp d)) | None => None end
           | _ => dec_int s 0
           end in
  match r with Some d => Ok d | None => Err ValueErr end.
(** [Decimal(x)] of a scalar *)
Definition dec_of_scalar (s : scalar) : res dec :=
  match s with
  | SInt z => Ok (dec_of_Z z)
  | SBool b => Ok (dec_of_Z (if b then 1 else 0))
  | SDec d => Ok d
  | SStr t => dec_of_str t
  | _ => Err TypeErr
  end.

(** GradeCode(v): only strings are values of the enum *)
Definition grade_of_scalar (s : scalar) : res scalar :=
  match s with
  | SStr t => let! g := grade_of_value t in Ok (SGrade g)
  | SGrade g => Ok (SGrade g)
  | _ => Err ValueErr
  end.

(** dp/predicate_clause.py:380-407 clause_value_process. A tuple for credits or gpa is read
    by Decimal as (sign, digits, exponent) and does not occur; it gives an error here. *)
Definition process_value (key : string) (v : value) : res value :=
  if key =? "grade" then
    match v with
    | VS s => let! g := grade_of_scalar s in Ok (VS g)
    | VT l => let! gs := mapr grade_of_scalar l in Ok (VT gs)
    end
  else if key =? "grade_option" then
    match v with
    | VS (SStr t) => let! o := option_of_value t in Ok (VS (SOpt o))
    | VS (SOpt o) => Ok v
    | _ => Err ValueErr
    end
  else if (key =? "credits") || (key =? "gpa") then
    match v with
    | VS s => let! d := dec_of_scalar s in Ok (VS (SDec d))
    | VT _ => Err ValueErr
    end
  else Ok v.

(** dp/predicate_clause.py:351-377 load_expected_value. The value is a bool, string, int,
    Decimal or a flat tuple; anything else raises. *)
Definition load_value (c : constants) (key : string) (v : value) : res value :=
  match v with
  | VS (SNone | SGrade _ | SOpt _) => Err AssertErr
  | VS s =>
    let! x := get_by_name c s in
    process_value key (match x with inl l => VT l | inr y => VS y end)
  | VT l =>
    let! xs := mapr (get_by_name c) l in
    process_value key (VT (flat_map (fun x => match x with inl l => l | inr y => [y] end) xs))
  end.

(** dp/data_type.py: what the items of a query are *)
Inductive data_type := DtCourse | DtArea | DtPerformance | DtRecital.

Definition course_keys : list string :=
  ["ap"; "attributes"; "attribute"; "clbid"; "course"; "course_type"; "credits"; "crsid"; "gereqs";
   "grade"; "grade_option"; "institution"; "is_in_gpa"; "is_in_progress"; "is_stolaf"; "lab"; "level";
   "name"; "number"; "semester"; "subject"; "type"; "year"].
Definition area_keys : list string := ["code"; "status"; "kind"; "type"; "name"; "degree"; "gpa"].
(** dp/predicate_clause.py:312-319 *)
Definition allowed_keys (m : data_type) : res (list string) :=
  match m with
  | DtCourse => Ok course_keys
  | DtArea => Ok area_keys
  | DtPerformance => Ok ["name"; "status"; "role"]
  | DtRecital => Err OtherErr
  end.

(** the dictionary of a single clause: its operator entries and its $during_covid entry *)
Record clause_data := mkClause { cd_ops : list (operator * value); cd_covid : option value }.

(** dp/predicate_clause.py:301-348 load_single_predicate, with no forbidden operators *)
Definition load_single (c : constants) (m : data_type) (key : string) (d : clause_data) : res leaf :=
  let! keys := allowed_keys m in
  if negb (existsb (String.eqb key) keys) then Err AssertErr else
  match cd_ops d with
  | [(op, raw)] =>
    let! v := load_value c key raw in
    let! cov := match cd_covid d with
                | None => Ok None
                | Some w => let! x := load_value c key w in Ok (Some x)
                end in
    match op, v with
    | (OIn | ONin), VT l => if forallb (fun s => negb (is_none s)) l then Ok (mkLeaf key op v cov) else Err AssertErr
    | (OIn | ONin), VS (SStr _) => Ok (mkLeaf key op v cov)          (* iterates over the characters *)
    | (OIn | ONin), VS _ => Err TypeErr
    | _, VS SNone => Err AssertErr
    | _, _ => Ok (mkLeaf key op v cov)
    end
  | _ => Err AssertErr
  end.

(** the specification data of a where clause *)
Inductive wdata :=
| WAnd (l : list wdata) | WOr (l : list wdata) | WNot (w : wdata)
| WIf (c : xdata) (t : wdata) (e : option wdata)
| WKeys (l : list (string * clause_data)).

Definition nonempty {A} (l : list A) : bool := match l with [] => false | _ => true end.

(** dp/predicate_clause.py:243-298 load_predicate *)
Fixpoint load_predicate (cx : ctx) (c : constants) (m : data_type) (w : wdata) : res pred :=
  match w with
  | WAnd l => let! ps := mapr (load_predicate cx c m) l in if nonempty ps then Ok (PAnd ps) else Err AssertErr
  | WOr l => let! ps := mapr (load_predicate cx c m) l in if nonempty ps then Ok (POr ps) else Err AssertErr
  | WNot w => let! p := load_predicate cx c m w in Ok (PNot p)
  | WIf x t e =>
    let! cond := load_expr cx x in
    let! pt := load_predicate cx c m t in
    let! pe := match e with None => Ok None | Some q => let! r := load_predicate cx c m q in Ok (Some r) end in
    Ok (PIf cond pt pe)
  | WKeys l =>
    let! ls := mapr (fun kd => load_single c m (fst kd) (snd kd)) l in
    match ls with
    | [x] => Ok (PLeaf x)
    | _ => Ok (PAnd (map PLeaf ls))
    end
  end.
