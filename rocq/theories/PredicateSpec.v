(** Where clauses as boolean formulas over fields of an item. *)
From Coq Require Import List ZArith Bool String Ascii.
From Verif Require Import Prelude Dec Course Op Context CondExpr CondExprSpec Predicate.
Import ListNotations.
Local Open Scope string_scope.

(** CH/BI courses count as chemistry or biology *)
Inductive counted_subject : course -> string -> Prop :=
| cs_plain c : c_chbi c = None -> counted_subject c (c_subject c)
| cs_125 c : c_chbi c = Some 125%Z -> counted_subject c "CHEM"
| cs_126 c : c_chbi c = Some 126%Z -> counted_subject c "CHEM"
| cs_bio c n : c_chbi c = Some n -> n <> 125%Z -> n <> 126%Z -> counted_subject c "BIO".

(** the grade a clause looks at *)
Inductive counted_grade : course -> grade_code -> Prop :=
| cg_normal c : c_covid c = false -> counted_grade c (c_grade_code c)
| cg_covid_letter c : c_covid c = true -> c_grade_code c <> G_S -> counted_grade c (c_grade_code c)
| cg_covid_s c : c_covid c = true -> c_grade_code c = G_S -> c_su_grade c = None -> counted_grade c G_S
| cg_covid_su c g : c_covid c = true -> c_grade_code c = G_S -> c_su_grade c = Some g -> counted_grade c g.
(** the threshold it is compared with *)
Inductive counted_threshold : course -> leaf -> value -> Prop :=
| ct_normal c l : c_covid c = false -> counted_threshold c l (l_expected l)
| ct_covid c l v : c_covid c = true -> l_covid l = Some v -> counted_threshold c l v
| ct_none c l : c_covid c = true -> l_covid l = None -> counted_threshold c l (l_expected l).

(** fields of a course, by the key naming them *)
Inductive course_field : course -> string -> value -> Prop :=
| cf_ap c : c_course_type c = CtAP -> course_field c "ap" (VS (SStr (c_name c)))
| cf_attributes c : course_field c "attributes" (VT (map SStr (c_attributes c)))
| cf_attribute c : course_field c "attribute" (VT (map SStr (c_attributes c)))
| cf_clbid c : course_field c "clbid" (VS (SStr (c_clbid c)))
| cf_course c : course_field c "course" (VS (SStr (c_identity c)))
| cf_course_type c : course_field c "course_type" (VS (SStr (course_type_name (c_course_type c))))
| cf_credits c : course_field c "credits" (VS (SDec (c_credits c)))
| cf_crsid c : course_field c "crsid" (VS (SStr (c_crsid c)))
| cf_gereqs c : course_field c "gereqs" (VT (map SStr (c_gereqs c)))
| cf_option c : course_field c "grade_option" (VS (SOpt (c_grade_option c)))
| cf_institution c : course_field c "institution" (VS (SStr (c_institution c)))
| cf_gpa c : course_field c "is_in_gpa" (VS (SBool (c_in_gpa c)))
| cf_ip c : course_field c "is_in_progress" (VS (SBool (c_in_progress c)))
| cf_stolaf c : course_field c "is_stolaf" (VS (SBool (c_stolaf c)))
| cf_lab c : course_field c "lab" (VS (SBool (c_lab c)))
| cf_level c : course_field c "level" (VS (SInt (c_level c)))
| cf_name c : course_field c "name" (VS (SStr (c_name c)))
| cf_number c : course_field c "number" (VS (SStr (c_number c)))
| cf_semester c : course_field c "semester" (VS (SStr (c_term c)))
| cf_subject c s : counted_subject c s -> course_field c "subject" (VS (SStr s))
| cf_type c : course_field c "type" (VS (SStr (sub_type_name (c_sub_type c))))
| cf_year c : course_field c "year" (VS (SInt (c_year c))).

Inductive area_field : area_ptr -> string -> value -> Prop :=
| af_code a : area_field a "code" (VS (SStr (a_code a)))
| af_status a : area_field a "status" (VS (SStr (area_status_name (a_status a))))
| af_kind a : area_field a "kind" (VS (SStr (area_kind_name (a_kind a))))
| af_type a : area_field a "type" (VS (SStr (area_kind_name (a_kind a))))
| af_name a : area_field a "name" (VS (SStr (a_name a)))
| af_degree a : area_field a "degree" (VS (SStr (a_degree a)))
| af_gpa a g : a_gpa a = Some g -> area_field a "gpa" (VS (SDec g)).

Inductive slip_field : slip -> string -> value -> Prop :=
| sf_name s : slip_field s "name" (VS (SStr (s_name s)))
| sf_year s : slip_field s "year" (VS (SInt (s_year s)))
| sf_term s : slip_field s "term" (VS (SInt (s_term s))).

Inductive perf_field : performance -> string -> value -> Prop :=
| pf_slip p k v : slip_field (mp_slip p) k v -> perf_field p k v
| pf_entrance p : mp_status p = Some PsEntrance -> perf_field p "status" (VS (SStr "entrance"))
| pf_continuance p : mp_status p = Some PsContinuance -> perf_field p "status" (VS (SStr "continuance"))
| pf_role p r : mp_role p = Some r -> r <> "" -> perf_field p "role" (VS (SStr r)).

(** [compares x l v w]: clause [l] on [x] compares field value [v] with [w] *)
Inductive compares : item -> leaf -> value -> value -> Prop :=
| cp_course c l v : course_field c (l_key l) v -> compares (ICourse c) l v (l_expected l)
| cp_grade c l g w : l_key l = "grade" -> counted_grade c g -> counted_threshold c l w ->
    compares (ICourse c) l (VS (SGrade g)) w
| cp_area a l v : area_field a (l_key l) v -> compares (IArea a) l v (l_expected l)
| cp_perf p l v : perf_field p (l_key l) v -> compares (IPerf p) l v (l_expected l)
| cp_slip s l v : slip_field s (l_key l) v -> compares (ISlip s) l v (l_expected l).

(** the keys an item knows *)
Definition known_keys (x : item) : list string :=
  match x with
  | ICourse _ => ["ap"; "attribute"; "attributes"; "clbid"; "course"; "course_type"; "credits"; "crsid";
                  "gereqs"; "grade"; "grade_option"; "institution"; "is_in_gpa"; "is_in_progress";
                  "is_stolaf"; "lab"; "level"; "name"; "number"; "semester"; "subject"; "type"; "year"]
  | IArea _ => ["code"; "status"; "kind"; "type"; "name"; "degree"; "gpa"]
  | IPerf _ => ["name"; "year"; "term"; "status"; "role"]
  | ISlip _ => ["name"; "year"; "term"]
  end.

Definition satisfied (x : item) (l : leaf) : Prop :=
  exists v w, compares x l v w /\ apply_operator (l_op l) v w = Ok true.
(** a clause that raises nothing *)
Definition leaf_ok (x : item) (l : leaf) : Prop :=
  In (l_key l) (known_keys x) /\
  forall v w, compares x l v w -> exists b, apply_operator (l_op l) v w = Ok b.

Fixpoint all_leaves (P : leaf -> Prop) (p : pred) : Prop :=
  match p with
  | PAnd l | POr l => fold_right (fun q R => all_leaves P q /\ R) True l
  | PNot q => all_leaves P q
  | PIf _ t e => all_leaves P t /\ match e with Some q => all_leaves P q | None => True end
  | PLeaf l => P l
  end.

(** the boolean reading of a loaded clause *)
Fixpoint holds (x : item) (p : pred) : Prop :=
  match p with
  | PAnd l => fold_right (fun q R => holds x q /\ R) True l
  | POr l => fold_right (fun q R => holds x q \/ R) False l
  | PNot q => ~ holds x q
  | PIf c t e =>
    (e_result c = Some true /\ holds x t) \/
    (e_result c <> Some true /\ match e with Some q => holds x q | None => False end)
  | PLeaf l => satisfied x l
  end.

(** the boolean reading of clause data: an implicit "and" over the keys of a dictionary *)
Fixpoint w_holds (cx : ctx) (c : constants) (m : data_type) (x : item) (w : wdata) : Prop :=
  match w with
  | WAnd l => fold_right (fun q R => w_holds cx c m x q /\ R) True l
  | WOr l => fold_right (fun q R => w_holds cx c m x q \/ R) False l
  | WNot q => ~ w_holds cx c m x q
  | WIf cond t e =>
    (true_of cx cond /\ w_holds cx c m x t) \/
    (~ true_of cx cond /\ match e with Some q => w_holds cx c m x q | None => False end)
  | WKeys l => forall k d, In (k, d) l -> exists lf, load_single c m k d = Ok lf /\ satisfied x lf
  end.
Fixpoint w_ok (w : wdata) : Prop :=
  match w with
  | WAnd l | WOr l => fold_right (fun q R => w_ok q /\ R) True l
  | WNot q => w_ok q
  | WIf c t e => static_ok c /\ w_ok t /\ match e with Some q => w_ok q | None => True end
  | WKeys _ => True
  end.

(** what a name starting with a dollar sign stands for *)
Inductive constant : constants -> string -> list scalar -> Prop :=
| kn_year c : constant c "$matriculation-year" [SInt (k_matriculation c)]
| kn_terms c : constant c "$terms-since-declaring-major" [SInt (k_terms c)]
| kn_medium c m : k_medium c = inl m -> constant c "$primary-performing-medium" [SStr m]
| kn_media c ms : k_medium c = inr ms -> constant c "$primary-performing-medium" (map SStr ms)
| kn_code c : constant c "$current-area-code" [SStr (k_code c)]
| kn_exam c : constant c "$current-area-code-music-exam" [SStr (String.append "Exam: " (k_code c))].
Inductive stands_for (c : constants) : scalar -> list scalar -> Prop :=
| st_const s l : constant c s l -> stands_for c (SStr s) l
| st_text s : (forall t, s <> String "$"%char t) -> stands_for c (SStr s) [SStr s]
| st_other s : is_str s = false -> stands_for c s [s].
