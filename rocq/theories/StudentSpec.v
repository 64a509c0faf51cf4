(** What the data of a student says, apart from the loader. *)
From Coq Require Import List Bool Arith ZArith QArith String Ascii Permutation Sorting.Sorted.
From Verif Require Import Prelude Dec Claims Course Exceptions Context Predicate Transcript TranscriptSpec Loader LabelSpec Area StudentLoad.
Import ListNotations.
Local Open Scope string_scope.

(** ** Numbers *)
(** decimal digits, with a minus sign or without *)
Definition numeral_text (s : string) (z : Z) : Prop :=
  exists ds, ds <> "" /\ all_in numerals ds /\ (s = ds /\ z = year_number ds \/ s = "-" ++ ds /\ z = (- year_number ds)%Z).
Inductive number_of : jv -> Z -> Prop :=
| no_int z : number_of (JInt z) z
| no_true : number_of (JBool true) 1
| no_false : number_of (JBool false) 0
| no_text s z : numeral_text s z -> number_of (JStr s) z.
(** null, false, 0 and the empty text *)
Inductive nothing : jv -> Prop :=
| nt_null : nothing JNull | nt_false : nothing (JBool false) | nt_zero : nothing (JInt 0) | nt_empty : nothing (JStr "").
Inductive matriculation_is : option jv -> Z -> Prop :=
| mi_absent : matriculation_is None 0
| mi_nothing v : nothing v -> matriculation_is (Some v) 0
| mi_number v z : ~ nothing v -> number_of v z -> matriculation_is (Some v) z.
Inductive curriculum_is : option jv -> Z -> Prop :=
| ci_absent : curriculum_is None 0
| ci_none : curriculum_is (Some (JStr "None")) 0
| ci_number v z : number_of v z -> curriculum_is (Some v) z.
(** a text that is not a number counts as 0 *)
Inductive catalog_is : option jv -> Z -> Prop :=
| ca_absent : catalog_is None 0
| ca_number v z : number_of v z -> catalog_is (Some v) z
| ca_text s : (forall z, ~ numeral_text s z) -> catalog_is (Some (JStr s)) 0.

(** ** Areas, performances, recitals, proficiencies *)
Inductive status_code : string -> Context.area_status -> Prop :=
| sc_1 : status_code "what-if" AsWhatIf | sc_2 : status_code "what-if-drop" AsWhatIfDrop | sc_3 : status_code "declared" AsDeclared
| sc_4 : status_code "certified" AsCertified | sc_5 : status_code "awarded" AsAwarded.
Inductive kind_code : string -> area_kind -> Prop :=
| kc_1 : kind_code "degree" AkDegree | kc_2 : kind_code "major" AkMajor | kc_3 : kind_code "concentration" AkConcentration
| kc_4 : kind_code "emphasis" AkEmphasis.
Inductive amount : jv -> dec -> Prop :=
| am_int z : amount (JInt z) (mkDec z 0)
| am_true : amount (JBool true) (mkDec 1 0)
| am_false : amount (JBool false) (mkDec 0 0)
| am_text s d : dec_of_str s = Ok d -> amount (JStr s) d.
Inductive if_there {A B} (P : A -> B -> Prop) : option A -> option B -> Prop :=
| it_no : if_there P None None
| it_yes a b : P a b -> if_there P (Some a) (Some b).
Record pointer_of (a : raw_area) (p : area_ptr) : Prop := {
  po_code : ra_code a = Some (a_code p);
  po_status : exists s, ra_status a = Some s /\ status_code s (a_status p);
  po_kind : exists s, ra_kind a = Some s /\ kind_code s (a_kind p);
  po_name : ra_name a = Some (a_name p);
  po_degree : ra_degree a = Some (a_degree p);
  po_gpa : if_there amount (ra_gpa a) (a_gpa p);
  po_dept : ra_dept a = a_dept p;
  po_terms : ra_terms a = a_terms p }.
(** areas dropped in a what-if are left out, unless audited *)
Inductive kept (code : string) : list area_ptr -> list area_ptr -> Prop :=
| kp_nil : kept code [] []
| kp_in a l m : a_status a <> AsWhatIfDrop \/ a_code a = code -> kept code l m -> kept code (a :: l) (a :: m)
| kp_out a l m : a_status a = AsWhatIfDrop -> a_code a <> code -> kept code l m -> kept code (a :: l) m.

Record slip_of (r : raw_slip) (s : slip) : Prop := {
  so_name : rs_name r = Some (s_name s);
  so_id : rs_id r = Some (s_id s);
  so_year : exists v, rs_year r = Some v /\ number_of v (s_year s);
  so_term : exists v, rs_term r = Some v /\ number_of v (s_term s) }.
Inductive audition : option string -> option perf_status -> Prop :=
| au_none : audition None None
| au_empty : audition (Some "") None
| au_e : audition (Some "E") (Some PsEntrance)
| au_c : audition (Some "C") (Some PsContinuance).
Record perf_of (r : raw_perf) (p : performance) : Prop := {
  pe_slip : slip_of (rp_slip r) (mp_slip p);
  pe_role : rp_role r = mp_role p;
  pe_status : audition (rp_status r) (mp_status p) }.
(** by year, term, name and id *)
Inductive earlier (a b : slip) : Prop :=
| ea_year : (s_year a < s_year b)%Z -> earlier a b
| ea_term : s_year a = s_year b -> (s_term a < s_term b)%Z -> earlier a b
| ea_name : s_year a = s_year b -> s_term a = s_term b -> String.compare (s_name a) (s_name b) = Lt -> earlier a b
| ea_id : s_year a = s_year b -> s_term a = s_term b -> s_name a = s_name b -> String.compare (s_id a) (s_id b) = Lt -> earlier a b.
Definition in_order {A} (f : A -> slip) (l : list A) : Prop := StronglySorted (fun a b => ~ earlier (f b) (f a)) l.

Inductive proficiency_is : option jv -> prof_status -> Prop :=
| pi_absent : proficiency_is None PrNo
| pi_true : proficiency_is (Some (JBool true)) PrYes
| pi_false : proficiency_is (Some (JBool false)) PrNo
| pi_empty : proficiency_is (Some (JStr "")) PrNo
| pi_n : proficiency_is (Some (JStr "N")) PrNo
| pi_y : proficiency_is (Some (JStr "Y")) PrYes
| pi_e : proficiency_is (Some (JStr "E")) PrExam
| pi_c : proficiency_is (Some (JStr "C")) PrClass.
(** the value under a key of a dictionary *)
Inductive under {A} (k : string) : list (string * A) -> option A -> Prop :=
| un_none l : ~ In k (map fst l) -> under k l None
| un_some a v b : ~ In k (map fst a) -> under k (a ++ (k, v) :: b) (Some v).
Definition under_is {A B} (P : option A -> B -> Prop) (d : list (string * A)) (k : string) (b : B) : Prop :=
  exists o, under k d o /\ P o b.
Definition proficiencies_are (d : list (string * jv)) (p : proficiencies) : Prop :=
  under_is proficiency_is d "guitar" (pf_guitar p) /\ under_is proficiency_is d "keyboard_1" (pf_k1 p) /\
  under_is proficiency_is d "keyboard_2" (pf_k2 p) /\ under_is proficiency_is d "keyboard_3" (pf_k3 p) /\
  under_is proficiency_is d "keyboard_4" (pf_k4 p).

(** ** Mediums *)
Definition blanks : list ascii :=
  map ascii_of_nat [9; 10; 11; 12; 13; 28; 29; 30; 31; 32]%nat.
Definition starts_blank (s : string) : Prop := exists c t, s = String c t /\ In c blanks.
Definition ends_blank (s : string) : Prop := exists c t, s = t ++ one c /\ In c blanks.
(** without the blanks at both ends *)
Definition trimmed (s t : string) : Prop :=
  ~ starts_blank t /\ ~ ends_blank t /\ exists a b, s = a ++ t ++ b /\ all_in blanks a /\ all_in blanks b.
Fixpoint joined (l : list string) : string :=
  match l with [] => "" | [s] => s | s :: t => s ++ ", " ++ joined t end.
Definition has_comma (s : string) : Prop := In ","%char (list_ascii_of_string s).
Inductive medium_is : string -> medium -> Prop :=
| md_one s : ~ has_comma s -> medium_is s (inl s)
| md_more pieces parts : has_comma (joined pieces) -> pieces <> [] ->
    (forall p, In p pieces -> forall a b, p <> a ++ ", " ++ b) -> Forall2 trimmed pieces parts ->
    medium_is (joined pieces) (inr parts).
Definition mediums_are (d : list (string * string)) (m : mediums) : Prop :=
  let is k x := under_is (fun o x => medium_is (match o with Some s => s | None => "Unknown" end) x) d k x in
  is "ppm" (md_ppm m) /\ is "ppm2" (md_ppm2 m) /\ is "spm" (md_spm m) /\ is "spm2" (md_spm2 m).

(** ** The student *)
(** the performances with one slip, in order *)
Inductive with_slip (s : slip) : list performance -> list performance -> Prop :=
| ws_nil : with_slip s [] []
| ws_same p l m : mp_slip p = s -> with_slip s l m -> with_slip s (p :: l) (p :: m)
| ws_other p l m : mp_slip p <> s -> with_slip s l m -> with_slip s (p :: l) m.
(** courses without repeated ids, sorted, that are just the ones wanted *)
Definition transcript_is (wanted : course -> Prop) (t : list course) : Prop :=
  NoDup (map c_clbid t) /\ StronglySorted sorted_before t /\ forall c, In c t <-> wanted c.
Record student_of (d : sdata) (code : string) (os : list exc) (credits : list (string * string)) (s : loaded) : Prop := {
  st_number : sl_stnum s = match d_stnum d with Some n => n | None => "000000" end;
  st_curriculum : curriculum_is (d_curriculum d) (sl_curriculum s);
  st_catalog : catalog_is (d_catalog d) (sl_catalog s);
  st_matriculation : matriculation_is (d_matriculation d) (sl_matriculation s);
  st_code : sl_code s = code;
  st_areas : exists ps, Forall2 pointer_of (d_areas d) ps /\ kept code ps (t_areas (sl_student s));
  st_courses : exists l l',
    Forall2 (fun r c => Transcript.load_course (d_current_term d) os credits r = Ok c) (d_courses d) l /\ numbered [] l l' /\
    transcript_is (fun c => In c l' /\ ~ dropped c /\ c_grade_code c <> GF) (t_courses (sl_student s)) /\
    transcript_is (fun c => In c l' /\ ~ dropped c) (t_failed (sl_student s));
  st_perf : exists ps, Forall2 perf_of (d_perf d) ps /\ Permutation (t_perf (sl_student s)) ps /\
    in_order mp_slip (t_perf (sl_student s)) /\ forall x m, with_slip x (t_perf (sl_student s)) m <-> with_slip x ps m;
  st_slips : exists ss, Forall2 slip_of (d_slips d) ss /\ Permutation (t_slips (sl_student s)) ss /\
    in_order (fun x => x) (t_slips (sl_student s));
  st_prof : proficiencies_are (d_prof d) (t_prof (sl_student s));
  st_mediums : mediums_are (d_mediums d) (sl_mediums s);
  st_templates : ascending (sl_templates s) /\ forall kt, In kt (sl_templates s) <-> meant (d_templates d) (t_courses (sl_student s)) kt }.

(** the same data, with lists in another order *)
Record same_data (a b : sdata) : Prop := {
  sd_number : d_stnum a = d_stnum b; sd_curriculum : d_curriculum a = d_curriculum b; sd_catalog : d_catalog a = d_catalog b;
  sd_matriculation : d_matriculation a = d_matriculation b; sd_term : d_current_term a = d_current_term b;
  sd_areas : d_areas a = d_areas b;
  sd_courses : Permutation (d_courses a) (d_courses b) /\ NoDup (map r_clbid (d_courses a));
  sd_perf : Permutation (d_perf a) (d_perf b) /\ NoDup (map (fun p => rs_id (rp_slip p)) (d_perf a));
  sd_slips : Permutation (d_slips a) (d_slips b);
  sd_prof : forall k o, under k (d_prof a) o <-> under k (d_prof b) o;
  sd_mediums : forall k o, under k (d_mediums a) o <-> under k (d_mediums b) o;
  sd_templates : forall k label, (exists labels, In (k, labels) (d_templates a) /\ In label labels) <->
    (exists labels, In (k, labels) (d_templates b) /\ In label labels) }.

(** what the constants of a student are *)
Record constants_are (s : loaded) (k : constants) : Prop := {
  cs_year : k_matriculation k = sl_matriculation s;
  cs_terms : (exists a x b, t_areas (sl_student s) = (a ++ x :: b)%list /\ (forall y, In y a -> a_code y <> sl_code s) /\ a_code x = sl_code s /\
      k_terms k = match a_terms x with Some z => z | None => 0%Z end) \/
    (forall y, In y (t_areas (sl_student s)) -> a_code y <> sl_code s) /\ k_terms k = 0%Z;
  cs_medium : k_medium k = md_ppm (sl_mediums s);
  cs_code : k_code k = sl_code s }.
