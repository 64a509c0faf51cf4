(** What assertions measure and when they are met, independently of the loops that compute
    it. *)
From Coq Require Import List ZArith QArith Bool String.
From Verif Require Import Prelude Dec Status Course Exceptions Op Context CondExpr Predicate Apply Assertion.
From Verif Require Import TranscriptSpec.
Import ListNotations.
Local Open Scope string_scope.
Local Open Scope list_scope.
Local Open Scope Q_scope.

(** [q] is the number of things that satisfy [P] *)
Definition how_many {A} (P : A -> Prop) (q : Q) : Prop :=
  exists l : list A, NoDup l /\ (forall x, In x l <-> P x) /\ q == inject_Z (Z.of_nat (List.length l)).

Definition values_of {A} (f : course -> A) (cs : list course) : A -> Prop :=
  fun x => exists c, In c cs /\ f c = x.
Definition attributes_of (prefix : string) (cs : list course) : string -> Prop :=
  fun s => exists c rest, In c cs /\ In s (c_attributes c) /\ s = String.append prefix rest.

(** the subject a course counts for: CH/BI courses are split *)
Inductive discipline : course -> string -> Prop :=
| ds_chem c : c_subject c = "CH/BI" -> c_number c = "125" \/ c_number c = "126" -> discipline c "CHEM"
| ds_bio c : c_subject c = "CH/BI" -> c_number c <> "125" -> c_number c <> "126" -> discipline c "BIO"
| ds_own c : c_subject c <> "CH/BI" -> discipline c (c_subject c).
Definition disciplines (cs : list course) : string -> Prop := fun s => exists c, In c cs /\ discipline c s.

(** courses with credits *)
Definition worth (c : course) : Prop := ~ dval (c_credits c) == 0.

Definition with_subject (cs : list course) (s : string) : list course :=
  filter (fun c => String.eqb (c_subject c) s) cs.
Definition credits_in (cs : list course) (s : string) : Q := credits_of (with_subject cs s).
(** the subject with the most credits, ties going to the alphabetically last one *)
Definition best_subject (cs : list course) (s : string) : Prop :=
  (exists c, In c cs /\ worth c /\ c_subject c = s) /\
  forall c, In c cs -> worth c ->
    credits_in cs (c_subject c) < credits_in cs s \/
    (credits_in cs (c_subject c) == credits_in cs s /\ String.compare (c_subject c) s <> Gt).

(** how often a label occurs *)
Definition occurrences (f : course -> string) (cs : list course) (s : string) : nat :=
  count_occ string_dec (map f cs) s.
(** the most frequent label, ties going to the one seen first *)
Definition most_common (f : course -> string) (cs : list course) (s : string) : Prop :=
  exists pre c post, cs = pre ++ c :: post /\ f c = s /\
    (forall c', In c' pre -> (occurrences f cs (f c') < occurrences f cs s)%nat) /\
    (forall c', In c' post -> (occurrences f cs (f c') <= occurrences f cs s)%nat).

Definition label (c : course) : string := (c_subject c ++ ": " ++ c_name c)%string.

Definition terms_of_label (f : course -> string) (cs : list course) (s : string) : string -> Prop :=
  fun t => exists c, In c cs /\ f c = s /\ c_yearterm c = t.
Definition measures_most_common (f : course -> string) (cs : list course) (q : Q) : Prop :=
  (cs = [] /\ q == 0) \/ exists s, most_common f cs s /\ how_many (terms_of_label f cs s) q.

(** the quantity named by a key *)
Definition measures (k : akey) (cs : list course) (q : Q) : Prop :=
  match k with
  | KCourses => how_many (fun c => In c cs) q
  | KDistinctCourses => how_many (values_of c_crsid cs) q
  | KTerms => how_many (values_of c_yearterm cs) q
  | KYears => how_many (values_of c_year cs) q
  | KSubjects => how_many (disciplines cs) q
  | KMathPerspectives => how_many (attributes_of "math_perspective_" cs) q
  | KReligionTraditions => how_many (attributes_of "rel_tradition_" cs) q
  | KIntlrRegions => how_many (attributes_of "intlr_region_" cs) q
  | KSumCredits => q == credits_of cs
  | KSumSingleSubject =>
    ((forall c, In c cs -> ~ worth c) /\ q == 0) \/
    exists s, best_subject cs s /\ q == credits_in cs s
  | KAvgGrades =>
    let counted := filter c_in_gpa cs in
    (credits_of counted == 0 /\ q == 0) \/
    (~ credits_of counted == 0 /\ exists d, cut_to_hundredths (points_of counted / credits_of counted) d /\ q == dval d)
  | KAvgCredits =>
    exists worthy, (forall c, In c worthy <-> In c cs /\ worth c) /\ (exists f, worthy = filter f cs) /\
      ((worthy = [] /\ q == 0) \/
       (worthy <> [] /\ q * inject_Z (Z.of_nat (List.length worthy)) == credits_of worthy))
  | KTermsMostCommon => measures_most_common c_crsid cs q
  | KTermsMostCommonName => measures_most_common label cs q
  | KAreas | KItems | KPerformances | KSeminars | KRecitals => False
  end.

(** the first course of each class *)
Definition first_with {A} (f : course -> A) (cs : list course) (c : course) : Prop :=
  exists pre post, cs = pre ++ c :: post /\ forall c', In c' pre -> f c' <> f c.
Definition same_discipline (c c' : course) : Prop := exists s, discipline c s /\ discipline c' s.

(** the courses credited for the quantity *)
Definition contributes (k : akey) (cs : list course) (c : course) : Prop :=
  match k with
  | KCourses => In c cs
  | KDistinctCourses => first_with c_crsid cs c
  | KTerms => first_with c_yearterm cs c
  | KYears => first_with c_year cs c
  | KSubjects => exists pre post, cs = pre ++ c :: post /\ forall c', In c' pre -> ~ same_discipline c' c
  | KMathPerspectives => exists s, In c cs /\ attributes_of "math_perspective_" [c] s
  | KReligionTraditions => exists s, In c cs /\ attributes_of "rel_tradition_" [c] s
  | KIntlrRegions => exists s, In c cs /\ attributes_of "intlr_region_" [c] s
  | KSumCredits | KAvgCredits => In c cs /\ worth c
  | KSumSingleSubject => In c cs /\ worth c /\ best_subject cs (c_subject c)
  | KAvgGrades => In c cs /\ c_in_gpa c = true
  | KTermsMostCommon => In c cs /\ most_common c_crsid cs (c_crsid c)
  | KTermsMostCommonName => In c cs /\ most_common label cs (label c)
  | KAreas | KItems | KPerformances | KSeminars | KRecitals => False
  end.

(** the comparison, as a proposition *)
Definition meets (op : operator) (v e : Q) : Prop :=
  match op with
  | OEq => v == e
  | ONeq => ~ v == e
  | OLt => v < e
  | OLte => v <= e
  | OGt => e < v
  | OGte => e <= v
  | OIn | ONin => False
  end.
Definition numeric (op : operator) : Prop := op <> OIn /\ op <> ONin.

(** the status when the comparison does not hold *)
Definition short_status (op : operator) (v e : Q) (s : status) : Prop :=
  match op with
  | OLt | OLte => s = FailedInvariant
  | OGt => (0 < v /\ v <= e /\ s = NeedsMoreItems) \/ (~ (0 < v /\ v <= e) /\ s = Empty)
  | OGte | OEq => (0 < v /\ v < e /\ s = NeedsMoreItems) \/ (~ (0 < v /\ v < e) /\ s = Empty)
  | ONeq | OIn | ONin => s = Empty
  end.

Definition finished (cs : list course) : list course := filter (fun c => negb (c_in_progress c)) cs.

Definition twice_read (k : akey) : Prop := k = KTermsMostCommon \/ k = KTermsMostCommonName.

(** ** Sizes of selections *)
Definition size_meets (op : operator) (n e : Z) : Prop := meets op (inject_Z n) (inject_Z e).

(** ** Thresholds *)
From Verif Require Import CondExprSpec PredicateSpec.

(** the number written in the specification *)
Inductive written (c : constants) : raw_expected -> Q -> Prop :=
| wr_int z : written c (RInt z) (inject_Z z)
| wr_name s z : stands_for c (SStr s) [SInt z] -> written c (RStr s) (inject_Z z)
| wr_text s t d : stands_for c (SStr s) [SStr t] -> dec_of_str t = Ok d -> written c (RStr s) (dval d).

(** the changes whose condition is true of the student, applied in order *)
Inductive adjusted (cx : ctx) : list (xdata * list (option vmode * scalar)) -> Q -> Q -> Prop :=
| ad_done e e' : e == e' -> adjusted cx [] e e'
| ad_skip x act rest e e' : ~ true_of cx x -> adjusted cx rest e e' -> adjusted cx ((x, act) :: rest) e e'
| ad_add x v d rest e e' : true_of cx x -> dec_of_scalar v = Ok d ->
    adjusted cx rest (e + dval d) e' -> adjusted cx ((x, [(Some VAdd, v)]) :: rest) e e'
| ad_subtract x v d rest e e' : true_of cx x -> dec_of_scalar v = Ok d ->
    adjusted cx rest (e - dval d) e' -> adjusted cx ((x, [(Some VSubtract, v)]) :: rest) e e'
| ad_set x v d rest e e' : true_of cx x -> dec_of_scalar v = Ok d ->
    adjusted cx rest (dval d) e' -> adjusted cx ((x, [(Some VSet, v)]) :: rest) e e'.

(** the first exception of [l] at path [p] that is of the given kind *)
Definition first_at (l : list exc) (p : path) (kind : exc_action -> Prop) (x : exc) : Prop :=
  exists pre post, l = pre ++ x :: post /\ ex_path x = p /\ kind (ex_act x) /\
    forall y, In y pre -> ~ (ex_path y = p /\ kind (ex_act y)).
Definition none_at (l : list exc) (p : path) (kind : exc_action -> Prop) : Prop :=
  forall y, In y l -> ~ (ex_path y = p /\ kind (ex_act y)).
Definition value_kind (k : exc_action) : Prop := exists d, k = AValue d.
Definition waive_kind (k : exc_action) : Prop := exists s, k = AOverride s.

(** ** What an assertion measures *)

(** the course that an insert exception of [l] at path [p] adds *)
Definition added (cx : ctx) (l : list exc) (p : path) (c : course) : Prop :=
  exists x k forced, In x l /\ ex_path x = p /\ ex_act x = AInsert k forced /\
    (find_by_clbid cx k = Some c \/ (forced = true /\ forced_by_clbid cx k = Ok c)).
(** the course that a block exception of [l] at path [p] takes away *)
Definition blocked (cx : ctx) (l : list exc) (p : path) (c : course) : Prop :=
  exists x k, In x l /\ ex_path x = p /\ ex_act x = ABlock k /\ forced_by_clbid cx k = Ok c.
(** the item passes the "where" of the assertion *)
Definition passes_where (w : option pred) (x : item) : Prop :=
  match w with None => True | Some w => apply_pred x w = Ok true end.
(** no two insert exceptions of [l] at path [p] name the same course *)
Definition inserts_distinct (cx : ctx) (l : list exc) (p : path) : Prop :=
  NoDup l /\ forall x y k k' f f' c, In x l -> In y l -> ex_path x = p -> ex_path y = p ->
    ex_act x = AInsert k f -> ex_act y = AInsert k' f' ->
    forced_by_clbid cx k = Ok c -> forced_by_clbid cx k' = Ok c -> x = y.
