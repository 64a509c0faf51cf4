(** dp/apply_clause.py: the quantities an assertion is about. *)
From Coq Require Import List ZArith QArith Bool String.
From Verif Require Import Prelude Dec Course Op Context Predicate Transcript.
Import ListNotations.
Local Open Scope string_scope.
Local Open Scope list_scope.

(** dp/apply_clause.py:240-268: the keys of course_actions, area_actions, other_actions *)
Inductive akey :=
| KCourses | KDistinctCourses | KTermsMostCommon | KTermsMostCommonName | KMathPerspectives
| KReligionTraditions | KIntlrRegions | KSubjects | KTerms | KYears
| KSumCredits | KSumSingleSubject | KAvgGrades | KAvgCredits
| KAreas
| KItems | KPerformances | KSeminars | KRecitals.

Definition akey_name (k : akey) : string :=
  match k with
  | KCourses => "count(courses)" | KDistinctCourses => "count(distinct_courses)"
  | KTermsMostCommon => "count(terms_from_most_common_course)"
  | KTermsMostCommonName => "count(terms_from_most_common_course_by_name)"
  | KMathPerspectives => "count(math_perspectives)" | KReligionTraditions => "count(religion_traditions)"
  | KIntlrRegions => "count(intlr_regions)" | KSubjects => "count(subjects)" | KTerms => "count(terms)"
  | KYears => "count(years)" | KSumCredits => "sum(credits)"
  | KSumSingleSubject => "sum(credits_from_single_subject)" | KAvgGrades => "average(grades)"
  | KAvgCredits => "average(credits)" | KAreas => "count(areas)" | KItems => "count(items)"
  | KPerformances => "count(performances)" | KSeminars => "count(seminars)" | KRecitals => "count(recitals)"
  end.
Definition course_actions : list akey :=
  [KCourses; KDistinctCourses; KTermsMostCommon; KTermsMostCommonName; KMathPerspectives;
   KReligionTraditions; KIntlrRegions; KSubjects; KTerms; KYears; KSumCredits; KSumSingleSubject;
   KAvgGrades; KAvgCredits].
Definition area_actions : list akey := [KAreas].
Definition other_actions : list akey := [KItems; KPerformances; KSeminars; KRecitals].

(** dp/apply_clause.py:17-29 AppliedClauseResult. The value of a quotient is exact (python
    rounds to 28 significant digits). The order of [ap_data] and [ap_courses] is that of
    first occurrence where python leaves it to a set. *)
Record applied := mkApplied { ap_value : Q; ap_data : list scalar; ap_courses : list course }.

Definition of_nat_Q (n : nat) : Q := inject_Z (Z.of_nat n).
Definition counted (data : list scalar) (courses : list course) : applied :=
  mkApplied (of_nat_Q (List.length data)) data courses.

(** dp/apply_clause.py:37-41 count_courses *)
Definition count_courses (data : list course) : applied :=
  let items := dedup course_eqb data in
  counted (map (fun c => SStr (c_clbid c)) items) items.

(** The loop [for c in data: if f(c) not in items: items.add(f(c)); courses.add(c)] of
    count_distinct_courses, count_subjects, count_terms and count_years. *)
Fixpoint first_by (f : course -> string) (seen : list string) (data : list course) : list course :=
  match data with
  | [] => []
  | c :: t => if existsb (String.eqb (f c)) seen then first_by f seen t else c :: first_by f (f c :: seen) t
  end.
Definition count_firsts (f : course -> string) (data : list course) : applied :=
  let cs := first_by f [] data in
  counted (map (fun c => SStr (f c)) cs) cs.

(** dp/apply_clause.py:44-53 count_distinct_courses *)
Definition count_distinct_courses : list course -> applied := count_firsts c_crsid.
(** dp/apply_clause.py:86-102 count_subjects *)
Definition split_subject (c : course) : string :=
  if c_subject c =? "CH/BI"
  then if (c_number c =? "125") || (c_number c =? "126") then "CHEM" else "BIO"
  else c_subject c.
Definition count_subjects : list course -> applied := count_firsts split_subject.
(** dp/apply_clause.py:105-115 count_terms *)
Definition count_terms : list course -> applied := count_firsts c_yearterm.
(** dp/apply_clause.py:157-167 count_years *)
Definition count_years : list course -> applied := count_firsts (fun c => str_of_Z (c_year c)).

(** [Counter(f(c) for c in data)]: insertion ordered *)
Fixpoint tally (d : list (string * nat)) (k : string) : list (string * nat) :=
  match d with
  | [] => [(k, 1%nat)]
  | (x, n) :: t => if k =? x then (x, S n) :: t else (x, n) :: tally t k
  end.
Definition counter (f : course -> string) (data : list course) : list (string * nat) :=
  fold_left (fun d c => tally d (f c)) data [].
(** [most_common(1)[0]]: the first entry with the largest count *)
Fixpoint first_max (best : string * nat) (d : list (string * nat)) : string * nat :=
  match d with
  | [] => best
  | e :: t => first_max (if Nat.ltb (snd best) (snd e) then e else best) t
  end.

(** dp/apply_clause.py:56-83 count_terms_from_most_common_course (and _by_name). The data is
    iterated twice; [second] is what the second iteration finds: the data again for a
    sequence, nothing for a generator. *)
Definition count_most_common (f : course -> string) (data second : list course) : applied :=
  match counter f data with
  | [] => counted [] []
  | e :: t =>
    let best := fst (first_max e t) in
    let courses := filter (fun c => f c =? best) second in
    counted (map SStr (dedup String.eqb (map c_yearterm courses))) courses
  end.
Definition subject_and_name (c : course) : string := String.append (c_subject c) (String.append ": " (c_name c)).

(** dp/apply_clause.py:118-154 count_math_perspectives, count_religion_traditions,
    count_intlr_regions *)
Definition starts_with (prefix s : string) : bool := String.prefix prefix s.
Definition count_attributes (prefix : string) (data : list course) : applied :=
  counted (map SStr (dedup String.eqb (filter (starts_with prefix) (flat_map c_attributes data))))
    (dedup course_eqb (filter (fun c => existsb (starts_with prefix) (c_attributes c)) data)).

(** dp/apply_clause.py:190-195 sum_credits *)
Definition has_credits (c : course) : bool := negb (Qeqb (credits c) 0).
Definition sum_of (cs : list course) : Q := Qsum (map credits cs).
Definition credit_items (cs : list course) : list scalar := map (fun c => SDec (c_credits c)) cs.
Definition apply_sum_credits (data : list course) : applied :=
  let cs := filter has_credits data in
  mkApplied (sum_of cs) (credit_items cs) cs.

(** dp/apply_clause.py:198-218 sum_credits_from_single_subject. The pairs of total and
    subject are compared as tuples; equal pairs do not occur since the subjects are
    distinct. *)
Definition pair_le (a b : Q * string) : bool :=
  Qltb (fst a) (fst b) || (Qeqb (fst a) (fst b) && match String.compare (snd a) (snd b) with Gt => false | _ => true end).
Fixpoint max_pair (best : Q * string) (l : list (Q * string)) : Q * string :=
  match l with
  | [] => best
  | e :: t => max_pair (if pair_le e best then best else e) t
  end.
Definition subject_total (cs : list course) (s : string) : Q :=
  sum_of (filter (fun c => c_subject c =? s) cs).
Definition by_credits (cs : list course) : list (Q * string) :=
  map (fun s => (subject_total cs s, s)) (dedup String.eqb (map c_subject cs)).
Definition apply_sum_single_subject (data : list course) : applied :=
  let cs := filter has_credits data in
  match by_credits cs with
  | [] => mkApplied 0 [SDec (dec_of_Z 0)] []
  | e :: t =>
    let best := snd (max_pair e t) in
    let courses := filter (fun c => best =? c_subject c) cs in
    mkApplied (sum_of courses) (credit_items courses) courses
  end.

(** dp/apply_clause.py:221-226 average_grades *)
Definition average_grades (data second : list course) : applied :=
  let courses := gpa_items second in
  mkApplied (dval (grade_point_average data)) (map (fun c => SDec (c_gpa_points c)) courses) courses.

(** dp/apply_clause.py:292-296 avg_or_0, 229-234 average_credits *)
Definition average_credits (data second : list course) : applied :=
  let items := filter has_credits data in
  mkApplied (match items with [] => 0 | _ => sum_of items / of_nat_Q (List.length items) end)
    (credit_items items) (filter has_credits second).

(** dp/apply_clause.py:240-257, 271-274 apply_clause_to_assertion_with_courses; AssertionError
    for a key that is no course action *)
Definition apply_courses (k : akey) (data second : list course) : res applied :=
  match k with
  | KCourses => Ok (count_courses data)
  | KDistinctCourses => Ok (count_distinct_courses data)
  | KTermsMostCommon => Ok (count_most_common c_crsid data second)
  | KTermsMostCommonName => Ok (count_most_common subject_and_name data second)
  | KMathPerspectives => Ok (count_attributes "math_perspective_" data)
  | KReligionTraditions => Ok (count_attributes "rel_tradition_" data)
  | KIntlrRegions => Ok (count_attributes "intlr_region_" data)
  | KSubjects => Ok (count_subjects data)
  | KTerms => Ok (count_terms data)
  | KYears => Ok (count_years data)
  | KSumCredits => Ok (apply_sum_credits data)
  | KSumSingleSubject => Ok (apply_sum_single_subject data)
  | KAvgGrades => Ok (average_grades data second)
  | KAvgCredits => Ok (average_credits data second)
  | KAreas | KItems | KPerformances | KSeminars | KRecitals => Err AssertErr
  end.

(** dp/apply_clause.py:170-172 count_areas, 277-280 apply_clause_to_assertion_with_areas *)
Definition apply_areas (k : akey) (data : list area_ptr) : res applied :=
  match k with
  | KAreas => Ok (counted (map SStr (dedup String.eqb (map a_code data))) [])
  | _ => Err AssertErr
  end.

(** equality of items: all fields *)
Definition slip_eq_dec (a b : slip) : {a = b} + {a <> b}.
Proof. decide equality; try apply string_dec; apply Z.eq_dec. Defined.
Definition performance_eq_dec (a b : performance) : {a = b} + {a <> b}.
Proof.
  decide equality; repeat first [apply slip_eq_dec | apply string_dec | decide equality].
Defined.
Definition area_eq_dec (a b : area_ptr) : {a = b} + {a <> b}.
Proof.
  decide equality; repeat first [apply string_dec | apply Z.eq_dec | apply dec_eq_dec | decide equality].
Defined.
Definition item_eq_dec (a b : item) : {a = b} + {a <> b}.
Proof.
  decide equality;
    first [apply course_eq_dec | apply area_eq_dec | apply performance_eq_dec | apply slip_eq_dec].
Defined.
Definition item_eqb (a b : item) : bool := if item_eq_dec a b then true else false.

(** [a.id] *)
Definition item_id (x : item) : res string :=
  match x with
  | ISlip s => Ok (s_id s)
  | IPerf p => Ok (s_id (mp_slip p))
  | ICourse _ | IArea _ => Err OtherErr         (* AttributeError *)
  end.

(** dp/apply_clause.py:31-34 count_items_test, 175-187, 263-268, 283-286. Simplified: [repr] tells
    unequal items apart, and the reprs listed by count(items) are left out. *)
Definition apply_data (k : akey) (data : list item) : res applied :=
  match k with
  | KItems => Ok (mkApplied (of_nat_Q (List.length (dedup item_eqb data))) [] [])
  | KPerformances | KRecitals =>
    let! ids := mapr item_id data in Ok (counted (map SStr (dedup String.eqb ids)) [])
  | KSeminars => Err TypeErr
  | _ => Err AssertErr
  end.
