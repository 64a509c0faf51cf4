(** What course rules accept, independently of the loops that compute it. *)
From Coq Require Import List ZArith QArith Bool String.
From Verif Require Import Prelude Dec Status Course Claims Exceptions Op Context CourseRule.
From Verif Require Import ListFacts AssertionSpec QuerySpec.
Import ListNotations.
Local Open Scope string_scope.
Local Open Scope list_scope.
Local Open Scope Q_scope.

(** [o] is absent or equal to [x] *)
Definition agrees {A} (o : option A) (x : A) : Prop := forall y, o = Some y -> x = y.
(** the sub-type letters that are understood *)
Inductive letter : string -> sub_type -> Prop :=
| l_e : letter "E" StEnsemble
| l_l : letter "L" StLab
| l_f : letter "F" StFlac
| l_d : letter "D" StDiscussion.

(** what is compared only when the rule names a course: the section, the year and term, the
    sub-type *)
Definition same_offering (r : crule) (c : course) : Prop :=
  (forall s, r_section r = Some s -> c_section c = Some s) /\
  (forall y, r_year r = Some y -> c_year c = y /\ r_term r = Some (c_term c)) /\
  (forall s t, r_sub_type r = Some s -> letter s t -> c_sub_type c = t).
(** [c] is a course the rule describes *)
Definition described (r : crule) (c : course) : Prop :=
  (r_institution r = None -> r_ap r = None -> c_stolaf c = true) /\
  agrees (r_crsid r) (c_crsid c) /\
  (forall id, r_course r = Some id -> c_identity c = id /\ same_offering r c) /\
  agrees (r_name r) (c_name c) /\ agrees (r_institution r) (c_institution c) /\
  (forall n, r_ap r = Some n -> c_course_type c = CtAP /\ c_name c = n).
(** the courses the rule finds: the one with its class id, or those it describes *)
Definition finds (cx : ctx) (r : crule) (c : course) : Prop :=
  (exists k, r_clbid r = Some k /\ k <> "" /\ find_by_clbid cx k = Some c) \/
  ((r_clbid r = None \/ r_clbid r = Some "") /\ In c (cx_transcript cx) /\ described r c).
(** a year is compared together with a term *)
Definition year_has_term (r : crule) : Prop := r_year r <> None -> r_term r <> None.

(** the course meets the grade, the grade option, and is not excluded *)
Definition acceptable (r : crule) (c : course) : Prop :=
  ~ In (c_clbid c) (r_excluded r) /\
  (forall g, r_grade r = Some g -> c_in_progress c = true \/ dval g <= dval (c_grade_points c)) /\
  agrees (r_grade_option r) (c_grade_option c).

(** the insertions at the rule's path, and the course each brings *)
Definition insertion (cx : ctx) (l : list exc) (r : crule) (c : course) (forced : bool) : Prop :=
  exists x k, In x l /\ ex_path x = r_path r /\ ex_act x = AInsert k forced /\
    forced_by_clbid cx k = Ok c /\ ~ In (c_clbid c) (r_excluded r).

(** [s] is the rule with the given course, and nothing else changed but what a solution
    forgets *)
Definition solves_with (r s : crule) (c : option course) : Prop :=
  r_matched s = c /\ r_path s = r_path r /\
  r_course s = r_course r /\ r_clbid s = r_clbid r /\ r_crsid s = r_crsid r /\ r_ap s = r_ap r /\
  r_institution s = r_institution r /\ r_name s = r_name r /\ r_grade s = r_grade r /\
  r_grade_option s = r_grade_option r /\ r_year s = r_year r /\ r_term s = r_term r /\
  r_section s = r_section r /\ r_sub_type s = r_sub_type r /\ r_allow s = r_allow r /\ r_optional s = r_optional r /\
  r_claim s = None /\
  r_from_claimed s = false /\ r_auto_waived s = false /\ r_excluded s = [].
Definition by_match (r s : crule) (c : course) : Prop :=
  solves_with r s (Some c) /\ r_overridden s = false /\ r_inserted s = r_inserted r /\ r_forced s = false.
Definition by_insertion (r s : crule) (c : course) (forced : bool) : Prop :=
  solves_with r s (Some c) /\ r_overridden s = false /\ r_inserted s = true /\ r_forced s = forced.
Definition by_nothing (r s : crule) : Prop :=
  solves_with r s None /\ r_overridden s = false /\ r_inserted s = r_inserted r /\ r_forced s = false.
Definition by_waiver (r s : crule) : Prop :=
  solves_with r s None /\ r_overridden s = true /\ r_inserted s = r_inserted r /\ r_forced s = false.

Definition waived_at (l : list exc) (p : path) : Prop := ~ none_at l p waive_kind.

(** ** Status of a result *)
(** the course the result may use, if its claim succeeded *)
Definition uses (r : crule) (c : course) : Prop :=
  exists cl, r_claim r = Some cl /\ cl_failed cl = false /\ cl_course cl = c.
Definition claim_denied (r : crule) : Prop := exists cl, r_claim r = Some cl /\ cl_failed cl = true.
Definition excused (r : crule) : Prop := ~ claim_denied r /\ (r_inserted r = true \/ r_overridden r = true).
Definition current (c : course) : Prop :=
  c_in_progress c = true /\ (c_ip_this_term c = true \/ c_incomplete c = true) /\ c_ip_in_future c = false.
Definition future (c : course) : Prop := c_in_progress c = true /\ c_ip_in_future c = true.
Inductive course_status (r : crule) : status -> Prop :=
| cs_excused : excused r -> course_status r Waived
| cs_done c : ~ excused r -> uses r c -> c_in_progress c = false -> course_status r Done
| cs_current c : ~ excused r -> uses r c -> current c -> course_status r PendingCurrent
| cs_future c : ~ excused r -> uses r c -> future c -> course_status r PendingRegistered
| cs_optional : ~ excused r -> (forall c, uses r c -> c_in_progress c = true /\ ~ current c /\ ~ future c) ->
    r_optional r = true -> course_status r Waived
| cs_empty : ~ excused r -> (forall c, uses r c -> c_in_progress c = true /\ ~ current c /\ ~ future c) ->
    r_optional r = false -> course_status r Empty.

(** case distinction on a waiver *)
Definition if_waived (w yes no : Prop) : Prop := (w /\ yes) \/ (~ w /\ no).

(** the first of the strings that is present and not empty *)
Definition none_given (l : list (option string)) : Prop := Forall (fun o => o = None \/ o = Some "") l.
Fixpoint first_given (l : list (option string)) (s : string) : Prop :=
  match l with
  | [] => False
  | o :: t => (o = Some s /\ s <> "") \/ ((o = None \/ o = Some "") /\ first_given t s)
  end.
