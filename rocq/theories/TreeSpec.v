(** What the status, rank and claims of a requirement tree mean, read off the tree. *)
From Coq Require Import List ZArith QArith Bool String.
From Verif Require Import Prelude Dec Status Course Claims Exceptions Op Context CondExpr Assertion Query CourseRule Tree.
From Verif Require Import ListFacts AssertionSpec QuerySpec CourseRuleSpec.
Import ListNotations.
Local Open Scope list_scope.
Local Open Scope Q_scope.

(** induction over trees *)
Section NodeInd.
  Variable P : node -> Prop.
  Hypothesis Pcourse : forall k r, P (NCourse k r).
  Hypothesis Pquery : forall k q, P (NQuery k q).
  Hypothesis Pcount : forall k i items, (forall x, In x items -> P x) -> P (NCount k i items).
  Hypothesis Preq : forall k i result, (forall x, result = Some x -> P x) -> P (NReq k i result).
  Hypothesis Pcond : forall k i t f, P t -> (forall x, f = Some x -> P x) -> P (NCond k i t f).
  Hypothesis Pprof : forall k i c, P (NProf k i c).
  Fixpoint node_induction (n : node) : P n :=
    let opt (o : option node) : forall x, o = Some x -> P x :=
      match o with
      | None => fun x H => match H in _ = y return match y with Some z => P z | None => True end with eq_refl => I end
      | Some y => fun x H => match H in _ = z return match z with Some w => P w | None => True end with eq_refl => node_induction y end
      end in
    match n with
    | NCourse k r => Pcourse k r
    | NQuery k q => Pquery k q
    | NCount k i items =>
      Pcount k i items
        ((fix go (l : list node) : forall x, In x l -> P x :=
            match l with
            | [] => fun x H => match H with end
            | y :: t => fun x H => match H with
                                   | or_introl E => match E in _ = z return P z with eq_refl => node_induction y end
                                   | or_intror H' => go t x H'
                                   end
            end) items)
    | NReq k i result => Preq k i result (opt result)
    | NCond k i t f => Pcond k i t f (node_induction t) (opt f)
    | NProf k i c => Pprof k i c
    end.
End NodeInd.

(** the branch of a conditional that is in force *)
Inductive in_force (i : cond_info) (t : node) (f : option node) : node -> Prop :=
| if_true : e_result (d_cond i) = Some true -> in_force i t f t
| if_false x : e_result (d_cond i) = Some false -> f = Some x -> in_force i t f x.

(** ** Status *)

(** [n] of the elements of [l] satisfy [P] *)
Inductive tally {A} (P : A -> Prop) : list A -> nat -> Prop :=
| t_nil : tally P [] 0
| t_yes x l n : P x -> tally P l n -> tally P (x :: l) (S n)
| t_no x l n : ~ P x -> tally P l n -> tally P (x :: l) n.
(** nothing has happened yet *)
Definition untouched (s : status) : Prop := s = Empty \/ s = PendingApproval.

(** the verdict on "count of the children, and all the audits" *)
Definition sound_parts (children audits : list status) : Prop :=
  ~ In FailedInvariant children /\ ~ In FailedInvariant audits /\ (exists s, In s children /\ ~ untouched s).
Definition enough (count : Z) (children audits : list status) : Prop :=
  sound_parts children audits /\ exists n, tally passing children n /\ (count <= Z.of_nat n)%Z.
(** every audit, and every child that passes *)
Definition each_counted (children audits : list status) (P : status -> Prop) : Prop :=
  (forall s, In s children -> passing s -> P s) /\ (forall s, In s audits -> P s).
Definition someone_is (children audits : list status) (s : status) : Prop := In s children \/ In s audits.
Definition verdict (count : Z) (children audits : list status) (s : status) : Prop :=
  match s with
  | FailedInvariant => In FailedInvariant children \/ In FailedInvariant audits
  | Empty => ~ In FailedInvariant children /\ ~ In FailedInvariant audits /\ forall x, In x children -> untouched x
  | Waived => enough count children audits /\ each_counted children audits (eq Waived) /\ In Waived children
  | Done => enough count children audits /\ each_counted children audits complete /\
            (someone_is children audits Done \/ ~ In Waived children)
  | PendingCurrent => enough count children audits /\
      each_counted children audits (fun x => complete x \/ x = PendingCurrent) /\ someone_is children audits PendingCurrent
  | PendingRegistered => enough count children audits /\
      each_counted children audits passing /\ someone_is children audits PendingRegistered
  | NeedsMoreItems => sound_parts children audits /\
      ((exists n, tally passing children n /\ (Z.of_nat n < count)%Z) \/ (exists x, In x audits /\ ~ passing x))
  | PendingApproval => False
  end.

(** a course leaf is complete *)
Definition course_complete (k : kind) (r : crule) : Prop :=
  r_overridden r = true \/ (k = KRes /\ r_inserted r = true) \/ r_optional r = true \/
  (k = KRes /\ exists c, uses r c /\ c_in_progress c = false).
(** what makes a tree complete *)
Inductive achieved : node -> Prop :=
| ac_course k r : course_complete k r -> achieved (NCourse k r)
| ac_query k q : q_overridden q = true \/ (forall a, In a (q_asserts q) -> complete (any_status a)) -> achieved (NQuery k q)
| ac_count_waived k i items : n_overridden i = true -> achieved (NCount k i items)
| ac_count k i items chosen : subseq chosen items -> (n_count i <= Z.of_nat (List.length chosen))%Z ->
    (forall x, In x chosen -> achieved x) ->
    (forall a, In a (n_audits i) -> complete (any_status a)) -> achieved (NCount k i items)
| ac_req_waived k i result : e_overridden i = true -> achieved (NReq k i result)
| ac_req k i x : e_audited i = false -> achieved x -> achieved (NReq k i (Some x))
| ac_cond k i t f x : in_force i t f x -> achieved x -> achieved (NCond k i t f)
| ac_cond_none k i t f : (forall x, ~ in_force i t f x) -> achieved (NCond k i t f)
| ac_prof_waived k i c : f_overridden i = true -> achieved (NProf k i c)
| ac_prof k i c : complete (f_status i) -> achieved (NProf k i c)
| ac_prof_course k i k' r : course_complete k' r -> achieved (NProf k i (Some (k', r))).

(** ** Rank *)

(** the count rules whose rank cannot be computed: at most one of nothing *)
Definition of_nothing (i : count_info) (items : list node) : Prop := n_count i = 1%Z /\ n_at_most i = true /\ items = [].
Inductive rank_undefined : node -> Prop :=
| ru_here k i items : n_overridden i = false -> of_nothing i items -> rank_undefined (NCount k i items)
| ru_count k i items x : n_overridden i = false -> In x items -> rank_undefined x -> rank_undefined (NCount k i items)
| ru_req k i x : e_overridden i = false -> e_audited i = false -> rank_undefined x -> rank_undefined (NReq k i (Some x))
| ru_cond k i t f x : in_force i t f x -> rank_undefined x -> rank_undefined (NCond k i t f).

(** the assertions of a tree that take part in its rank *)
Inductive ranked_assertion : node -> any_assertion -> Prop :=
| ra_query k q a : In a (q_asserts q) -> ranked_assertion (NQuery k q) a
| ra_audit k i items a : In a (n_audits i) -> ranked_assertion (NCount k i items) a
| ra_item k i items x a : In x items -> ranked_assertion x a -> ranked_assertion (NCount k i items) a
| ra_req k i x a : ranked_assertion x a -> ranked_assertion (NReq k i (Some x)) a
| ra_cond k i t f x a : in_force i t f x -> ranked_assertion x a -> ranked_assertion (NCond k i t f) a.
Definition measured (a : assertion) : Prop := 0 <= dval (as_expected a) /\ forall r, as_resolved a = Some r -> 0 <= r.
Definition any_measured (x : any_assertion) : Prop :=
  match x with
  | APlain a => measured a
  | AIf _ _ t e => measured t /\ forall a, e = Some a -> measured a
  | AWhen _ _ t => measured t
  end.

(** ** Claims *)

(** [cl] is a claim of a result in the tree; with [gpa], only through requirements that
    count towards the grade point average *)
Inductive claimed_in (gpa : bool) : node -> claim -> Prop :=
| ci_course r cl : r_claim r = Some cl -> cl_failed cl = false -> claimed_in gpa (NCourse KRes r) cl
| ci_query q cl : In cl (q_claims q) -> claimed_in gpa (NQuery KRes q) cl
| ci_count k i items x cl : In x items -> claimed_in gpa x cl -> claimed_in gpa (NCount k i items) cl
| ci_req k i x cl : e_audited i = false -> (gpa = true -> e_in_gpa i = true) -> claimed_in gpa x cl -> claimed_in gpa (NReq k i (Some x)) cl
| ci_cond k i t f x cl : in_force i t f x -> claimed_in gpa x cl -> claimed_in gpa (NCond k i t f) cl
| ci_prof i r cl : r_claim r = Some cl -> cl_failed cl = false -> claimed_in gpa (NProf KRes i (Some (KRes, r))) cl.

(** ** The whole of status and rank *)

(** a course leaf that was not audited *)
Inductive leaf_status (k : kind) (r : crule) : status -> Prop :=
| ls_audited s : k = KRes -> course_status r s -> leaf_status k r s
| ls_waived : k <> KRes -> r_overridden r = true \/ r_optional r = true -> leaf_status k r Waived
| ls_none : k <> KRes -> r_overridden r = false -> r_optional r = false -> leaf_status k r Empty.
Inductive has_status : node -> status -> Prop :=
| hs_course k r s : leaf_status k r s -> has_status (NCourse k r) s
| hs_query_waived k q : q_overridden q = true -> has_status (NQuery k q) Waived
| hs_query k q s : q_overridden q = false -> conjunction (map any_status (q_asserts q)) s -> has_status (NQuery k q) s
| hs_count_waived k i items : n_overridden i = true -> has_status (NCount k i items) Waived
| hs_count k i items ss s : n_overridden i = false -> Forall2 has_status items ss ->
    verdict (n_count i) ss (map any_status (n_audits i)) s -> has_status (NCount k i items) s
| hs_approved k i o : e_overridden i = true -> e_audited i = true \/ e_contract i = true -> has_status (NReq k i o) Done
| hs_req_waived k i o : e_overridden i = true -> e_audited i = false -> e_contract i = false -> has_status (NReq k i o) Waived
| hs_awaiting k i o : e_overridden i = false -> e_audited i = true -> has_status (NReq k i o) PendingApproval
| hs_void k i : e_overridden i = false -> e_audited i = false -> has_status (NReq k i None) NeedsMoreItems
| hs_req k i x s : e_overridden i = false -> e_audited i = false -> has_status x s -> has_status (NReq k i (Some x)) s
| hs_cond k i t f x s : in_force i t f x -> has_status x s -> has_status (NCond k i t f) s
| hs_cond_none k i t f : (forall x, ~ in_force i t f x) -> has_status (NCond k i t f) Done
| hs_prof_waived k i c : f_overridden i = true -> has_status (NProf k i c) Waived
| hs_prof k i c : f_overridden i = false -> complete (f_status i) -> has_status (NProf k i c) (f_status i)
| hs_prof_course k i k' r s : f_overridden i = false -> ~ complete (f_status i) -> leaf_status k' r s ->
    has_status (NProf k i (Some (k', r))) s
| hs_prof_none k i : f_overridden i = false -> ~ complete (f_status i) -> has_status (NProf k i None) Empty.

(** the greatest element of a list *)
Definition greatest (l : list Q) (m : Q) : Prop := (exists x, In x l /\ x == m) /\ forall x, In x l -> x <= m.
Inductive total : list Q -> Q -> Prop :=
| tot_nil q : q == 0 -> total [] q
| tot_cons x l s q : total l s -> q == x + s -> total (x :: l) q.
(** the larger of two numbers *)
Definition larger (a b m : Q) : Prop := (a <= b /\ m == b) \/ (b <= a /\ m == a).
(** what a count's items can reach: at most one of them counts when only one is asked for *)
Definition reachable (i : count_info) (maxima : list Q) (m : Q) : Prop :=
  (n_count i = 1%Z /\ n_at_most i = true /\ greatest maxima m) \/
  (~ (n_count i = 1%Z /\ n_at_most i = true) /\ total maxima m).
(** points for a status: dp/base/{course,proficiency}.py *)
Definition points (s : status) : Q :=
  match s with Waived | Done => 1 | PendingCurrent => 3 # 4 | PendingRegistered => 1 # 2 | _ => 0 end.
Inductive has_rank : node -> Q -> Q -> Prop :=
| hr_optional k r a m : r_optional r = true -> a == 1 -> m == 1 -> has_rank (NCourse k r) a m
| hr_course k r s a m : r_optional r = false -> leaf_status k r s -> a == points s -> m == 1 -> has_rank (NCourse k r) a m
| hr_query k q a m : a == q_rank q -> m == q_max_rank q -> has_rank (NQuery k q) a m
| hr_count_waived k i items a m : n_overridden i = true -> a == 1 -> m == 1 -> has_rank (NCount k i items) a m
| hr_count k i items ranks r reach cap ar am cap' a m : n_overridden i = false ->
    Forall2 (fun x p => has_rank x (fst p) (snd p)) items ranks ->
    total (map fst ranks) r -> reachable i (map snd ranks) reach -> larger r reach cap ->
    total (map any_rank (n_audits i)) ar -> total (map any_max_rank (n_audits i)) am -> larger ar am cap' ->
    a == r + ar -> m == cap + cap' -> has_rank (NCount k i items) a m
| hr_req_waived k i o a m : e_overridden i = true -> a == 1 -> m == 1 -> has_rank (NReq k i o) a m
| hr_req_void k i o a m : e_overridden i = false -> (e_audited i = true \/ o = None) -> a == 0 -> m == 1 -> has_rank (NReq k i o) a m
| hr_req_boost k i x s r c a m : e_overridden i = false -> e_audited i = false -> has_rank x r c -> has_status x s -> passing s ->
    a == r + 1 -> m == c + 1 -> has_rank (NReq k i (Some x)) a m
| hr_req k i x s r c a m : e_overridden i = false -> e_audited i = false -> has_rank x r c -> has_status x s -> ~ passing s ->
    a == r -> m == c -> has_rank (NReq k i (Some x)) a m
| hr_cond k i t f x a m : in_force i t f x -> has_rank x a m -> has_rank (NCond k i t f) a m
| hr_cond_none k i t f a m : (forall x, ~ in_force i t f x) -> a == 1 -> m == 1 -> has_rank (NCond k i t f) a m
| hr_prof k i c s a m : has_status (NProf k i c) s -> a == points s -> m == 1 -> has_rank (NProf k i c) a m.
