(** What a specification asks about the student while it is loaded. *)
From Coq Require Import List ZArith Bool String.
From Verif Require Import Transcript Prelude Course Claims Exceptions Op Context CondExpr Predicate Limit Assertion Query CourseRule Tree Driver Area Loader LimitLoad AreaLoad.
From Verif Require Import LoaderSpec AreaLoadSpec.
Import ListNotations.
Local Open Scope list_scope.

(** a question of a condition *)
Inductive asks : xdata -> pfun -> string -> Prop :=
| ak_fun f a : asks (XFun f a) f a
| ak_and l x f a : In x l -> asks x f a -> asks (XAnd l) f a
| ak_or l x f a : In x l -> asks x f a -> asks (XOr l) f a
| ak_not x f a : asks x f a -> asks (XNot x) f a.
(** of a where clause *)
Inductive where_asks : wdata -> pfun -> string -> Prop :=
| wk_and l w f a : In w l -> where_asks w f a -> where_asks (WAnd l) f a
| wk_or l w f a : In w l -> where_asks w f a -> where_asks (WOr l) f a
| wk_not w f a : where_asks w f a -> where_asks (WNot w) f a
| wk_if x t e f a : asks x f a -> where_asks (WIf x t e) f a
| wk_then x t e f a : where_asks t f a -> where_asks (WIf x t e) f a
| wk_else x t e f a : where_asks e f a -> where_asks (WIf x t (Some e)) f a.
(** of an assertion: its clause, and the changes to what it expects *)
Definition assertion_asks (r : raw_assertion) (f : pfun) (a : string) : Prop :=
  (exists w, rw_where r = Some w /\ where_asks w f a) \/
  (exists k v d, In (k, v) (rw_assert r) /\ In d (av_changes v) /\ asks (fst d) f a).
Definition any_asks (r : raw_any) (f : pfun) (a : string) : Prop :=
  match r with
  | RwPlain x | RwWhen _ x => assertion_asks x f a
  | RwIf x t e => asks x f a \/ assertion_asks t f a \/ exists y, e = Some y /\ assertion_asks y f a
  end.
Definition limits_ask (o : option (list raw_limit)) (f : pfun) (a : string) : Prop :=
  exists l r w, o = Some l /\ In r l /\ rl_where r = Some w /\ where_asks w f a.
Definition query_asks (q : raw_query) (f : pfun) (a : string) : Prop :=
  (exists w, rq_where q = Some w /\ where_asks w f a) \/ limits_ask (rq_limit q) f a \/
  (exists r, rq_assert q = Some r /\ assertion_asks r f a) \/
  (exists l r, rq_all q = Some l /\ In r l /\ any_asks r f a).
(** of a rule itself, not of the rules in it *)
Definition rule_asks (y : rdata) (f : pfun) (a : string) : Prop :=
  (exists q, rd_query y = Some q /\ query_asks q f a) \/
  (exists k l r, rd_count y = Some k /\ rk_audit k = Some l /\ In r l /\ any_asks r f a) \/
  (exists x, rd_cond y = Some x /\ asks (rn_if x) f a).
(** of an area, with all of its emphases *)
Inductive area_asks (s : aspec) (f : pfun) (a : string) : Prop :=
| aa_result d y : ar_result s = Some d -> mentions d y -> rule_asks y f a -> area_asks s f a
| aa_req k b y : In (k, b) (reqs_of (ar_reqs s)) -> mentions_in b y -> rule_asks y f a -> area_asks s f a
| aa_limit : limits_ask (ar_limit s) f a -> area_asks s f a
| aa_emphasis e y : In e (ar_emphases s) -> mentions_in (em_body e) y -> rule_asks y f a -> area_asks s f a
| aa_emphasis_limit e : In e (ar_emphases s) -> limits_ask (em_limit e) f a -> area_asks s f a.

(** the question is about other classes: another course, or an attribute that the class does not
    have *)
Definition about_others (x : course) (f : pfun) (a : string) : Prop :=
  match f with
  | FHasCourse => ~ (c_stolaf x = true /\ c_identity x = a)
  | FHasIpCourse => ~ (c_stolaf x = true /\ c_identity x = a /\ c_in_progress x = true)
  | FHasCompletedCourse => ~ (c_stolaf x = true /\ c_identity x = a /\ c_in_progress x = false)
  | FStudentHasCourseWithAttribute => ~ (c_stolaf x = true /\ In a (c_attributes x))
  | FHasDeclaredAreaCode | FPassedProficiencyExam | FHasOverrideException => True
  end.
Definition asks_about_others (x : course) (s : aspec) : Prop := forall f a, area_asks s f a -> about_others x f a.
