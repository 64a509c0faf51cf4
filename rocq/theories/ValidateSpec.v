(** Specifications whose loading does not depend on the student. *)
From Coq Require Import List ZArith QArith Bool String.
From Verif Require Import Transcript Prelude Dec Status Course Claims Exceptions Op Context CondExpr Predicate Limit Assertion Query CourseRule Tree Driver Area Loader LimitLoad AreaLoad.
From Verif Require Import LoaderSpec AreaLoadSpec.
Import ListNotations.
Local Open Scope string_scope.
Local Open Scope list_scope.

(** the text looks like the name of a constant *)
Definition constant_name (s : string) : Prop := exists t, s = ("$" ++ t)%string.
Definition value_mentions (v : value) (s : string) : Prop :=
  match v with VS x => x = SStr s | VT l => In (SStr s) l end.

(** ** Clauses *)

(** a key with what is said about it, somewhere in a where clause *)
Inductive clause_of : wdata -> string -> clause_data -> Prop :=
| co_and l w k d : In w l -> clause_of w k d -> clause_of (WAnd l) k d
| co_or l w k d : In w l -> clause_of w k d -> clause_of (WOr l) k d
| co_not w k d : clause_of w k d -> clause_of (WNot w) k d
| co_then x t e k d : clause_of t k d -> clause_of (WIf x t e) k d
| co_else x t e k d : clause_of e k d -> clause_of (WIf x t (Some e)) k d
| co_key l k d : In (k, d) l -> clause_of (WKeys l) k d.
(** Grades, grade options and numbers are converted when they are loaded, which works for some
    texts only; no constant is used for them. *)
Definition converted_key (k : string) : Prop := In k ["grade"; "grade_option"; "credits"; "gpa"].
Definition steady_where (w : wdata) : Prop :=
  forall k d v s, clause_of w k d -> (exists op, In (op, v) (cd_ops d)) \/ cd_covid d = Some v ->
    value_mentions v s -> constant_name s -> ~ converted_key k.
(** the constants that are numbers *)
Definition numeric_constant (s : string) : Prop := In s ["$matriculation-year"; "$terms-since-declaring-major"].
Definition steady_assertion (r : raw_assertion) : Prop :=
  (forall w, rw_where r = Some w -> steady_where w) /\
  forall k v op s, In (k, v) (rw_assert r) -> In (op, RStr s) (av_ops v) -> constant_name s -> numeric_constant s.
Definition steady_any (r : raw_any) : Prop :=
  match r with
  | RwPlain a | RwWhen _ a => steady_assertion a
  | RwIf _ t e => steady_assertion t /\ forall a, e = Some a -> steady_assertion a
  end.
Definition steady_limits (o : option (list raw_limit)) : Prop :=
  forall l r w, o = Some l -> In r l -> rl_where r = Some w -> steady_where w.
Definition steady_query (q : raw_query) : Prop :=
  (forall w, rq_where q = Some w -> steady_where w) /\ steady_limits (rq_limit q) /\
  (forall a, rq_assert q = Some a -> steady_assertion a) /\
  (forall l a, rq_all q = Some l -> In a l -> steady_any a).

(** ** Rules *)

(** the rule names no requirement *)
Definition names_nothing (d : rdata) : Prop := forall y, mentions d y -> rd_name y = None /\ rd_req y = None.
(** A rule that is loaded alike for all students, but for what is below it: it stands for no
    template, its queries and audits are steady, and a conditional is not hidden and decides
    about no requirement. *)
Record steady_rule (y : rdata) : Prop := {
  sr_template : rd_template y = None;
  sr_query : forall q, rd_query y = Some q -> steady_query q;
  sr_audit : forall k l a, rd_count y = Some k -> rk_audit k = Some l -> In a l -> steady_any a;
  sr_hide : forall x, rd_cond y = Some x -> rn_hide x = false;
  sr_names : forall x b, rd_cond y = Some x -> rn_then x = Some b \/ rn_else x = Some b -> names_nothing b }.
Definition steady (d : rdata) : Prop := forall y, mentions d y -> steady_rule y.
Definition steady_in (b : rbody) : Prop := forall y, mentions_in b y -> steady_rule y.

(** ** Areas *)

Record steady_area (s : aspec) : Prop := {
  sa_result : forall d, ar_result s = Some d -> steady d;
  sa_reqs : forall l n b, ar_reqs s = Some l -> In (n, b) l -> steady_in b;
  sa_limit : steady_limits (ar_limit s);
  sa_emphases : forall e, In e (ar_emphases s) -> steady_in (em_body e) /\ steady_limits (em_limit e) }.
(** exceptions that insert nothing *)
Definition inserts_nothing (es : list exc) : Prop := forall e k f, In e es -> ex_act e <> AInsert k f.
(** the classes inserted are classes of the student, and have a number *)
Definition inserts_own (st : student) (es : list exc) : Prop :=
  forall e k f, In e es -> ex_act e = AInsert k f -> k <> "" /\ exists x, In x (t_courses st) /\ c_clbid x = k.
(** none of the emphases of the area is declared *)
Definition no_emphasis (st : student) (s : aspec) : Prop := forall e, In e (ar_emphases s) -> ~ declared st e.

(** ** What the validator says *)

(** nobody: no classes, no areas, no proficiencies *)
Definition nobody : student :=
  mkStudent [] [] [] [] [] (mkProf PrNo PrNo PrNo PrNo PrNo).
(** the file can be read, and is what an area is loaded as for nobody, without exceptions and
    templates *)
Definition valid_file (f : res aspec) : Prop :=
  exists s u chosen n cs, f = Ok s /\ loaded_as (mkConst 200 0 (inl "") "") [] nobody [] false s u chosen n cs.
(** every invalid file, in their order *)
Definition each_invalid (files : list (string * res aspec)) (names : list string) : Prop :=
  exists bad, picked (fun x => ~ valid_file (snd x)) files bad /\ names = map fst bad.
(** the first invalid file only *)
Definition first_invalid (files : list (string * res aspec)) (names : list string) : Prop :=
  (exists a x b, files = a ++ x :: b /\ (forall y, In y a -> valid_file (snd y)) /\ ~ valid_file (snd x) /\ names = [fst x]) \/
  ((forall y, In y files -> valid_file (snd y)) /\ names = []).
