(** Property theorems about where clauses (C20, C22, C63). *)
From Coq Require Import List ZArith Bool String.
From Verif Require Import Prelude Dec Course Op Context CondExpr CondExprSpec Predicate PredicateSpec PredicateProofs.
Import ListNotations.
Local Open Scope string_scope.
Local Open Scope list_scope.

(** C20. A clause whose comparisons raise nothing is decided by its boolean reading. *)
Theorem where_clause_is_boolean_formula :
  forall x p, all_leaves (leaf_ok x) p ->
  exists b, apply_pred x p = Ok b /\ (b = true <-> holds x p).
Proof. exact pred_spec. Qed.
Print Assumptions where_clause_is_boolean_formula.

(** ... and the loaded clause reads like the data it was loaded from. *)
Theorem loaded_clause_reads_like_its_data :
  forall cx c m w p, NoDup (map fst (cx_exc cx)) -> w_ok w -> load_predicate cx c m w = Ok p ->
  forall x, holds x p <-> w_holds cx c m x w.
Proof. intros cx c m w p N W L. eapply load_spec; eauto. Qed.
Print Assumptions loaded_clause_reads_like_its_data.

(** Each key compares the field of that name; an unknown key is an error. *)
Theorem clause_compares_the_named_field :
  forall x l,
  (forall v w, compares x l v w -> leaf_apply x l = apply_operator (l_op l) v w) /\
  (In (l_key l) (known_keys x) -> (forall v w, ~ compares x l v w) -> leaf_apply x l = Ok false) /\
  (~ In (l_key l) (known_keys x) -> exists e, leaf_apply x l = Err e).
Proof.
  intros x l. split; [intros v w; apply leaf_compares|]. split; [|apply leaf_unknown].
  intros K N. destruct (leaf_absent x l K) as [(v & w & C)|[_ E]]; [exfalso; eapply N; eauto|exact E].
Qed.
Print Assumptions clause_compares_the_named_field.

Example where_example :
  let c := mk_simple "1" "CSCI" "121" in
  let x := XFun FHasCourse "CSCI 121" in
  let cx := with_transcript empty_ctx [c] [] [] [] in
  let w := WIf x (WOr [WKeys [("grade", mkClause [(OGte, VS (SStr "B+"))] None)];
                      WKeys [("subject", mkClause [(OIn, VT [SStr "CSCI"; SStr "MATH"])] None);
                             ("level", mkClause [(OGte, VS (SInt 100))] None)]])
               (Some (WNot (WKeys [("attributes", mkClause [(OEq, VS (SStr "a"))] None)]))) in
  let k := mkConst 2016 2 (inl "Viola") "130" in
  NoDup (map fst (cx_exc cx)) /\ w_ok w /\
  exists p, load_predicate cx k DtCourse w = Ok p /\ all_leaves (leaf_ok (ICourse c)) p /\ apply_pred (ICourse c) p = Ok true.
Proof.
  split; [constructor|]. split; [cbn; repeat split; discriminate|].
  eexists. split; [reflexivity|]. split; [|reflexivity].
  cbn [all_leaves fold_right map]. unfold leaf_ok. cbn [l_key known_keys]. repeat split; try (simpl; tauto).
  all: intros v w C; inversion C; subst; try discriminate;
    try (match goal with F : course_field _ _ _ |- _ => inversion F; subst end);
    try (match goal with F : counted_subject _ _ |- _ => inversion F; subst end);
    try (match goal with F : counted_grade _ _ |- _ => inversion F; subst end);
    try (match goal with F : counted_threshold _ _ _ |- _ => inversion F; subst end); try discriminate;
    eexists; reflexivity.
Qed.

(** C22. The grade clause outside and inside the covid term. *)
Theorem covid_grade_only_in_covid_term :
  forall c l, l_key l = "grade" ->
  (c_covid c = false ->
     leaf_apply (ICourse c) l = apply_operator (l_op l) (VS (SGrade (c_grade_code c))) (l_expected l)) /\
  (c_covid c = true -> forall threshold,
     threshold = match l_covid l with Some t => t | None => l_expected l end ->
     (forall g, c_grade_code c = G_S -> c_su_grade c = Some g ->
        leaf_apply (ICourse c) l = apply_operator (l_op l) (VS (SGrade g)) threshold) /\
     (c_grade_code c <> G_S \/ c_su_grade c = None ->
        leaf_apply (ICourse c) l = apply_operator (l_op l) (VS (SGrade (c_grade_code c))) threshold)).
Proof.
  intros c l K. split.
  - intro C. apply leaf_compares. apply cp_grade; [exact K|apply cg_normal; exact C|apply ct_normal; exact C].
  - intros C t Et.
    assert (T : counted_threshold c l t) by (subst t; destruct (l_covid l) eqn:L; [apply ct_covid|apply ct_none]; assumption).
    split.
    + intros g G S. apply leaf_compares. apply cp_grade; [exact K|eapply cg_covid_su; eauto|exact T].
    + intros [G|S]; apply leaf_compares; (apply cp_grade; [exact K| |exact T]).
      * apply cg_covid_letter; assumption.
      * destruct (grade_code_eq_dec (c_grade_code c) G_S) as [E|E]; [rewrite E; apply cg_covid_s|apply cg_covid_letter]; assumption.
Qed.
Print Assumptions covid_grade_only_in_covid_term.

(** C63. A name starting with a dollar sign in an expected value is replaced by the
    student's constant and any other is an error; everything else stays as written. *)
Theorem constants_are_substituted :
  forall c s,
  (forall l, stands_for c s l -> exists r, get_by_name c s = Ok r /\ l = match r with inl l => l | inr y => [y] end) /\
  ((forall l, ~ stands_for c s l) -> get_by_name c s = Err ValueErr).
Proof. intros c s. split; [apply get_by_name_spec|apply get_by_name_unknown]. Qed.
Print Assumptions constants_are_substituted.

(** Loading one clause: the key must be known for the kind of items, there is exactly one
    operator, and the loaded clause carries that key, that operator and values without null. *)
Theorem loaded_clause_is_well_formed :
  forall c m k d l, load_single c m k d = Ok l ->
  l_key l = k /\ (exists ks, allowed_keys m = Ok ks /\ In k ks) /\
  (exists raw, cd_ops d = [(l_op l, raw)] /\ load_value c k raw = Ok (l_expected l)) /\
  (l_expected l <> VS SNone) /\
  (l_op l = OIn \/ l_op l = ONin -> forall vs, l_expected l = VT vs -> ~ In SNone vs) /\
  (cd_covid d = None -> l_covid l = None) /\
  (forall raw, cd_covid d = Some raw -> exists v, load_value c k raw = Ok v /\ l_covid l = Some v).
Proof.
  intros c m k d l. unfold load_single. destruct (allowed_keys m) as [ks|] eqn:A; [|discriminate]. cbn [bind].
  destruct (existsb (String.eqb k) ks) eqn:X; [|discriminate]. cbn [negb].
  apply existsb_exists in X as (k' & Hk & E). apply String.eqb_eq in E. subst k'.
  destruct (cd_ops d) as [|[op raw] [|]]; try discriminate.
  destruct (load_value c k raw) as [v|] eqn:L; [|discriminate]. cbn [bind].
  assert (exists cov, (match cd_covid d with None => Ok None | Some w => let! x := load_value c k w in Ok (Some x) end) = Ok cov /\
    (cd_covid d = None -> cov = None) /\ (forall raw, cd_covid d = Some raw -> exists v, load_value c k raw = Ok v /\ cov = Some v)
    \/ exists e, (match cd_covid d with None => Ok None | Some w => let! x := load_value c k w in Ok (Some x) end) = @Err (option value) e)
    as [cov [(-> & C1 & C2)|(e & ->)]].
  { destruct (cd_covid d) as [w|]; [destruct (load_value c k w) as [x|e] eqn:W|].
    - exists (Some x). left. split; [reflexivity|]. split; [discriminate|]. intros raw' [= <-]. eauto.
    - exists None. right. exists e. reflexivity.
    - exists None. left. split; [reflexivity|]. split; [auto|discriminate]. }
  2: discriminate.
  cbn [bind]. intro H.
  assert (HL : l = mkLeaf k op v cov /\ v <> VS SNone /\ (op = OIn \/ op = ONin -> forall vs, v = VT vs -> ~ In SNone vs)).
  { assert (F : forall vs, forallb (fun s => negb (is_none s)) vs = true -> ~ In SNone vs).
    { intros vs Q I. rewrite forallb_forall in Q. apply Q in I. discriminate. }
    destruct op, v as [[]|vs]; try discriminate;
      try (destruct (forallb _ vs) eqn:Q; [|discriminate]); injection H as <-; (split; [reflexivity|]; split; [discriminate|]);
      try (intros [?|?]; discriminate); try (intros _ vs' [= <-]; apply F; assumption); intros _ vs'; discriminate. }
  destruct HL as (-> & V & I). cbn. repeat split; eauto.
Qed.
Print Assumptions loaded_clause_is_well_formed.

Example load_single_example :
  load_single (mkConst 2016 2 (inr ["Viola"; "Cello"]) "130") DtPerformance "name"
    (mkClause [(OIn, VT [SStr "$primary-performing-medium"; SStr "x"])] None)
  = Ok (mkLeaf "name" OIn (VT [SStr "Viola"; SStr "Cello"; SStr "x"]) None).
Proof. reflexivity. Qed.
