(** Property theorems about the references that are discovered in areas (C136-C138). *)
From Coq Require Import List ZArith Bool String Ascii Lia.
From Verif Require Import Prelude Dec Status Course Claims Op Context CondExpr Predicate PredicateProofs Limit Apply Assertion Query CourseRule Tree TreeSpec TreeSolSpec Area AreaProps Discover.
Import ListNotations.
Local Open Scope string_scope.
Local Open Scope list_scope.

(** ** What a part of an area mentions *)
(** a comparison anywhere within a clause *)
Inductive compares : pred -> leaf -> Prop :=
| cm_leaf l : compares (PLeaf l) l
| cm_and ps p l : In p ps -> compares p l -> compares (PAnd ps) l
| cm_or ps p l : In p ps -> compares p l -> compares (POr ps) l
| cm_not p l : compares p l -> compares (PNot p) l
| cm_then c t e l : compares t l -> compares (PIf c t e) l
| cm_else c t e l : compares e l -> compares (PIf c t (Some e)) l.
(** the clause compares a value under one of the keys [ks] with [b] *)
Definition clause_mentions (ks : list string) (p : pred) (b : string) : Prop :=
  exists l, compares p l /\ In (l_key l) ks /\ (l_expected l = VS (SStr b) \/ exists xs, l_expected l = VT xs /\ In (SStr b) xs).
(** the plain assertions an assertion is made of *)
Inductive asserts : any_assertion -> assertion -> Prop :=
| at_plain a : asserts (APlain a) a
| at_then p c t e : asserts (AIf p c t e) t
| at_else p c t e : asserts (AIf p c t (Some e)) e
| at_when p c t : asserts (AWhen p c t) t.
Definition assertion_mentions (ks : list string) (a : any_assertion) (b : string) : Prop :=
  exists x p, asserts a x /\ as_where x = Some p /\ clause_mentions ks p b.
Definition query_mentions (ks : list string) (q : query) (b : string) : Prop :=
  (exists l, In l (q_limit q) /\ clause_mentions ks (lm_where l) b) \/
  (exists p, q_where q = Some p /\ clause_mentions ks p b) \/
  (exists a, In a (q_asserts q) /\ assertion_mentions ks a b).
(** a rule of the area mentions [b]: a query, or the assertions of a count *)
Definition rule_mentions (ks : list string) (n : node) (b : string) : Prop :=
  (exists k q, part_of n (NQuery k q) /\ query_mentions ks q b) \/
  (exists k i items a, part_of n (NCount k i items) /\ In a (n_audits i) /\ assertion_mentions ks a b).
Definition area_mentions (ks : list string) (u : study) (b : string) : Prop :=
  (exists l, In l (u_limit u) /\ clause_mentions ks (lm_where l) b) \/ rule_mentions ks (u_result u) b.
(** the keys under which a clause looks at the attributes of a course (dp/data/course.py:263-264) *)
Definition attribute_keys : list string := ["attributes"; "attribute"].
Definition plural : list string := ["attributes"].
(** parts that are reached without going through a conditional *)
Inductive plainly : node -> node -> Prop :=
| pl_self n : plainly n n
| pl_count k i items x y : In x items -> plainly x y -> plainly (NCount k i items) y
| pl_req k i x y : plainly x y -> plainly (NReq k i (Some x)) y.
(** within [n] no conditional and no count with assertions of its own *)
Definition without_conditionals (n : node) : Prop := forall k i t f, ~ part_of n (NCond k i t f).
Definition without_audits (n : node) : Prop := forall k i items, part_of n (NCount k i items) -> n_audits i = [].

(** ** Proofs *)
Lemma texts_of_in b l : In b (texts_of l) <-> In (SStr b) l.
Proof.
  unfold texts_of. rewrite in_flat_map. split.
  - intros (x & X & H). destruct x; cbn in H; try contradiction. destruct H as [<-|[]]. exact X.
  - intro H. exists (SStr b). split; [exact H|left; reflexivity].
Qed.
Lemma leaf_in l b : In b (buckets_in_clause (PLeaf l)) <->
  In (l_key l) plural /\ (l_expected l = VS (SStr b) \/ exists xs, l_expected l = VT xs /\ In (SStr b) xs).
Proof.
  cbn [buckets_in_clause]. destruct (String.eqb_spec (l_key l) "attributes") as [E|E]; [|split; [intros []|intros ([H|[]] & _); congruence]].
  rewrite E. assert (P : In "attributes" plural) by (left; reflexivity). destruct (l_expected l) as [s|xs].
  - destruct s; split; cbn [In]; try (intros []; fail); try (intros (_ & [H|(? & H & _)]); discriminate).
    + intros [<-|[]]. auto.
    + intros (_ & [H|(? & H & _)]); [injection H as ->; left; reflexivity|discriminate].
  - rewrite texts_of_in. split; [intro H; split; [exact P|right; eauto]|]. intros (_ & [H|(? & H & G)]); [discriminate|injection H as ->; exact G].
Qed.
Lemma clause_exact p b : In b (buckets_in_clause p) <-> clause_mentions plural p b.
Proof.
  unfold clause_mentions. induction p as [l IH|l IH|x IH|c t IH|c t e IHt IHe|l] using pred_ind'.
  1,2: cbn [buckets_in_clause]; rewrite in_flat_map; rewrite Forall_forall in IH; split;
    [intros (x & X & H); apply IH in H as (m & M & R); [|exact X]; exists m; split; [econstructor; eassumption|exact R]
    |intros (m & M & R); inversion M; subst; eexists; split; [eassumption|]; apply IH; [assumption|]; eauto].
  - cbn [buckets_in_clause]. rewrite IH. split; intros (m & M & R); exists m; (split; [|exact R]); [constructor; exact M|inversion M; assumption].
  - cbn [buckets_in_clause]. rewrite app_nil_r, IH. split; intros (m & M & R); exists m; (split; [|exact R]); [constructor; exact M|inversion M; assumption].
  - cbn [buckets_in_clause]. rewrite in_app_iff, IHt, IHe. split.
    + intros [(m & M & R)|(m & M & R)]; exists m; (split; [|exact R]); [apply cm_then|apply cm_else]; exact M.
    + intros (m & M & R). inversion M; subst; [left|right]; eauto.
  - rewrite leaf_in. split; [intros H; exists l; split; [constructor|exact H]|]. intros (m & M & R). inversion M; subst. exact R.
Qed.
Lemma single_exact a b : In b (buckets_in_single a) <-> exists p, as_where a = Some p /\ clause_mentions plural p b.
Proof.
  unfold buckets_in_single. destruct (as_where a) as [p|]; [rewrite clause_exact|]; (split; [|]); [intro H; eauto|intros (? & E & H); injection E as ->; exact H|intros []|intros (? & E & _); discriminate].
Qed.
Lemma assertion_exact a b : In b (buckets_in_assertion a) <-> assertion_mentions plural a b.
Proof.
  unfold assertion_mentions. destruct a as [x|p c t [e|]|p c t]; cbn [buckets_in_assertion]; rewrite ?in_app_iff, ?app_nil_r, ?single_exact.
  - split; [intros (q & H); exists x, q; split; [constructor|exact H]|intros (y & q & H & R); inversion H; subst; eauto].
  - split; [intros [(q & H)|(q & H)]; [exists t, q|exists e, q]; (split; [constructor|exact H])|intros (y & q & H & R); inversion H; subst; eauto].
  - split; [intros [(q & H)|[]]; exists t, q; (split; [constructor|exact H])|intros (y & q & H & R); inversion H; subst; eauto].
  - split; [intros (q & H); exists t, q; (split; [constructor|exact H])|intros (y & q & H & R); inversion H; subst; eauto].
Qed.
Lemma limits_exact ls b : In b (flat_map (fun l => buckets_in_clause (lm_where l)) ls) <-> exists l, In l ls /\ clause_mentions plural (lm_where l) b.
Proof. rewrite in_flat_map. split; intros (l & L & H); exists l; (split; [exact L|]); apply clause_exact; exact H. Qed.
Lemma rule_exact n b : In b (buckets_in_rule n) <-> exists k q, plainly n (NQuery k q) /\ query_mentions plural q b.
Proof.
  induction n as [k r|k q|k i items IH|k i r IH|k i t f IHt IHf|k i c] using node_induction.
  - cbn. split; [intros []|intros (? & ? & H & _); inversion H].
  - cbn [buckets_in_rule]. rewrite !in_app_iff, limits_exact, in_flat_map.
    assert (A : In b match q_where q with Some p => buckets_in_clause p | None => [] end <-> exists p, q_where q = Some p /\ clause_mentions plural p b).
    { destruct (q_where q) as [p|]; [rewrite clause_exact|]; (split; [|]); [intro H; eauto|intros (? & E & H); injection E as ->; exact H|intros []|intros (? & E & _); discriminate]. }
    rewrite A. assert (B : (exists a, In a (q_asserts q) /\ In b (buckets_in_assertion a)) <-> exists a, In a (q_asserts q) /\ assertion_mentions plural a b).
    { split; intros (a & I & H); exists a; (split; [exact I|]); apply assertion_exact; exact H. }
    rewrite B. change (query_mentions plural q b <-> exists k0 q0, plainly (NQuery k q) (NQuery k0 q0) /\ query_mentions plural q0 b). split; [intro H; exists k, q; split; [constructor|exact H]|].
    intros (k0 & q0 & H & R). inversion H; subst. exact R.
  - cbn [buckets_in_rule]. rewrite in_flat_map. split.
    + intros (x & X & H). apply IH in H as (k0 & q0 & P & R); [|exact X]. exists k0, q0. split; [econstructor; eassumption|exact R].
    + intros (k0 & q0 & P & R). inversion P; subst. eexists. split; [eassumption|]. apply IH; eauto.
  - cbn [buckets_in_rule]. destruct r as [x|]; [|split; [intros []|intros (? & ? & P & _); inversion P]].
    rewrite (IH x eq_refl). split; intros (k0 & q0 & P & R); exists k0, q0; (split; [|exact R]); [constructor; exact P|inversion P; subst; assumption].
  - cbn. split; [intros []|intros (? & ? & H & _); inversion H].
  - cbn. split; [intros []|intros (? & ? & H & _); inversion H].
Qed.
Lemma plainly_part n x : plainly n x -> part_of n x.
Proof. induction 1; econstructor; eassumption. Qed.
Lemma part_plainly n x : without_conditionals n -> part_of n x -> plainly n x.
Proof.
  intros W H. induction H as [n|k i items x y X H IH|k i x y H IH|k i t f y H IH|k i t x y H IH].
  - constructor.
  - econstructor; [exact X|]. apply IH. intros k' i' t' f' P. apply (W k' i' t' f'). econstructor; eassumption.
  - constructor. apply IH. intros k' i' t' f' P. apply (W k' i' t' f'). constructor. exact P.
  - destruct (W k i t f (pt_self _)).
  - destruct (W k i t (Some x) (pt_self _)).
Qed.

(** C136. The attributes discovered in an area are exactly those mentioned by its limits and by
    the queries that are not below a conditional; all of them are mentioned by the area; and none
    is missed in an area without conditionals and without assertions on counts. *)
Theorem discovered_attributes_exact :
  forall u b, In b (buckets_in_area u) <->
    (exists l, In l (u_limit u) /\ clause_mentions plural (lm_where l) b) \/ (exists k q, plainly (u_result u) (NQuery k q) /\ query_mentions plural q b).
Proof. intros u b. unfold buckets_in_area. rewrite in_app_iff, limits_exact, rule_exact. reflexivity. Qed.
Theorem discovered_attributes_are_mentioned : forall u b, In b (buckets_in_area u) -> area_mentions plural u b.
Proof.
  intros u b. rewrite discovered_attributes_exact. intros [H|(k & q & P & H)]; [left; exact H|]. right. left. exists k, q. split; [apply plainly_part; exact P|exact H].
Qed.
Theorem mentioned_attributes_are_discovered_when_plain :
  forall u b, without_conditionals (u_result u) -> without_audits (u_result u) -> area_mentions plural u b -> In b (buckets_in_area u).
Proof.
  intros u b W A. rewrite discovered_attributes_exact. intros [H|[(k & q & P & H)|(k & i & items & a & P & I & _)]]; [left; exact H| |].
  - right. exists k, q. split; [apply part_plainly; assumption|exact H].
  - rewrite (A k i items P) in I. destruct I.
Qed.
Print Assumptions discovered_attributes_exact.
Print Assumptions mentioned_attributes_are_discovered_when_plain.

Definition attribute (b : string) : pred := PLeaf (mkLeaf "attributes" OEq (VS (SStr b)) None).
Definition either_attribute (a b : string) : pred := PLeaf (mkLeaf "attributes" OIn (VT [SStr a; SStr b]) None).
Definition query_where (p : pred) : node := NQuery KRule (mkQuery ["$"; ".query"] false QCourses DtCourse [] [] (Some p) false true true false [] [] [] [] [] []).
Definition plain_area : study := one_rule "concentration" (all_of [query_where (PNot (either_attribute "csci_elective" "csci_capstone"))]) [].
Example plain_area_is_plain : without_conditionals (u_result plain_area) /\ without_audits (u_result plain_area).
Proof. split; [intros k i t f H|intros k i items H]; inversion H; subst; try reflexivity; match goal with X : In _ _ |- _ => destruct X as [<-|[]] end; match goal with X : part_of (query_where _) _ |- _ => inversion X end. Qed.
Example plain_area_mentions : forall b, In b (buckets_in_area plain_area) <-> b = "csci_elective" \/ b = "csci_capstone".
Proof. intro b. vm_compute. intuition. Qed.

(** Every attribute that the area mentions is discovered. Refuted, in three ways: below a
    conditional, in the assertions of a count, and under the other name of the key. *)
Definition every_attribute_is_discovered : Prop := forall u b, area_mentions attribute_keys u b -> In b (buckets_in_area u).
Definition conditional_area : study := one_rule "concentration"
  (all_of [NCond KRule (mkCond ["$"; ".count"; ".conditional"] false (EAnd [] (Some true))) (query_where (attribute "wri")) None]) [].
Definition singular_area : study := one_rule "concentration" (all_of [query_where (PLeaf (mkLeaf "attribute" OEq (VS (SStr "wri")) None))]) [].
Definition audit_where (p : pred) : assertion := mkAs ["$"; ".audit"] Empty DtCourse (Some p) KCourses OGte (mkDec 1 0) None [] false None None false false false None None None None.
Definition audited_area : study := one_rule "concentration"
  (NCount KRule (mkCount ["$"; ".count"] false 1 false [APlain (audit_where (attribute "wri"))]) [query_where (attribute "eng")]) [].
Lemma attribute_mentioned ks k b : In k ks -> clause_mentions ks (PLeaf (mkLeaf k OEq (VS (SStr b)) None)) b.
Proof. intro K. eexists. split; [constructor|]. split; [exact K|left; reflexivity]. Qed.
Theorem attributes_below_conditionals_are_missed : area_mentions plural conditional_area "wri" /\ buckets_in_area conditional_area = [].
Proof.
  split; [|reflexivity]. right. left. exists KRule. eexists. split; [eapply pt_count; [left; reflexivity|]; apply pt_true; apply pt_self|].
  right. left. eexists. split; [reflexivity|]. apply attribute_mentioned. left. reflexivity.
Qed.
Theorem attributes_of_counts_are_missed : area_mentions plural audited_area "wri" /\ buckets_in_area audited_area = ["eng"].
Proof.
  split; [|reflexivity]. right. right. do 4 eexists. split; [apply pt_self|]. split; [left; reflexivity|]. eexists. eexists. split; [constructor|]. split; [reflexivity|].
  apply attribute_mentioned. left. reflexivity.
Qed.
Theorem attributes_by_the_other_key_are_missed : area_mentions attribute_keys singular_area "wri" /\ buckets_in_area singular_area = [].
Proof.
  split; [|reflexivity]. right. left. exists KRule. eexists. split; [eapply pt_count; [left; reflexivity|]; apply pt_self|].
  right. left. eexists. split; [reflexivity|]. apply attribute_mentioned. right. left. reflexivity.
Qed.
Theorem every_attribute_is_discovered_refuted : ~ every_attribute_is_discovered.
Proof. intro H. destruct attributes_by_the_other_key_are_missed as [M E]. apply H in M. rewrite E in M. destruct M. Qed.

(** ** Courses *)
(** the rule names a course of the catalog: by its number, or else by subject and number, and by
    nothing that singles out another school, a section or an examination *)
Definition given (o : option string) (s : string) : Prop := o = Some s /\ s <> "".
Definition not_given (o : option string) : Prop := forall s, ~ given o s.
Definition refers (r : crule) (s : string) : Prop :=
  not_given (r_institution r) /\ not_given (r_clbid r) /\ not_given (r_ap r) /\ not_given (r_name r) /\
  (given (r_crsid r) s \/ not_given (r_crsid r) /\ given (r_course r) s).
(** a rule for a course within [n], not below a conditional; also the course of a proficiency *)
Definition plain_course (n : node) (r : crule) : Prop :=
  (exists k, plainly n (NCourse k r)) \/ (exists k i k', plainly n (NProf k i (Some (k', r)))).
Definition any_course (n : node) (r : crule) : Prop :=
  (exists k, part_of n (NCourse k r)) \/ (exists k i k', part_of n (NProf k i (Some (k', r)))).

Lemma blank_true o : blank o = true <-> not_given o.
Proof.
  unfold blank, not_given, given. destruct o as [s|]; [rewrite String.eqb_eq|]; split.
  - intros -> x (H & N). injection H as <-. contradiction.
  - intro H. destruct (String.eqb_spec s "") as [E|E]; [exact E|]. destruct (H s). split; [reflexivity|exact E].
  - intros _ x (H & _). discriminate.
  - reflexivity.
Qed.
Lemma blank_false o : blank o = false <-> exists s, given o s.
Proof.
  unfold blank, given. destruct o as [s|].
  - rewrite String.eqb_neq. split; [intro H; exists s; auto|intros (x & E & N); injection E as ->; exact N].
  - split; [discriminate|intros (x & E & _); discriminate].
Qed.
Lemma course_exact hid r s : In s (courses_in_course hid r) <-> hid r = false /\ refers r s.
Proof.
  unfold courses_in_course, refers.
  destruct (blank (r_institution r)) eqn:B1; cbn [negb orb];
    [apply blank_true in B1|apply blank_false in B1 as (x & B1); assert (~ not_given (r_institution r)) by (intro N; exact (N x B1)); destruct (blank (r_course r) && blank (r_crsid r)); split; [intros []|intuition|intros []|intuition]].
  destruct (blank (r_clbid r)) eqn:B2; cbn [negb orb];
    [apply blank_true in B2|apply blank_false in B2 as (x & B2); assert (~ not_given (r_clbid r)) by (intro N; exact (N x B2)); destruct (blank (r_course r) && blank (r_crsid r)); split; [intros []|intuition|intros []|intuition]].
  destruct (blank (r_ap r)) eqn:B3; cbn [negb orb];
    [apply blank_true in B3|apply blank_false in B3 as (x & B3); assert (~ not_given (r_ap r)) by (intro N; exact (N x B3)); destruct (blank (r_course r) && blank (r_crsid r)); split; [intros []|intuition|intros []|intuition]].
  destruct (blank (r_name r)) eqn:B4; cbn [negb orb];
    [apply blank_true in B4|apply blank_false in B4 as (x & B4); assert (~ not_given (r_name r)) by (intro N; exact (N x B4)); destruct (blank (r_course r) && blank (r_crsid r)); split; [intros []|intuition|intros []|intuition]].
  assert (K : forall P Q : Prop, (Q <-> P) -> (P <-> Q)) by tauto.
  destruct (hid r) eqn:H; [destruct (blank (r_course r) && blank (r_crsid r)); split; [intros []|intros (? & _); discriminate|intros []|intros (? & _); discriminate]|].
  assert (X : forall P : Prop, (P <-> given (r_crsid r) s \/ not_given (r_crsid r) /\ given (r_course r) s) ->
    (P <-> false = false /\ not_given (r_institution r) /\ not_given (r_clbid r) /\ not_given (r_ap r) /\ not_given (r_name r) /\ (given (r_crsid r) s \/ not_given (r_crsid r) /\ given (r_course r) s))) by (intros; tauto).
  apply X. clear X K.
  destruct (blank (r_crsid r)) eqn:C.
  - rewrite andb_true_r. assert (N := C). apply blank_true in N. destruct (blank (r_course r)) eqn:D.
    + apply blank_true in D. split; [intros []|]. intros [G|(_ & G)]; [destruct (N s G)|destruct (D s G)].
    + apply blank_false in D as (c & D & D'). rewrite D. unfold blank in C.
      assert (E : In s match r_crsid r with Some x => if x =? "" then [c] else [x] | None => [c] end <-> s = c).
      { destruct (r_crsid r) as [x|]; [rewrite C|]; cbn; intuition. }
      rewrite E. unfold given. split; [intros ->; right; auto|]. intros [G|(_ & G & _)]; [destruct (N s G)|injection G as ->; reflexivity].
  - rewrite andb_false_r. assert (N := C). apply blank_false in N as (c & G & G'). rewrite G. apply String.eqb_neq in G'. rewrite G'. cbn. unfold given, not_given. apply String.eqb_neq in G'.
    split; [intros [<-|[]]; left; auto|]. intros [(E & _)|(N & _)]; [injection E as ->; left; reflexivity|]. destruct (N c). split; [reflexivity|exact G'].
Qed.
Lemma courses_exact hid n s : In s (courses_in_rule hid n) <-> exists r, plain_course n r /\ hid r = false /\ refers r s.
Proof.
  unfold plain_course. induction n as [k r|k q|k i items IH|k i r IH|k i t f IHt IHf|k i c] using node_induction; cbn [courses_in_rule].
  - rewrite course_exact. split; [intro H; exists r; split; [left; exists k; constructor|exact H]|]. intros (x & [(k' & P)|(k' & i & k'' & P)] & H); inversion P; subst; exact H.
  - split; [intros []|]. intros (x & [(k' & P)|(k' & i & k'' & P)] & H); inversion P.
  - rewrite in_flat_map. split.
    + intros (x & X & H). apply IH in H as (r & P & R); [|exact X]. exists r. split; [|exact R]. destruct P as [(k' & P)|(k' & j & k'' & P)]; [left; exists k'|right; exists k', j, k'']; econstructor; eassumption.
    + intros (r & [(k' & P)|(k' & j & k'' & P)] & R); inversion P; subst; eexists; (split; [eassumption|]); apply IH; eauto 7.
  - destruct r as [x|].
    + rewrite (IH x eq_refl). split.
      * intros (r & [(k' & P)|(k' & j & k'' & P)] & R); exists r; (split; [|exact R]); [left; exists k'|right; exists k', j, k'']; constructor; exact P.
      * intros (r & [(k' & P)|(k' & j & k'' & P)] & R); inversion P; subst; exists r; (split; [|exact R]); eauto 6.
    + split; [intros []|]. intros (x & [(k' & P)|(k' & j & k'' & P)] & H); inversion P.
  - split; [intros []|]. intros (x & [(k' & P)|(k' & j & k'' & P)] & H); inversion P.
  - destruct c as [[k' r]|].
    + rewrite course_exact. split; [intro H; exists r; split; [right; exists k, i, k'; constructor|exact H]|]. intros (x & [(k0 & P)|(k0 & j & k'' & P)] & H); inversion P; subst; exact H.
    + split; [intros []|]. intros (x & [(k' & P)|(k' & j & k'' & P)] & H); inversion P.
Qed.

(** C137. The courses discovered in an area are exactly those that its visible course rules
    refer to which are not below a conditional; without conditionals none is missed. *)
Theorem discovered_courses_exact :
  forall hidden n s, In s (courses_in_rule hidden n) <-> exists r, plain_course n r /\ hidden r = false /\ refers r s.
Proof. exact courses_exact. Qed.
Theorem referred_courses_are_discovered_when_plain :
  forall hidden n r s, without_conditionals n -> any_course n r -> hidden r = false -> refers r s -> In s (courses_in_rule hidden n).
Proof.
  intros hid n r s W [(k & P)|(k & i & k' & P)] H R; apply courses_exact; exists r; (split; [|auto]); [left; exists k|right; exists k, i, k']; apply part_plainly; assumption.
Qed.
Print Assumptions referred_courses_are_discovered_when_plain.
Definition named_rule (s : string) : crule := mkCrule ["$"; s] false (Some s) None None None None None None None None None None None false false false false false false [] None None.
Definition numbered_rule (s : string) : crule := mkCrule ["$"; s] false (Some "CSCI 121") None (Some s) None None None None None None None None None false false false false false false [] None None.
Example discovered_courses_example :
  courses_in_rule (fun _ => false) (all_of [NCourse KRule (named_rule "HIST 101"); NProf KRule (mkProfInfo ["$"] false "guitar" Empty) (Some (KRule, numbered_rule "0000012"))])
  = ["HIST 101"; "0000012"].
Proof. reflexivity. Qed.
(** Every course that a visible rule refers to is discovered. Refuted. *)
Definition every_course_is_discovered : Prop :=
  forall n r s, any_course n r -> refers r s -> In s (courses_in_rule (fun _ => false) n).
Theorem every_course_is_discovered_refuted : ~ every_course_is_discovered.
Proof.
  intro H. refine (H (NCond KRule (mkCond ["$"] false (EAnd [] (Some true))) (NCourse KRule (named_rule "HIST 101")) None) (named_rule "HIST 101") "HIST 101" _ _).
  - left. exists KRule. apply pt_true. apply pt_self.
  - unfold refers, not_given, given. cbn. repeat split; try (intros ? (? & _); discriminate). right. split; [intros ? (? & _); discriminate|]. split; [reflexivity|discriminate].
Qed.

(** ** The tables *)
(** [x] is deleted together with the stale row [s]: the same area, and the same course, where
    references by number have the empty text as their course *)
Definition goes_with (s x : course_ref) : Prop :=
  cr_code x = cr_code s /\
  ((exists c, cr_course s = Some c /\ cr_course x = Some c) \/
   (cr_course s = None /\ exists c, cr_crsid s = Some c /\ cr_crsid x = Some c)).

Lemma opt_eqb_eq a b : opt_eqb a b = true <-> a = b.
Proof. destruct a, b; cbn; rewrite ?String.eqb_eq; split; intro H; congruence. Qed.
Lemma cref_eq a b : cref_eqb a b = true <-> a = b.
Proof.
  unfold cref_eqb. rewrite !andb_true_iff, String.eqb_eq, !opt_eqb_eq. destruct a, b; cbn. split; [intros ((-> & ->) & ->); reflexivity|intro H; injection H as -> -> ->; auto].
Qed.
Definition cref_dec (a b : course_ref) : {a = b} + {a <> b}.
Proof. destruct (cref_eqb a b) eqn:E; [left; apply cref_eq; exact E|right; intro H; apply cref_eq in H; congruence]. Defined.
Lemma has_cref r l : existsb (cref_eqb r) l = true <-> In r l.
Proof.
  rewrite existsb_exists. split; [intros (x & X & E); apply cref_eq in E as <-; exact X|intro H; exists r; split; [exact H|apply cref_eq; reflexivity]].
Qed.
Lemma sql_eq_ok a b : sql_eq a b = true <-> exists c, a = Some c /\ b = Some c.
Proof.
  destruct a as [x|], b as [y|]; cbn; try (split; [discriminate|intros (? & ? & ?); discriminate]).
  rewrite String.eqb_eq. split; [intros ->; eauto|intros (c & H & G); injection H as ->; injection G as ->; reflexivity].
Qed.
Lemma deletes_ok s x : deletes s x = true <-> goes_with s x.
Proof.
  unfold deletes, goes_with. destruct (cr_course s) as [c|] eqn:C.
  - rewrite andb_true_iff, String.eqb_eq, sql_eq_ok. split.
    + intros (E & d & X & D). injection D as ->. split; [exact E|left; eauto].
    + intros (E & [(d & D & X)|(D & _)]); [injection D as ->; eauto|discriminate].
  - destruct (cr_crsid s) as [d|] eqn:D.
    + rewrite andb_true_iff, String.eqb_eq, sql_eq_ok. split.
      * intros (E & c & X & F). injection F as ->. split; [exact E|right; eauto].
      * intros (E & [(? & F & _)|(_ & c & F & X)]); [discriminate|injection F as ->; eauto].
    + split; [discriminate|]. intros (_ & [(? & F & _)|(_ & ? & F & _)]); discriminate.
Qed.
Lemma insert_all_in found : forall t x, In x (fold_left insert_cref found t) <-> In x found \/ In x t.
Proof.
  induction found as [|r found IH]; intros t x; cbn [fold_left]; [cbn; tauto|]. rewrite IH. unfold insert_cref. destruct (existsb (cref_eqb r) t) eqn:E.
  - apply has_cref in E. cbn [In]. split; [tauto|]. intros [[<-|H]|H]; tauto.
  - rewrite in_app_iff. cbn. split; [intros [H|[H|[H|[]]]]; auto|intros [[H|H]|H]; auto].
Qed.
Lemma delete_all_in found stale : forall t x,
  In x (fold_left (fun t s => if existsb (cref_eqb s) found then t else filter (fun x => negb (deletes s x)) t) stale t) <->
  In x t /\ forall s, In s stale -> ~ In s found -> ~ goes_with s x.
Proof.
  induction stale as [|s stale IH]; intros t x; cbn [fold_left]; [split; [intro H; split; [exact H|intros ? []]|tauto]|]. rewrite IH. destruct (existsb (cref_eqb s) found) eqn:E.
  - apply has_cref in E. split; intros (H & G); (split; [exact H|]).
    + intros y [<-|Y] N; [contradiction|apply G; assumption].
    + intros y Y. apply G. right. exact Y.
  - rewrite filter_In, negb_true_iff, <- not_true_iff_false, deletes_ok. split.
    + intros ((H & D) & G). split; [exact H|]. intros y [<-|Y]; [intros _; exact D|apply G; exact Y].
    + intros (H & G). split; [split; [exact H|]|intros y Y; apply G; right; exact Y]. apply G; [left; reflexivity|]. rewrite <- has_cref, E. discriminate.
Qed.

(** C138. After the tables are brought up to date, the table of attributes holds exactly the
    references found; the table of courses holds those found and those of before, except every row
    that goes with a row of before that was not found any more. *)
Theorem course_table_exact :
  forall found t x, In x (sync_courses found t) <->
    (In x found \/ In x t) /\ forall s, In s t -> ~ In s found -> ~ goes_with s x.
Proof.
  intros found t x. unfold sync_courses. rewrite delete_all_in, insert_all_in. split; intros (H & G); (split; [exact H|]).
  - intros s S N. apply G; [apply insert_all_in; right; exact S|exact N].
  - intros s S N. apply insert_all_in in S as [S|S]; [contradiction|apply G; assumption].
Qed.
(** a row that names a course or a number, as all rows that are stored do *)
Definition names_something (r : course_ref) : Prop := cr_course r <> None \/ cr_crsid r <> None.
Lemma goes_with_self r : names_something r -> goes_with r r.
Proof.
  intro N. unfold goes_with. split; [reflexivity|]. destruct (cr_course r) as [c|] eqn:C; [left; eauto|]. right. split; [reflexivity|]. destruct (cr_crsid r) as [d|] eqn:D; [eauto|]. destruct N as [N|N]; congruence.
Qed.
Theorem course_table_is_right_when_nothing_shares_a_course :
  forall found t, (forall r, In r t -> names_something r) ->
  (forall s x, In s t -> ~ In s found -> In x found -> ~ goes_with s x) ->
  forall x, In x (sync_courses found t) <-> In x found.
Proof.
  intros found t N D x. rewrite course_table_exact. split.
  - intros ([H|H] & G); [exact H|]. destruct (in_dec cref_dec x found) as [F|F]; [exact F|]. destruct (G x H F). apply goes_with_self. apply N. exact H.
  - intro H. split; [left; exact H|]. intros s S F. apply D; assumption.
Qed.
(** A table that went wrong is right after the next run with the same areas. *)
Theorem second_run_repairs_the_table :
  forall found t, (forall r, In r t -> names_something r) ->
  forall x, In x (sync_courses found (sync_courses found t)) <-> In x found.
Proof.
  intros found t N. assert (A : forall r, In r (sync_courses found t) -> In r found).
  { intros r H. apply course_table_exact in H as ([H|H] & G); [exact H|]. destruct (in_dec cref_dec r found) as [F|F]; [exact F|]. destruct (G r H F). apply goes_with_self, N, H. }
  intro x. rewrite course_table_exact. split; [intros ([H|H] & _); auto|]. intro H. split; [left; exact H|]. intros s S F. destruct (F (A s S)).
Qed.
(** All references found are in the table afterwards. Refuted: an area that no longer refers to one
    course by number loses all its references by number. *)
Definition found_courses_are_stored : Prop := forall found t x, In x found -> In x (sync_courses found t).
Theorem found_courses_are_stored_refuted : ~ found_courses_are_stored.
Proof.
  intro H. assert (A := H [course_ref_of "120" "0000012"] [course_ref_of "120" "0000012"; course_ref_of "120" "0000034"] (course_ref_of "120" "0000012") (or_introl eq_refl)).
  vm_compute in A. exact A.
Qed.
Example table_of_courses_example :
  sync_courses [course_ref_of "120" "CSCI 121"; course_ref_of "120" "0000012"; course_ref_of "130" "0000034"] [course_ref_of "120" "CSCI 125"; course_ref_of "120" "0000012"]
  = [course_ref_of "120" "0000012"; course_ref_of "120" "CSCI 121"; course_ref_of "130" "0000034"].
Proof. vm_compute. reflexivity. Qed.

Lemma bref_eq a b : bref_eqb a b = true <-> a = b.
Proof.
  unfold bref_eqb. rewrite !andb_true_iff, !String.eqb_eq. destruct a, b; cbn. split; [intros ((-> & ->) & ->); reflexivity|intro H; injection H as -> -> ->; auto].
Qed.
Lemma has_bref r l : existsb (bref_eqb r) l = true <-> In r l.
Proof.
  rewrite existsb_exists. split; [intros (x & X & E); apply bref_eq in E as <-; exact X|intro H; exists r; split; [exact H|apply bref_eq; reflexivity]].
Qed.
Lemma insert_brefs_in found : forall t x, In x (fold_left insert_bref found t) <-> In x found \/ In x t.
Proof.
  induction found as [|r found IH]; intros t x; cbn [fold_left]; [cbn; tauto|]. rewrite IH. unfold insert_bref. destruct (existsb (bref_eqb r) t) eqn:E.
  - apply has_bref in E. cbn [In]. split; [tauto|]. intros [[<-|H]|H]; tauto.
  - rewrite in_app_iff. cbn. split; [intros [H|[H|[H|[]]]]; auto|intros [[H|H]|H]; auto].
Qed.
Lemma delete_brefs_in found stale : forall t x,
  In x (fold_left (fun t s => if existsb (bref_eqb s) found then t else filter (fun x => negb (bref_eqb x s)) t) stale t) <->
  In x t /\ (In x stale -> In x found).
Proof.
  induction stale as [|s stale IH]; intros t x; cbn [fold_left]; [split; [intro H; split; [exact H|intros []]|tauto]|]. rewrite IH. destruct (existsb (bref_eqb s) found) eqn:E.
  - apply has_bref in E. split; intros (H & G); (split; [exact H|]); [intros [<-|Y]; auto|intro Y; apply G; right; exact Y].
  - assert (N : ~ In s found) by (rewrite <- has_bref, E; discriminate). rewrite filter_In, negb_true_iff, <- not_true_iff_false, bref_eq. split.
    + intros ((H & D) & G). split; [exact H|]. intros [<-|Y]; [contradiction|auto].
    + intros (H & G). split; [split; [exact H|]|intro Y; apply G; right; exact Y]. intros ->. apply N, G. left. reflexivity.
Qed.
Theorem attribute_table_exact : forall found t x, In x (sync_buckets found t) <-> In x found.
Proof.
  intros found t x. unfold sync_buckets. rewrite delete_brefs_in, insert_brefs_in. tauto.
Qed.
Print Assumptions attribute_table_exact.
Print Assumptions course_table_exact.
Example table_of_attributes_example :
  sync_buckets [mkBref "120" "2018-19" "csci_elective"] [mkBref "120" "2018-19" "csci_systems"; mkBref "130" "2018-19" "math"] = [mkBref "120" "2018-19" "csci_elective"].
Proof. vm_compute. reflexivity. Qed.

(** ** All files: what is found is what their areas mention *)
(** names of areas have no '-' and no '.' *)
Definition marked (s : string) : Prop := exists i c, String.get i s = Some c /\ (c = "-" \/ c = ".")%char.
Lemma has_mark_ok s : has_mark s = true <-> marked s.
Proof.
  unfold marked. induction s as [|c s IH]; cbn [has_mark]; [split; [discriminate|intros (i & x & H & _); destruct i; discriminate]|].
  rewrite !orb_true_iff, !Ascii.eqb_eq, IH. split.
  - intros [[->| ->]|(i & x & H & R)]; [exists 0%nat, "-"%char|exists 0%nat, "."%char|exists (S i), x]; auto.
  - intros ([|i] & x & H & R); cbn in H; [injection H as ->; tauto|]. right. exists i, x. auto.
Qed.
Theorem every_file_is_looked_at :
  forall l b, In b (all_buckets l) <->
    exists f, In f l /\ ~ marked (fl_code f) /\ br_code b = fl_code f /\ br_catalog b = fl_catalog f /\ In (br_bucket b) (buckets_in_area (fl_area f)).
Proof.
  intros l b. unfold all_buckets, looked_at. rewrite in_flat_map. split.
  - intros (f & F & H). apply filter_In in F as (F & M). apply in_map_iff in H as (x & <- & X). exists f. rewrite negb_true_iff, <- not_true_iff_false, has_mark_ok in M. auto.
  - intros (f & F & M & C & K & X). exists f. split; [apply filter_In; split; [exact F|]; rewrite negb_true_iff, <- not_true_iff_false, has_mark_ok; exact M|].
    apply in_map_iff. exists (br_bucket b). split; [|exact X]. destruct b; cbn in *. subst. reflexivity.
Qed.
(** a text of digits is taken for a number of the catalog *)
Definition all_digits (s : string) : Prop := s <> "" /\ forall i c, String.get i s = Some c -> (48 <= nat_of_ascii c <= 57)%nat.
Lemma isdigit_ok s : isdigit s = true <-> all_digits s.
Proof.
  unfold isdigit, all_digits. rewrite andb_true_iff, negb_true_iff, String.eqb_neq.
  assert (A : digits s = true <-> forall i c, String.get i s = Some c -> (48 <= nat_of_ascii c <= 57)%nat); [|rewrite A; reflexivity].
  induction s as [|c s IH]; [split; [intros _ [|i] c H; discriminate|reflexivity]|]. cbn [digits]. rewrite andb_true_iff, IH. unfold digit. rewrite andb_true_iff, !Nat.leb_le. split.
  - intros (D & H) [|i] x G; cbn in G; [injection G as <-; exact D|exact (H i x G)].
  - intro H. split; [exact (H 0%nat c eq_refl)|]. intros i x G. exact (H (S i) x G).
Qed.
Theorem every_file_is_looked_at_for_courses :
  forall hidden l x, In x (all_courses hidden l) <->
    exists f s, In f l /\ ~ marked (fl_code f) /\ cr_code x = fl_code f /\ In s (courses_in_rule hidden (u_result (fl_area f))) /\
      (all_digits s /\ cr_course x = Some "" /\ cr_crsid x = Some s \/ ~ all_digits s /\ cr_course x = Some s /\ cr_crsid x = None).
Proof.
  intros hid l x. unfold all_courses, looked_at. rewrite in_flat_map. split.
  - intros (f & F & H). apply filter_In in F as (F & M). apply in_map_iff in H as (s & <- & X). exists f, s. rewrite negb_true_iff, <- not_true_iff_false, has_mark_ok in M.
    unfold course_ref_of. assert (D := isdigit_ok s). destruct (isdigit s); cbn; intuition discriminate.
  - intros (f & s & F & M & C & X & D). exists f. split; [apply filter_In; split; [exact F|]; rewrite negb_true_iff, <- not_true_iff_false, has_mark_ok; exact M|].
    apply in_map_iff. exists s. split; [|exact X]. unfold course_ref_of. rewrite <- isdigit_ok in D. destruct x; cbn in *. destruct (isdigit s); destruct D as [(D & E & G)|(D & E & G)]; subst; congruence.
Qed.
Print Assumptions every_file_is_looked_at_for_courses.
