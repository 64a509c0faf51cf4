(** Property theorems about the list of claimed courses (C135). *)
From Coq Require Import List ZArith QArith Bool String Permutation Sorted Lia.
From Verif Require Import Prelude Dec Status Course Claims Exceptions Op Context CourseRule Tree TreeSpec Area Solve SolveProps TreeSolProps AreaProps StudentProofs StrFacts Json JsonProps Report ReportSpec ReportProofs ReportProps Claimed.
Import ListNotations.
Local Open Scope string_scope.

(** ** The order, in its own words *)
Definition text_before (a b : string) : Prop := String.compare a b = Lt.
Definition same_offering (a b : course) : Prop :=
  c_subject a = c_subject b /\ c_number a = c_number b /\ c_year a = c_year b /\ c_term a = c_term b.
Definition before_offering (a b : course) : Prop :=
  text_before (c_subject a) (c_subject b) \/
  c_subject a = c_subject b /\ (text_before (c_number a) (c_number b) \/
  c_number a = c_number b /\ ((c_year a < c_year b)%Z \/
  c_year a = c_year b /\ text_before (c_term a) (c_term b))).
Definition before (a b : course) : Prop :=
  before_offering a b \/ same_offering a b /\ exists x y, c_section a = Some x /\ c_section b = Some y /\ text_before x y.
(** two rows of one offering, one with a section and one without *)
Definition mixed (a b : course) : Prop :=
  same_offering a b /\ (c_section a = None /\ c_section b <> None \/ c_section a <> None /\ c_section b = None).

Lemma text_eq a b : String.compare a b = Eq <-> a = b.
Proof. split; [apply String.compare_eq_iff|intros ->; apply str_compare_refl]. Qed.
Lemma text_gt a b : String.compare a b = Gt <-> text_before b a.
Proof. unfold text_before. rewrite (String.compare_antisym b a). destruct (String.compare a b); cbn; intuition discriminate. Qed.
Lemma text_irr a : ~ text_before a a.
Proof. unfold text_before. rewrite str_compare_refl. discriminate. Qed.
Lemma text_trans a b c : text_before a b -> text_before b c -> text_before a c.
Proof. apply str_lt_trans. Qed.
Ltac order := repeat match goal with
  | H : String.compare ?a ?b = Eq |- _ => apply text_eq in H
  | H : String.compare ?a ?b = Gt |- _ => apply text_gt in H
  | H : String.compare ?a ?b = Lt |- _ => change (text_before a b) in H
  | H : Z.compare ?a ?b = Eq |- _ => apply Z.compare_eq in H
  | H : Z.compare ?a ?b = Gt |- _ => rewrite Z.compare_gt_iff in H
  | H : Z.compare ?a ?b = Lt |- _ => rewrite Z.compare_lt_iff in H
  | H : text_before ?a ?a |- _ => destruct (text_irr _ H)
  | H : text_before ?a ?b, G : text_before ?b ?a |- _ => destruct (text_irr _ (text_trans _ _ _ H G))
  end.
Definition off (a b : course) : comparison :=
  match String.compare (c_subject a) (c_subject b) with
  | Eq => match String.compare (c_number a) (c_number b) with
          | Eq => match Z.compare (c_year a) (c_year b) with Eq => String.compare (c_term a) (c_term b) | o => o end
          | o => o end
  | o => o end.
Lemma key_lt_off a b : key_lt a b = match off a b with Lt => Ok true | Gt => Ok false | Eq =>
  match c_section a, c_section b with
  | None, None => Ok false
  | Some x, Some y => Ok (match String.compare x y with Lt => true | _ => false end)
  | _, _ => Err TypeErr end end.
Proof.
  unfold key_lt, off. destruct (String.compare (c_subject a) (c_subject b)); try reflexivity. destruct (String.compare (c_number a) (c_number b)); try reflexivity.
  destruct (Z.compare (c_year a) (c_year b)); reflexivity.
Qed.
Lemma off_ok a b : match off a b with Lt => before_offering a b | Eq => same_offering a b | Gt => before_offering b a end.
Proof.
  unfold off, before_offering, same_offering. destruct (String.compare (c_subject a) (c_subject b)) eqn:E1; order; [|auto|auto].
  destruct (String.compare (c_number a) (c_number b)) eqn:E2; order; [|auto|auto 6].
  destruct (Z.compare (c_year a) (c_year b)) eqn:E3; order; [|auto 8|auto 8].
  destruct (String.compare (c_term a) (c_term b)) eqn:E4; order; auto 10.
Qed.
Lemma offering_irr a b : before_offering a b -> same_offering a b -> False.
Proof.
  unfold before_offering, same_offering. intros H (A & B & C & D). rewrite A, B, C, D in H.
  destruct H as [H|(_ & [H|(_ & [H|(_ & H)])])]; order; lia.
Qed.
Lemma offering_trans a b c : before_offering a b -> before_offering b c -> before_offering a c.
Proof.
  unfold before_offering. intros [H|(E1 & [H|(E2 & [H|(E3 & H)])])] [G|(F1 & [G|(F2 & [G|(F3 & G)])])]; rewrite ?E1, ?E2, ?E3, ?F1, ?F2, ?F3 in *;
    rewrite <- ?F1, <- ?F2, <- ?F3 in *;
    try (left; solve [eauto using text_trans]); right; (split; [congruence|]);
    try (left; solve [eauto using text_trans]); right; (split; [congruence|]);
    try (left; solve [lia]); right; (split; [congruence|]); eauto using text_trans.
Qed.
Lemma same_sym a b : same_offering a b -> same_offering b a.
Proof. unfold same_offering. intuition. Qed.
Lemma same_trans a b c : same_offering a b -> same_offering b c -> same_offering a c.
Proof. unfold same_offering. intuition congruence. Qed.
Lemma same_before a b c : same_offering a b -> before_offering b c -> before_offering a c.
Proof. unfold same_offering, before_offering. intros (A & B & C & D). rewrite A, B, C, D. auto. Qed.
Lemma before_same a b c : before_offering a b -> same_offering b c -> before_offering a c.
Proof. unfold same_offering, before_offering. intros H (A & B & C & D). rewrite <- A, <- B, <- C, <- D. exact H. Qed.
Lemma not_both a b : before_offering a b -> before_offering b a -> False.
Proof. intros H G. eapply (offering_irr a a); [eapply offering_trans; eassumption|]. unfold same_offering. auto. Qed.
Lemma key_lt_ok a b :
  match key_lt a b with
  | Ok true => before a b
  | Ok false => ~ before a b /\ ~ mixed a b
  | Err e => e = TypeErr /\ mixed a b
  end.
Proof.
  rewrite key_lt_off. assert (O := off_ok a b). destruct (off a b).
  - destruct (c_section a) as [x|] eqn:A, (c_section b) as [y|] eqn:B.
    + destruct (String.compare x y) eqn:C.
      * split; [|unfold mixed; rewrite A, B; intuition discriminate]. intros [H|(_ & u & w & U & W & H)]; [eapply offering_irr; eassumption|]. rewrite A in U. rewrite B in W. injection U as <-. injection W as <-. unfold text_before in H. congruence.
      * right. split; [exact O|]. exists x, y. auto.
      * split; [|unfold mixed; rewrite A, B; intuition discriminate]. intros [H|(_ & u & w & U & W & H)]; [eapply offering_irr; eassumption|]. rewrite A in U. rewrite B in W. injection U as <-. injection W as <-. unfold text_before in H. congruence.
    + split; [reflexivity|]. split; [exact O|]. right. rewrite A, B. split; [discriminate|reflexivity].
    + split; [reflexivity|]. split; [exact O|]. left. rewrite A, B. split; [reflexivity|discriminate].
    + split; [|unfold mixed; rewrite A, B; intuition]. intros [H|(_ & u & w & U & W & H)]; [eapply offering_irr; eassumption|]. congruence.
  - left. exact O.
  - split.
    + intros [H|(H & _)]; [eapply not_both; eassumption|]. eapply offering_irr; [exact O|]. apply same_sym. exact H.
    + intros (H & _). eapply offering_irr; [exact O|]. apply same_sym. exact H.
Qed.
(** [b] may stand behind [a] *)
Definition in_order (a b : course) : Prop := ~ before b a /\ ~ mixed a b.
Lemma mixed_sym a b : mixed a b -> mixed b a.
Proof. unfold mixed. intros (S & H). split; [apply same_sym; exact S|tauto]. Qed.
Lemma compare_off a b : before_offering a b \/ same_offering a b \/ before_offering b a.
Proof. assert (H := off_ok a b). destruct (off a b); auto. Qed.
Lemma order_cases a b : in_order a b <-> before_offering a b \/ same_offering a b /\
  match c_section a, c_section b with None, None => True | Some x, Some y => ~ text_before y x | _, _ => False end.
Proof.
  unfold in_order, before, mixed. split.
  - intros (A & B). destruct (compare_off a b) as [H|[H|H]]; [auto| |tauto]. right. split; [exact H|].
    destruct (c_section a) as [x|] eqn:E, (c_section b) as [y|] eqn:F; try (apply B; split; [exact H|]; intuition congruence); [|exact Logic.I].
    intro T. apply A. right. split; [apply same_sym; exact H|]. exists y, x. auto.
  - intros [H|(H & T)]; split.
    + intros [G|(G & _)]; [eapply not_both; eassumption|]. eapply offering_irr; [exact H|apply same_sym; exact G].
    + intros (G & _). eapply offering_irr; eassumption.
    + intros [G|(G & x & y & X & Y & L)]; [eapply offering_irr; [exact G|apply same_sym; exact H]|]. rewrite X, Y in T. contradiction.
    + intros (G & M). destruct (c_section a), (c_section b); try contradiction; intuition congruence.
Qed.
Lemma text_total a b : ~ text_before b a -> text_before a b \/ a = b.
Proof. intro H. destruct (String.compare a b) eqn:E; order; auto. contradiction. Qed.
Lemma order_trans a b c : in_order a b -> in_order b c -> in_order a c.
Proof.
  rewrite !order_cases. intros [H|(H & T)] [G|(G & U)].
  - left. eapply offering_trans; eassumption.
  - left. eapply before_same; eassumption.
  - left. eapply same_before; eassumption.
  - right. split; [eapply same_trans; eassumption|]. destruct (c_section a) as [x|], (c_section b) as [y|], (c_section c) as [z|]; try contradiction; [|exact Logic.I].
    intro V. apply text_total in T as [T|<-]; [|contradiction]. apply U. eapply text_trans; eassumption.
Qed.
Lemma before_order a b : before a b -> in_order a b.
Proof.
  rewrite order_cases. intros [H|(H & x & y & X & Y & L)]; [auto|]. right. split; [exact H|]. rewrite X, Y. intro T. order.
Qed.
(** rows of the same section of the same offering *)
Definition same_row (a b : course) : bool :=
  (c_subject a =? c_subject b) && (c_number a =? c_number b) && (c_year a =? c_year b)%Z && (c_term a =? c_term b)
  && match c_section a, c_section b with None, None => true | Some x, Some y => x =? y | _, _ => false end.
Lemma same_row_not_before c a b : same_row c a = true -> same_row c b = true -> ~ before a b.
Proof.
  unfold same_row. rewrite !andb_true_iff, !String.eqb_eq, !Z.eqb_eq. intros ((((A1 & A2) & A3) & A4) & A5) ((((B1 & B2) & B3) & B4) & B5).
  intros [H|(_ & x & y & X & Y & L)]; [eapply offering_irr; [exact H|]; unfold same_offering; intuition congruence|].
  rewrite X in A5. rewrite Y in B5. destruct (c_section c); [|discriminate]. apply String.eqb_eq in A5, B5. subst. order.
Qed.
Lemma before_in_order a b c : before a b -> in_order b c -> before a c.
Proof.
  rewrite order_cases. intros [H|(H & x & y & X & Y & L)] [G|(G & T)].
  - left. eapply offering_trans; eassumption.
  - left. eapply before_same; eassumption.
  - left. eapply same_before; eassumption.
  - right. split; [eapply same_trans; eassumption|]. rewrite Y in T. destruct (c_section c) as [z|] eqn:Z; [|contradiction]. exists x, z. split; [exact X|]. split; [reflexivity|].
    apply text_total in T as [T| <-]; [eapply text_trans; eassumption|exact L].
Qed.
Lemma insert_stable c x l : StronglySorted in_order l -> forall s, insert_course x l = Ok s ->
  filter (same_row c) s = (filter (same_row c) l ++ filter (same_row c) [x])%list.
Proof.
  induction l as [|y l IH]; intros S s H; cbn [insert_course] in H; [injection H as <-; reflexivity|]. inversion S as [|? ? S' F]; subst.
  assert (K := key_lt_ok x y). destruct (key_lt x y) as [[|]|e]; cbn [bind] in H; [| |discriminate].
  - injection H as <-. change (filter (same_row c) (x :: y :: l)) with (filter (same_row c) ([x] ++ (y :: l)))%list. rewrite filter_app.
    destruct (filter (same_row c) [x]) as [|z t] eqn:E; [rewrite app_nil_r; reflexivity|].
    assert (X : same_row c x = true) by (cbn [filter] in E; destruct (same_row c x); [reflexivity|discriminate]).
    assert (Y : filter (same_row c) (y :: l) = []); [|rewrite Y; cbn [app]; rewrite app_nil_r; reflexivity].
    assert (A : forall w, In w (y :: l) -> same_row c w = false).
    { intros w W. destruct (same_row c w) eqn:R; [|reflexivity]. exfalso. apply (same_row_not_before c x w X R). destruct W as [<-|W]; [exact K|]. rewrite Forall_forall in F. eapply before_in_order; [exact K|]. apply F. exact W. }
    clear - A. induction (y :: l) as [|w r IH]; [reflexivity|]. cbn [filter]. rewrite (A w) by (left; reflexivity). apply IH. intros; apply A; right; assumption.
  - apply bind_iff in H as (r & R & H). injection H as <-. cbn [filter]. specialize (IH S' r R). cbn [filter] in IH. rewrite IH. destruct (same_row c y); reflexivity.
Qed.
Lemma insert_ok x l : StronglySorted in_order l ->
  match insert_course x l with
  | Ok s => Permutation s (x :: l) /\ StronglySorted in_order s
  | Err e => e = TypeErr /\ exists y, In y l /\ mixed x y
  end.
Proof.
  induction l as [|y l IH]; intro S; cbn [insert_course]; [split; [apply Permutation_refl|repeat constructor]|].
  inversion S as [|? ? S' F]; subst. specialize (IH S'). assert (K := key_lt_ok x y). destruct (key_lt x y) as [[|]|e]; cbn [bind].
  - split; [apply Permutation_refl|]. constructor; [exact S|]. apply before_order in K. constructor; [exact K|].
    eapply Forall_impl; [|exact F]. intros z Z. eapply order_trans; eassumption.
  - destruct (insert_course x l) as [s|e]; cbn [bind].
    + destruct IH as (P & SS). split; [eapply Permutation_trans; [apply perm_skip; exact P|apply perm_swap]|]. constructor; [exact SS|].
      eapply (Permutation_Forall (Permutation_sym P)). constructor; [|exact F]. split; [apply K|]. intro M. apply K. apply mixed_sym. exact M.
    + destruct IH as (E & z & Z & M). split; [exact E|]. exists z. cbn [In]. auto.
  - destruct K as (-> & M). split; [reflexivity|]. exists y. cbn [In]. auto.
Qed.
Lemma sort_ok l : forall s, StronglySorted in_order s ->
  match sort_onto s l with
  | Ok r => Permutation r (s ++ l) /\ StronglySorted in_order r
  | Err e => e = TypeErr /\ exists x y, In x (s ++ l) /\ In y (s ++ l) /\ mixed x y
  end%list.
Proof.
  induction l as [|x l IH]; intros s S; cbn [sort_onto]; [rewrite app_nil_r; auto|]. assert (H := insert_ok x s S). destruct (insert_course x s) as [r|e]; cbn [bind].
  - destruct H as (P & SR). specialize (IH r SR). assert (Q : Permutation (r ++ l)%list (s ++ x :: l)%list).
    { eapply Permutation_trans; [apply Permutation_app_tail; exact P|]. cbn [app]. apply Permutation_middle. }
    destruct (sort_onto r l) as [t|e]; [destruct IH as (A & B); split; [eapply Permutation_trans; eassumption|exact B]|].
    destruct IH as (E & a & b & A & B & M). split; [exact E|]. exists a, b. split; [eapply Permutation_in; eassumption|]. split; [eapply Permutation_in; eassumption|exact M].
  - destruct H as (-> & y & Y & M). split; [reflexivity|]. exists x, y. split; [apply in_or_app; right; left; reflexivity|]. split; [apply in_or_app; left; exact Y|exact M].
Qed.
Lemma sort_stable c l : forall s r, StronglySorted in_order s -> sort_onto s l = Ok r ->
  filter (same_row c) r = (filter (same_row c) s ++ filter (same_row c) l)%list.
Proof.
  induction l as [|x l IH]; intros s r S H; cbn [sort_onto] in H; [injection H as <-; cbn [filter]; rewrite app_nil_r; reflexivity|].
  apply bind_iff in H as (t & T & H). assert (O := insert_ok x s S). rewrite T in O. rewrite (IH t r (proj2 O) H), (insert_stable c x s S t T), <- app_assoc.
  change (x :: l) with ([x] ++ l)%list. rewrite filter_app. reflexivity.
Qed.
Lemma sorted_unmixed l : StronglySorted in_order l -> forall a b, In a l -> In b l -> ~ mixed a b.
Proof.
  induction 1 as [|x l S IH F]; [intros a b []|]. rewrite Forall_forall in F. intros a b [->|A] [->|B].
  - unfold mixed. intuition.
  - apply F. exact B.
  - intro M. apply mixed_sym in M. revert M. apply F. exact A.
  - apply IH; assumption.
Qed.

(** ** C135 *)

(** The list names the course of every claim, in order; a course that is claimed twice is named
    twice, and rows that the order does not tell apart keep the order of their claims. *)
Definition pretty_words (c : course) : string :=
  pieces [if c_institution c =? "STOLAF" then "" else pieces ["["; c_institution c; "] "]; course_and_term c; " """; c_name c; """"].
Theorem claimed_list_exact :
  forall v, (forall a b, In a (area_claims v) -> In b (area_claims v) -> ~ mixed (cl_course a) (cl_course b)) ->
  exists l, claimed_list v = Ok (String.concat "," (map pretty_words l)) /\ Permutation l (map cl_course (area_claims v)) /\ StronglySorted (fun a b => ~ before b a) l /\
    forall c, filter (same_row c) l = filter (same_row c) (map cl_course (area_claims v)).
Proof.
  intros v U. unfold claimed_list, sort_courses. assert (H := sort_ok (map cl_course (area_claims v)) [] (SSorted_nil _)). cbn [app] in H. destruct (sort_onto [] _) as [l|e] eqn:SO; cbn [bind].
  - destruct H as (P & S). exists l. split; [|split; [exact P|split]].
    + f_equal. f_equal. apply map_ext. intro c. unfold pretty, pretty_words. rewrite with_term_ok. destruct (c_institution c =? "STOLAF"); texts; reflexivity.
    + clear - S. induction S as [|x l S IH F]; constructor; [exact IH|]. eapply Forall_impl; [|exact F]. intros y Y. apply Y.
    + intro c. exact (sort_stable c _ [] l (SSorted_nil _) SO).
  - destruct H as (_ & x & y & X & Y & M). exfalso. apply in_map_iff in X as (a & <- & A). apply in_map_iff in Y as (b & <- & B). exact (U a b A B M).
Qed.
Print Assumptions claimed_list_exact.
(** It fails exactly when two rows of one offering are claimed, one with a section and one without. *)
Theorem claimed_list_fails_exactly_when :
  forall v, claimed_list v = Err TypeErr <-> exists a b, In a (area_claims v) /\ In b (area_claims v) /\ mixed (cl_course a) (cl_course b).
Proof.
  intro v. unfold claimed_list, sort_courses. assert (H := sort_ok (map cl_course (area_claims v)) [] (SSorted_nil _)). cbn [app] in H. destruct (sort_onto [] _) as [l|e]; cbn [bind].
  - destruct H as (P & S). split; [discriminate|]. intros (a & b & A & B & M). exfalso. revert M. apply (sorted_unmixed _ S); (eapply Permutation_in; [apply Permutation_sym; exact P|]; apply in_map; assumption).
  - destruct H as (-> & x & y & X & Y & M). split; [intros _|reflexivity]. apply in_map_iff in X as (a & <- & A). apply in_map_iff in Y as (b & <- & B). eauto.
Qed.
Print Assumptions claimed_list_fails_exactly_when.

Definition with_section (s : option string) (c : course) : course := {| c_clbid := c_clbid c; c_attributes := c_attributes c; c_credits := c_credits c; c_crsid := c_crsid c; c_course_type := c_course_type c; c_gereqs := c_gereqs c;
  c_gpa_points := c_gpa_points c; c_grade_code := c_grade_code c; c_grade_option := c_grade_option c; c_grade_points := c_grade_points c; c_institution := c_institution c; c_in_gpa := c_in_gpa c;
  c_in_progress := c_in_progress c; c_ip_this_term := c_ip_this_term c; c_ip_in_future := c_ip_in_future c; c_incomplete := c_incomplete c; c_repeat := c_repeat c; c_stolaf := c_stolaf c; c_lab := c_lab c; c_covid := c_covid c;
  c_level := c_level c; c_name := c_name c; c_number := c_number c; c_schedid := c_schedid c; c_section := s; c_sub_type := c_sub_type c; c_subject := c_subject c; c_su_grade := c_su_grade c; c_term := c_term c;
  c_transcript_code := c_transcript_code c; c_year := c_year c; c_yearterm := c_yearterm c; c_identity := c_identity c; c_chbi := c_chbi c |}.
Definition by_id (k : string) : node := NCourse KRule
  (mkCrule ["$"; ".count"; "*" ++ k] false None (Some k) None None None None None None None None None None false false false false false false [] None None).
Definition both_area : study := one_rule "concentration" (all_of [by_id "200"; by_id "100"]) [].
Example claimed_list_example :
  (let! v := audited both_area [mk_simple "100" "A" "1"; mk_simple "200" "B" "1"] in claimed_list v) = Ok "A 1 2000-1 ""A 1"",B 1 2000-1 ""B 1""".
Proof. vm_compute. reflexivity. Qed.
(** The list can always be given. Refuted. *)
Definition claims_are_always_listed : Prop := forall u cs v, audited u cs = Ok v -> exists t, claimed_list v = Ok t.
Theorem claims_are_always_listed_refuted : ~ claims_are_always_listed.
Proof.
  intro H. destruct (audited both_area [mk_simple "100" "A" "1"; with_section (Some "B") (mk_simple "200" "A" "1")]) as [v|] eqn:A; [|vm_compute in A; discriminate].
  destruct (H _ _ v A) as (t & T). vm_compute in A. injection A as <-. vm_compute in T. discriminate.
Qed.
Print Assumptions claims_are_always_listed_refuted.
