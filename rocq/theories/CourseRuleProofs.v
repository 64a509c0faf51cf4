From Coq Require Import List ZArith QArith Bool String Lia Lqa.
From Verif Require Import Prelude Dec Status Course Claims Exceptions Op Context CourseRule.
From Verif Require Import ListFacts OpProofs ClaimsSpec ClaimsProofs ExceptionsProofs AssertionSpec AssertionProofs QuerySpec QueryProofs LimitProofs CourseRuleSpec.
Import ListNotations.
Local Open Scope string_scope.
Local Open Scope list_scope.
Local Open Scope Q_scope.

Lemma gfilter_items {A} (f : A -> res bool) l x : In x (g_items (gfilter f l)) -> In x l /\ f x = Ok true.
Proof.
  induction l as [|y t IH]; cbn [gfilter]; [intros []|]. destruct (f y) as [[|]|e] eqn:E.
  - unfold gapp, gret. cbn [g_exn g_items app In]. intros [->|H]; [auto|]. destruct (IH H). auto.
  - intro H. destruct (IH H). simpl. auto.
  - intros [].
Qed.
Lemma gfilter_conv {A} (f : A -> res bool) l x : g_exn (gfilter f l) = None -> In x l -> f x = Ok true -> In x (g_items (gfilter f l)).
Proof.
  induction l as [|y t IH]; cbn [gfilter]; [intros _ []|]. destruct (f y) as [[|]|e] eqn:E.
  - unfold gapp, gret. cbn [g_exn g_items app In]. intros N [->|H] T; auto.
  - intros N [->|H] T; auto. congruence.
  - discriminate.
Qed.
Lemma gfilter_pure {A} (f : A -> res bool) (b : A -> bool) l : (forall x, In x l -> f x = Ok (b x)) -> gfilter f l = gret (filter b l).
Proof.
  induction l as [|y t IH]; intro H; [reflexivity|]. cbn [gfilter filter]. rewrite (H y) by (simpl; auto).
  rewrite IH by (intros; apply H; simpl; auto). destruct (b y); reflexivity.
Qed.
Lemma gfilter_subseq {A} (f : A -> res bool) l : subseq (g_items (gfilter f l)) l.
Proof.
  induction l as [|y t IH]; cbn [gfilter]; [constructor|]. destruct (f y) as [[|]|e].
  - unfold gapp, gret. cbn [g_exn g_items app]. constructor. exact IH.
  - constructor. exact IH.
  - cbn. apply subseq_nil_l.
Qed.
Lemma gfilter_exn {A} (f : A -> res bool) l e : g_exn (gfilter f l) = Some e -> exists x, In x l /\ f x = Err e.
Proof.
  induction l as [|y t IH]; cbn [gfilter]; [discriminate|]. destruct (f y) as [[|]|e'] eqn:E.
  - unfold gapp, gret. cbn [g_exn]. intro H. destruct (IH H) as [x [I X]]. exists x. simpl. auto.
  - intro H. destruct (IH H) as [x [I X]]. exists x. simpl. auto.
  - cbn. intros [= ->]. exists y. simpl. auto.
Qed.

(** ** the filter *)
Lemma agrees_none {A} (x : A) : agrees None x. Proof. intros y H; discriminate. Qed.
Lemma agrees_some {A} (x y : A) : agrees (Some y) x <-> x = y.
Proof. split; [intro H; apply H; reflexivity|]. intros -> z [= <-]. reflexivity. Qed.
Lemma given_differs_iff o s : given_differs o s = false <-> agrees o s.
Proof.
  destruct o as [x|]; cbn; [|split; auto using @agrees_none]. rewrite agrees_some, negb_false_iff, String.eqb_eq. split; congruence.
Qed.
Lemma letter_iff s t : sub_type_lookup s = Some t <-> letter s t.
Proof.
  unfold sub_type_lookup. split.
  - destruct (s =? "E") eqn:E1; [apply String.eqb_eq in E1; subst; intros [= <-]; constructor|].
    destruct (s =? "L") eqn:E2; [apply String.eqb_eq in E2; subst; intros [= <-]; constructor|].
    destruct (s =? "F") eqn:E3; [apply String.eqb_eq in E3; subst; intros [= <-]; constructor|].
    destruct (s =? "D") eqn:E4; [apply String.eqb_eq in E4; subst; intros [= <-]; constructor|]. discriminate.
  - intros []; reflexivity.
Qed.
Lemma sub_type_eqb_iff a b : sub_type_eqb a b = true <-> a = b.
Proof. unfold sub_type_eqb. destruct (sub_type_eq_dec a b); split; congruence. Qed.
Lemma course_type_eqb_iff a b : course_type_eqb a b = true <-> a = b.
Proof. unfold course_type_eqb. destruct (course_type_eq_dec a b); split; congruence. Qed.

Lemma sub_type_iff r c :
  match sub_type_lookup (or_empty (r_sub_type r)) with Some st => sub_type_eqb (c_sub_type c) st | None => true end = true <->
  (forall s t, r_sub_type r = Some s -> letter s t -> c_sub_type c = t).
Proof.
  destruct (r_sub_type r) as [s|]; cbn [or_empty].
  - destruct (sub_type_lookup s) as [t|] eqn:L.
    + rewrite sub_type_eqb_iff. split; [|intro H; apply (H s); auto; apply letter_iff; auto].
      intros E s' t' [= <-] L'. apply letter_iff in L'. congruence.
    + split; auto. intros _ s' t' [= <-] L'. apply letter_iff in L'. congruence.
  - change (sub_type_lookup "") with (@None sub_type). split; auto. intros _ s t E. discriminate.
Qed.
Lemma section_iff (r : crule) c :
  match r_section r, c_section c with Some s, Some s' => negb (String.eqb s' s) | Some _, None => true | None, _ => false end = false <->
  (forall s, r_section r = Some s -> c_section c = Some s).
Proof.
  destruct (r_section r) as [s|]; [|split; auto; intros _ s E; discriminate].
  destruct (c_section c) as [s'|].
  - rewrite negb_false_iff, String.eqb_eq. split; [intros -> x [= <-]; reflexivity|]. intro H. specialize (H s eq_refl). congruence.
  - split; [discriminate|]. intro H. specialize (H s eq_refl). discriminate.
Qed.

(** the filter decides the description; it can only raise for a year without a term *)
Lemma course_part_spec r c : year_has_term r ->
  exists b, course_part (rule_filter r) c = Ok b /\
    (b = true <-> forall id, r_course r = Some id -> c_identity c = id /\ same_offering r c).
Proof.
  intro Y. unfold course_part, rule_filter. cbn [f_course f_section f_year f_term f_sub_type].
  destruct (r_course r) as [id|]; [|exists true; split; auto; split; auto; intros _ id E; discriminate].
  destruct (c_identity c =? id) eqn:E; cbn [negb].
  2:{ exists false. split; auto. split; [discriminate|]. intro H. destruct (H id eq_refl) as [H1 _]. apply String.eqb_neq in E. contradiction. }
  apply String.eqb_eq in E.
  destruct (match r_section r, c_section c with Some s, Some s' => negb (String.eqb s' s) | Some _, None => true | None, _ => false end) eqn:SE.
  { exists false. split; auto. split; [discriminate|]. intro H. destruct (H id eq_refl) as [_ [H1 _]]. apply section_iff in H1. congruence. }
  assert (SE' := proj1 (section_iff r c) SE).
  assert (SU := sub_type_iff r c). set (sb := match sub_type_lookup _ with Some _ => _ | None => _ end) in *.
  destruct (r_year r) as [y|] eqn:YE.
  - destruct (r_term r) as [t|] eqn:TE; [|exfalso; apply Y; [rewrite YE; discriminate|exact TE]]. cbn [bind].
    destruct ((c_year c =? y)%Z && (c_term c =? t)) eqn:YT; cbn [negb].
    + apply andb_true_iff in YT. destruct YT as [YT1 YT2]. apply Z.eqb_eq in YT1. apply String.eqb_eq in YT2.
      exists sb. split; auto. rewrite SU. unfold same_offering. rewrite YE. split.
      * intros H id' [= <-]. split; auto. split; auto. split; auto. intros y' [= <-]. split; auto. rewrite TE. congruence.
      * intros H. apply (H id eq_refl).
    + exists false. split; auto. split; [discriminate|]. intro H. destruct (H id eq_refl) as [_ [_ [H1 _]]].
      destruct (H1 y YE) as [H2 H3]. rewrite TE in H3. injection H3 as H3. rewrite H2, H3, Z.eqb_refl, String.eqb_refl in YT. discriminate.
  - cbn [bind negb]. exists sb. split; auto. rewrite SU. unfold same_offering. rewrite YE. split.
    + intros H id' [= <-]. split; auto. split; auto. split; auto. intros y' H'. discriminate.
    + intros H. apply (H id eq_refl).
Qed.
Lemma ap_iff (r : crule) c :
  match r_ap r with Some a => negb (course_type_eqb (c_course_type c) CtAP) || negb (String.eqb (c_name c) a) | None => false end = false <->
  (forall n, r_ap r = Some n -> c_course_type c = CtAP /\ c_name c = n).
Proof.
  destruct (r_ap r) as [a|]; [|split; auto; intros _ n E; discriminate].
  rewrite orb_false_iff, !negb_false_iff, course_type_eqb_iff, String.eqb_eq. split; [intros [? ?] n [= <-]; auto|]. auto.
Qed.
Lemma filter_spec r c : year_has_term r ->
  exists b, course_filter (rule_filter r) c = Ok b /\ (b = true <-> described r c).
Proof.
  intro Y. unfold course_filter. destruct (course_part_spec r c Y) as [b [-> B]]. cbn [bind].
  unfold rule_filter. cbn [f_institution f_ap f_crsid f_attribute f_name f_in_progress].
  unfold described.
  destruct (is_none_o (r_institution r) && is_none_o (r_ap r) && negb (c_stolaf c)) eqn:E1.
  { exists false. split; auto. split; [discriminate|]. intros [H _]. apply andb_true_iff in E1. destruct E1 as [E1 E3]. apply andb_true_iff in E1. destruct E1 as [E1 E2].
    destruct (r_institution r); [discriminate|]. destruct (r_ap r); [discriminate|]. rewrite H in E3 by reflexivity. discriminate. }
  assert (H1 : r_institution r = None -> r_ap r = None -> c_stolaf c = true).
  { intros N1 N2. rewrite N1, N2 in E1. cbn in E1. apply negb_false_iff in E1. exact E1. }
  destruct (given_differs (r_crsid r) (c_crsid c)) eqn:E2.
  { exists false. split; auto. split; [discriminate|]. intros [_ [H _]]. apply given_differs_iff in H. congruence. }
  apply given_differs_iff in E2.
  destruct b; cbn [negb].
  2:{ exists false. split; auto. split; [discriminate|]. intros [_ [_ [H _]]]. apply B in H. discriminate. }
  assert (H2 := proj1 B eq_refl).
  destruct (given_differs (r_name r) (c_name c)) eqn:E3.
  { exists false. split; auto. split; [discriminate|]. intros [_ [_ [_ [H _]]]]. apply given_differs_iff in H. congruence. }
  apply given_differs_iff in E3.
  destruct (given_differs (r_institution r) (c_institution c)) eqn:E4.
  { exists false. split; auto. split; [discriminate|]. intros [_ [_ [_ [_ [H _]]]]]. apply given_differs_iff in H. congruence. }
  apply given_differs_iff in E4.
  assert (AP := ap_iff r c). destruct (match r_ap r with Some a => _ | None => false end).
  { exists false. split; auto. split; [discriminate|]. intros [_ [_ [_ [_ [_ H]]]]]. apply AP in H. congruence. }
  exists true. split; auto. split; auto. intros _. repeat (split; [assumption|]). apply AP. reflexivity.
Qed.
(** without the term the comparison of years asserts *)
Lemma filter_err r c e : course_filter (rule_filter r) c = Err e -> e = AssertErr /\ ~ year_has_term r.
Proof.
  intro H. assert (N : ~ year_has_term r).
  { intro Y. destruct (filter_spec r c Y) as [b [E _]]. congruence. }
  split; auto. unfold course_filter in H.
  destruct (is_none_o _ && _ && _); [discriminate|]. destruct (given_differs _ _); [discriminate|].
  destruct (course_part (rule_filter r) c) as [b|e'] eqn:P; cbn [bind] in H.
  - exfalso. destruct (negb b); [discriminate|]. cbn [rule_filter f_attribute f_in_progress] in H.
    destruct (given_differs _ _); [discriminate|]. destruct (given_differs _ _); [discriminate|].
    destruct (match f_ap (rule_filter r) with Some _ => _ | None => _ end); discriminate.
  - injection H as ->. unfold course_part in P. destruct (f_course _); [|discriminate].
    destruct (negb _); [discriminate|]. destruct (match f_section _ with Some _ => _ | None => _ end); [discriminate|].
    destruct (f_year _); [|cbn [bind negb] in P; discriminate]. destruct (f_term _); cbn [bind] in P; [|congruence].
    destruct (negb _); discriminate.
Qed.

Lemma given_iff o : given o = true <-> exists k, o = Some k /\ k <> "".
Proof.
  destruct o as [s|]; cbn; [|split; [discriminate|intros [k [H _]]; discriminate]].
  rewrite negb_true_iff, String.eqb_neq. split; [eauto|]. intros [k [[= <-] H]]. exact H.
Qed.
Lemma given_no o : given o = false <-> o = None \/ o = Some "".
Proof.
  destruct o as [s|]; cbn; [|tauto]. rewrite negb_false_iff, String.eqb_eq. split; [intros ->; auto|]. intros [H|H]; congruence.
Qed.

Lemma found_items cx r c : year_has_term r -> (In c (g_items (find_courses cx r)) <-> finds cx r c).
Proof.
  intro Y. unfold find_courses, finds. destruct (given (r_clbid r)) eqn:G.
  - apply given_iff in G. destruct G as [k [E N]]. rewrite E. cbn [or_empty]. split.
    + intro I. left. exists k. split; auto. split; auto. destruct (find_by_clbid cx k) as [d|]; [|destruct I]. destruct I as [->|[]]. reflexivity.
    + intros [[k' [E' [_ F]]]|[[E'|E'] _]]; [|congruence|congruence]. injection E' as <-. rewrite F. simpl. auto.
  - apply given_no in G. split.
    + intro I. right. split; auto. apply gfilter_items in I. destruct I as [I E]. split; auto.
      destruct (filter_spec r c Y) as [b [E' B]]. rewrite E in E'. injection E' as <-. apply B. reflexivity.
    + intros [[k' [E' [N _]]]|[_ [I D]]]; [destruct G; congruence|]. apply gfilter_conv; auto.
      * destruct (g_exn _) eqn:X; auto. apply gfilter_exn in X. destruct X as [x [_ X]]. destruct (filter_spec r x Y) as [b [E _]]. congruence.
      * destruct (filter_spec r c Y) as [b [E B]]. rewrite E. f_equal. apply B. exact D.
Qed.
Lemma found_exn cx r e : g_exn (find_courses cx r) = Some e -> e = AssertErr /\ ~ year_has_term r.
Proof.
  unfold find_courses. destruct (given _); [destruct (find_by_clbid _ _); discriminate|].
  intro H. apply gfilter_exn in H. destruct H as [x [_ H]]. eapply filter_err; eauto.
Qed.

(** ** solutions *)
Lemma excludes_iff r k : excludes r k = true <-> In k (r_excluded r).
Proof. unfold excludes. rewrite existsb_exists. split; [intros [x [I E]]; apply String.eqb_eq in E; subst; auto|]. intro I. exists k. split; auto. apply String.eqb_refl. Qed.
Lemma excludes_no r k : excludes r k = false <-> ~ In k (r_excluded r).
Proof. rewrite <- excludes_iff. destruct (excludes r k); intuition congruence. Qed.
Lemma skips_iff r c : c_skips r c = false <-> acceptable r c.
Proof.
  unfold c_skips, acceptable. rewrite !orb_false_iff, excludes_no. split.
  - intros [[X G] O]. split; auto. split.
    + intros g E. rewrite E in G. apply andb_false_iff in G. destruct G as [G|G]; [left; apply negb_false_iff in G; exact G|]. right. apply Qltb_no. exact G.
    + intros o E. rewrite E in O. destruct (grade_option_eq_dec _ _); [auto|discriminate].
  - intros [X [G O]]. split; [split; [exact X|]|].
    + destruct (r_grade r) as [g|]; auto. destruct (G g eq_refl) as [H|H]; [rewrite H; reflexivity|]. apply Qltb_no in H. rewrite H. apply andb_false_r.
    + destruct (r_grade_option r) as [o|]; auto. rewrite (O o eq_refl). destruct (grade_option_eq_dec o o); [auto|contradiction].
Qed.

Lemma solves_form r c i f o : solves_with r (c_solution r c i f o) c.
Proof. unfold solves_with, c_solution. cbn. repeat (split; [reflexivity|]). reflexivity. Qed.
Lemma solution_unique r s c i f o : solves_with r s c -> r_overridden s = o -> r_inserted s = (r_inserted r || i)%bool -> r_forced s = f ->
  s = c_solution r c i f o.
Proof.
  intros H. unfold c_solution. destruct s. unfold solves_with in H. cbn in *. intros. intuition subst. reflexivity.
Qed.

Lemma inserts_items cx r es s : In s (g_items (c_inserts cx r es)) ->
  exists x c, In x es /\ forced_by_clbid cx (exc_clbid x) = Ok c /\ ~ In (c_clbid c) (r_excluded r) /\ s = c_solution r (Some c) true (exc_forced x) false.
Proof.
  induction es as [|x t IH]; cbn [c_inserts]; [intros []|]. destruct (forced_by_clbid cx (exc_clbid x)) as [c|e] eqn:F; [|intros []].
  destruct (excludes r (c_clbid c)) eqn:X.
  - intro H. destruct (IH H) as [x' [c' [I J]]]. exists x', c'. simpl. auto.
  - unfold gapp, gret. cbn [g_exn g_items app In]. intros [<-|H].
    + exists x, c. apply excludes_no in X. simpl. auto.
    + destruct (IH H) as [x' [c' [I J]]]. exists x', c'. simpl. auto.
Qed.
Lemma inserts_conv cx r es x c : g_exn (c_inserts cx r es) = None -> In x es -> forced_by_clbid cx (exc_clbid x) = Ok c ->
  ~ In (c_clbid c) (r_excluded r) -> In (c_solution r (Some c) true (exc_forced x) false) (g_items (c_inserts cx r es)).
Proof.
  induction es as [|y t IH]; cbn [c_inserts]; [intros _ []|]. destruct (forced_by_clbid cx (exc_clbid y)) as [d|e] eqn:F; [|discriminate].
  destruct (excludes r (c_clbid d)) eqn:X.
  - intros N [->|I] G E; auto. exfalso. rewrite F in G. injection G as ->. apply excludes_iff in X. contradiction.
  - unfold gapp, gret. cbn [g_exn g_items app In]. intros N [->|I] G E; auto. rewrite F in G. injection G as ->. auto.
Qed.
Lemma inserts_exn cx r es e : g_exn (c_inserts cx r es) = Some e -> e = MissingClbid /\ exists x, In x es /\ forced_by_clbid cx (exc_clbid x) = Err MissingClbid.
Proof.
  induction es as [|y t IH]; cbn [c_inserts]; [discriminate|]. destruct (forced_by_clbid cx (exc_clbid y)) as [d|e'] eqn:F.
  - intro H. assert (H' : g_exn (c_inserts cx r t) = Some e) by (destruct (excludes r (c_clbid d)); exact H).
    destruct (IH H') as [-> [x [I X]]]. split; auto. exists x. simpl. auto.
  - cbn. intros [= <-]. assert (E : e' = MissingClbid).
    { unfold forced_by_clbid in F. destruct (find_by_clbid _ _); [discriminate|]. destruct (dget _ _); [discriminate|]. congruence. }
    subst. split; auto. exists y. simpl. auto.
Qed.
Lemma insertion_iff cx l r c f : insertion cx l r c f <->
  exists x, In x (get_inserts (group_exceptions l) (r_path r)) /\ forced_by_clbid cx (exc_clbid x) = Ok c /\ ~ In (c_clbid c) (r_excluded r) /\ exc_forced x = f.
Proof.
  unfold insertion. split.
  - intros [x [k [I [P [A [F N]]]]]]. exists x. unfold exc_clbid, exc_forced. rewrite A. split; auto. apply inserts_at. eauto.
  - intros [x [I [F [N E]]]]. apply inserts_at in I. destruct I as [I [P [k [f' A]]]]. exists x, k. unfold exc_clbid, exc_forced in *. rewrite A in *. subst f'. auto.
Qed.
Lemma waived_iff l p : waived_at l p <-> get_waive (group_exceptions l) p <> None.
Proof.
  unfold waived_at. assert (W := waive_lookup l p). destruct (get_waive (group_exceptions l) p) as [x|].
  - split; [discriminate|]. intros _ N. destruct W as (pre & post & -> & P & K & _). apply (N x); [rewrite in_app_iff; simpl; auto|split; assumption].
  - split; [|congruence]. intros H. contradiction.
Qed.

Definition offered (cx : ctx) (r : crule) : gen crule :=
  gapp (c_inserts cx r (get_inserts (cx_exc cx) (r_path r)))
    (Gen (map (fun c => c_solution r (Some c) false false false)
              (filter (fun c => negb (c_skips r c)) (g_items (find_courses cx r)))) (g_exn (find_courses cx r))).
Lemma offered_items cx l r s : cx_exc cx = group_exceptions l -> year_has_term r -> In s (g_items (offered cx r)) ->
  (exists c f, insertion cx l r c f /\ s = c_solution r (Some c) true f false) \/
  (exists c, finds cx r c /\ acceptable r c /\ s = c_solution r (Some c) false false false).
Proof.
  intros EX Y. unfold offered, gapp. rewrite EX. intro H.
  assert (H' : In s (g_items (c_inserts cx r (get_inserts (group_exceptions l) (r_path r)))) \/
    In s (map (fun c => c_solution r (Some c) false false false) (filter (fun c => negb (c_skips r c)) (g_items (find_courses cx r))))).
  { destruct (g_exn (c_inserts _ _ _)); [auto|]. cbn [g_items] in H. rewrite in_app_iff in H. exact H. }
  clear H. destruct H' as [H|H].
  - apply inserts_items in H. destruct H as [x [c [I [F [N E]]]]]. left. exists c, (exc_forced x). split; auto. apply insertion_iff. eauto.
  - apply in_map_iff in H. destruct H as [c [<- I]]. apply filter_In in I. destruct I as [I K]. apply negb_true_iff, skips_iff in K. apply found_items in I; auto.
    right. eauto.
Qed.
Lemma offered_conv cx l r s : cx_exc cx = group_exceptions l -> year_has_term r -> g_exn (offered cx r) = None ->
  (exists c f, insertion cx l r c f /\ s = c_solution r (Some c) true f false) \/
  (exists c, finds cx r c /\ acceptable r c /\ s = c_solution r (Some c) false false false) ->
  In s (g_items (offered cx r)).
Proof.
  intros EX Y N H. unfold offered, gapp in *. rewrite EX in *. destruct (g_exn (c_inserts _ _ _)) eqn:X; [congruence|]. cbn [g_items]. rewrite in_app_iff.
  destruct H as [[c [f [I ->]]]|[c [F [A ->]]]].
  - left. apply insertion_iff in I. destruct I as [x [I [F [E <-]]]]. apply inserts_conv; auto.
  - right. apply in_map_iff. exists c. split; auto. apply filter_In. split; [apply found_items; auto|]. apply negb_true_iff, skips_iff. exact A.
Qed.
Lemma c_solutions_form cx r : c_solutions cx r =
  if r_auto_waived r || match get_waive (cx_exc cx) (r_path r) with Some _ => true | None => false end
  then gret [c_solution r None false false true]
  else match offered cx r with Gen [] None => gret [c_solution r None false false false] | _ => offered cx r end.
Proof. reflexivity. Qed.
Lemma waives_iff cx l r : cx_exc cx = group_exceptions l ->
  (r_auto_waived r || match get_waive (cx_exc cx) (r_path r) with Some _ => true | None => false end)%bool = true <-> r_auto_waived r = true \/ waived_at l (r_path r).
Proof.
  intros EX. rewrite orb_true_iff, waived_iff, EX. destruct (get_waive _ _); split; intros [H|H]; auto; try discriminate; try congruence. right. discriminate.
Qed.
