(** Property theorems about transcript limits (C12-C16, C64). *)
From Coq Require Import List ZArith QArith Bool String Lia Lqa Permutation Sorted.
From Verif Require Import Prelude Dec Course Op Context Predicate LazyProduct LazyRun EnumSpec EnumProofs ListFacts StrFacts Limit LimitSpec LimitProofs.
Import ListNotations.
Local Open Scope string_scope.
Local Open Scope list_scope.
Local Open Scope Q_scope.

(** the iteration order of a set is some order of its elements *)
Definition set_order (ord : list course -> list course) : Prop := forall s, Permutation (ord s) s.

Lemma restricted_weight_count l r : lm_what l = Courses -> Qsum (map (weight l) r) == count r.
Proof.
  intro W. unfold count. rewrite <- Qsum_ones. replace (map (weight l) r) with (map (fun _ : course => 1) r); [reflexivity|].
  apply map_ext. intro. unfold weight. rewrite W. reflexivity.
Qed.
Lemma restricted_weight_credits l r : lm_what l = Credits -> Qsum (map (weight l) r) = total_credits r.
Proof.
  intro W. unfold total_credits, Qsum. f_equal. apply map_ext. intro. unfold weight. rewrite W. reflexivity.
Qed.

(** C12. A course limit is never exceeded by the courses it restricts. *)
Theorem course_limits_hold :
  forall ord ls F cs l v, set_order ord -> coherent ls ->
  In l ls -> lm_what l = Courses -> In v (g_items (limited_transcripts ord ls F cs)) ->
  restricted F l v = [] \/ count (restricted F l v) < dval (lm_at_most l) + 1.
Proof.
  intros ord ls F cs l v O CO Hl W I. assert (NE : ls <> []) by (intros ->; destruct Hl).
  apply limited_items in I as (matched & r & MO & C & CH & ->); auto.
  assert (P := restricted_these ord O ls F cs l matched r Hl MO C).
  destruct (restricted F l (variant ord (unmatched_of cs matched) (these_of r))) as [|c0 R] eqn:E; [left; reflexivity|]. right.
  rewrite <- E in *.
  assert (Hr : forall c, In c (ord (these_of r)) -> removable F ls c).
  { intros c Hc. rewrite (perm_in ord O) in Hc. apply (these_removable ls F cs matched r c MO C Hc). }
  assert (LB : load l (ord (these_of r)) < lm_max l + 1).
  { apply (check_courses_bound ls l _ CO Hl W CH). exists c0.
    assert (In c0 (restricted F l (ord (these_of r)))) by (eapply Permutation_in; [exact P|rewrite E; simpl; auto]).
    apply in_restricted in H as (A & B & D). split; [exact A|exact D]. }
  rewrite (restricted_load ls F l _ Hl Hr), (restricted_weight_count l _ W) in LB.
  unfold count in *. rewrite (Permutation_length P). exact LB.
Qed.
Print Assumptions course_limits_hold.

(** at most [k] courses, for a whole number [k] *)
Theorem at_most_k_courses :
  forall ord ls F cs l v k, set_order ord -> coherent ls ->
  In l ls -> lm_what l = Courses -> dval (lm_at_most l) == inject_Z (Z.of_nat k) ->
  In v (g_items (limited_transcripts ord ls F cs)) ->
  (List.length (restricted F l v) <= k)%nat.
Proof.
  intros ord ls F cs l v k O CO Hl W E I. destruct (course_limits_hold ord ls F cs l v O CO Hl W I) as [->|B]; [simpl; lia|].
  rewrite E in B. unfold count in B. change 1 with (inject_Z 1) in B. rewrite <- inject_Z_plus, <- Zlt_Qlt in B. lia.
Qed.
Print Assumptions at_most_k_courses.

(** C13. What every variant looks like, and that no two are the same set. *)
Theorem limits_only_remove_limited_courses :
  forall ord ls F cs v, set_order ord -> coherent ls -> ls <> [] ->
  In v (g_items (limited_transcripts ord ls F cs)) ->
  NoDup v /\ StronglySorted before v /\ (forall c, In c v -> In c cs) /\
  (forall c, In c cs -> forced F c -> In c v) /\
  (forall c, In c cs -> (forall l, In l ls -> ~ matches l c) -> In c v).
Proof.
  intros ord ls F cs v O CO NE I. destruct (variant_shape ord O ls F cs NE CO v I) as (N & S & SUB & K).
  split; [exact N|]. split; [exact S|]. split; [exact SUB|]. split; intros c Hc H; apply K; auto.
  - intros [NF _]. contradiction.
  - intros [_ (l & Hl & Hm)]. exact (H l Hl Hm).
Qed.
Print Assumptions limits_only_remove_limited_courses.

Theorem no_limits_no_change :
  forall ord F cs, limited_transcripts ord [] F cs = gret [cs].
Proof. reflexivity. Qed.
Print Assumptions no_limits_no_change.

Theorem variants_are_distinct_sets :
  forall ord ls F cs, set_order ord -> coherent ls -> ls <> [] ->
  ForallOrdPairs (fun a b => ~ same_set a b) (g_items (limited_transcripts ord ls F cs)).
Proof. intros. apply variants_distinct; assumption. Qed.
Print Assumptions variants_are_distinct_sets.

(** C14. Course limits only: no admissible selection is lost, and nothing is raised. *)
Lemma select_combos ls F cs (S : list course) matched :
  matched_ok ls F cs matched ->
  (forall l, In l ls -> lm_what l = Courses /\ 0 <= lm_max l) ->
  NoDup S -> (forall c, In c S -> In c cs /\ removable F ls c) ->
  (forall l, In l ls -> count (restricted F l S) <= lm_max l) ->
  exists r, chosen matched r /\ same_set (these_of r) S.
Proof.
  intros MO K NS HS B.
  pose (pick := fun p : limit * list course => filter (fun c => memb course_eqb c S) (isort course_leb (snd p))).
  assert (PI : forall l s c, In (l, s) matched -> (In c (pick (l, s)) <-> In c S /\ matches l c)).
  { intros l s c I. unfold pick. simpl. rewrite filter_In, in_isort, (memb_In course_eqb course_eqb_spec).
    destruct MO as (MS & _). destruct (MS l s I) as (Hl & _ & IS). rewrite IS. split; [tauto|].
    intros [A M]. destruct (HS c A) as [Hc [NF _]]. tauto. }
  exists (map pick matched). split.
  - unfold chosen. assert (G : forall m, (forall p, In p m -> In p matched) -> Forall2 (fun combo p => In combo (iterate (fst p) (snd p))) (map pick m) m).
    { induction m as [|[l s] m IH]; simpl; intro Sub; constructor; [|apply IH; intros; apply Sub; auto].
      assert (I : In (l, s) matched) by (apply Sub; auto).
      destruct MO as (MS & MC). destruct (MS l s I) as (Hl & Ns & IS). destruct (K l Hl) as [W P0]. simpl.
      apply iterate_courses_complete; [exact W|exact P0|apply subseq_filter|].
      eapply Qle_trans; [|apply (B l Hl)]. unfold count. rewrite <- Zle_Qle. apply Nat2Z.inj_le.
      apply NoDup_incl_length.
      - apply NoDup_filter. apply isort_NoDup. exact Ns.
      - intros c Hc. assert (X := proj1 (PI l s c I) Hc). apply in_restricted. destruct (HS c (proj1 X)) as [_ [NF _]]. tauto. }
    apply G. auto.
  - intro c. rewrite in_these. split.
    + intros (combo & Hc & Ic). apply in_map_iff in Hc as ((l, s) & <- & I). apply (PI l s c I) in Ic. tauto.
    + intro Hc. destruct (HS c Hc) as [Ic [NF (l & Hl & Hm)]]. destruct MO as (MS & MC & _).
      destruct (MC l c Hl Ic NF Hm) as (s & I). exists (pick (l, s)). split; [apply in_map; exact I|]. apply PI; auto.
Qed.

Lemma check_decided ord ls F cs matched r : set_order ord ->
  (forall l c, In l ls -> In c cs -> ~ forced F c -> decided l c) ->
  matched_ok ls F cs matched -> chosen matched r ->
  forall l c, In l ls -> In c (ord (these_of r)) -> exists b, lm_match l c = Ok b.
Proof.
  intros O T MO C l c Hl Hc. rewrite (perm_in ord O) in Hc. destruct (these_removable ls F cs matched r c MO C Hc) as [Ic [NF _]].
  apply T; auto.
Qed.

Theorem limits_lose_no_admissible_selection :
  forall ord ls F cs, set_order ord -> distinct ls -> ls <> [] ->
  (forall l, In l ls -> lm_what l = Courses /\ 0 <= dval (lm_at_most l)) ->
  (forall l c, In l ls -> In c cs -> ~ forced F c -> decided l c) ->
  g_exn (limited_transcripts ord ls F cs) = None /\
  forall S, NoDup S -> (forall c, In c S -> In c cs /\ removable F ls c) ->
    (forall l, In l ls -> count (restricted F l S) <= dval (lm_at_most l)) ->
    exists v, In v (g_items (limited_transcripts ord ls F cs)) /\
      forall c, In c v <-> In c S \/ (In c cs /\ ~ removable F ls c).
Proof.
  intros ord ls F cs O D NE K T. assert (CO := distinct_coherent ls D).
  destruct (limited_exn ord ls F cs NE CO T K) as (matched & MO & ->).
  assert (TC : forall r, In r (product (map (fun p => iterate (fst p) (snd p)) matched)) -> exists b, check ls (ord (these_of r)) = Ok b).
  { intros r Hr. apply check_from_total. apply (check_decided ord ls F cs matched r O T MO). apply product_chosen. exact Hr. }
  destruct (emit_complete ord ls (unmatched_of cs matched) _ TC []) as [G H]. split; [exact G|].
  intros S NS HS B. destruct (select_combos ls F cs S matched MO K NS HS B) as (r & C & SS).
  assert (Hr := proj2 (product_chosen matched r) C).
  assert (CH : check ls (ord (these_of r)) = Ok true).
  { apply check_courses_pass; [exact D|apply (check_decided ord ls F cs matched r O T MO C)|intros l Hl; apply K; exact Hl|].
    intros l Hl _. assert (Hrem : forall c, In c (ord (these_of r)) -> removable F ls c).
    { intros c Hc. rewrite (perm_in ord O) in Hc. apply (these_removable ls F cs matched r c MO C Hc). }
    rewrite (restricted_load ls F l _ Hl Hrem), (restricted_weight_count l _ (proj1 (K l Hl))).
    specialize (B l Hl). unfold count in *. unfold lm_max.
    assert (Permutation (restricted F l (ord (these_of r))) (restricted F l S)) as ->%Permutation_length; [|lra].
    apply NoDup_Permutation.
    - apply NoDup_filter. apply (Permutation_NoDup (l := these_of r)); [symmetry; apply O|apply these_NoDup].
    - apply NoDup_filter. exact NS.
    - intro c. rewrite !in_restricted, (perm_in ord O), (SS c). reflexivity. }
  destruct (H r Hr CH) as [(e & [] & _)|(r' & Hr' & SS' & I)].
  exists (variant ord (unmatched_of cs matched) (these_of r')). split; [exact I|]. intro c.
  rewrite (in_variant ord O ls F cs matched r' c MO), <- (SS' c), (SS c). tauto.
Qed.
Print Assumptions limits_lose_no_admissible_selection.

(** C64, course limits only: there is always a variant. *)
Theorem some_variant_is_emitted_partial :
  forall ord ls F cs, set_order ord -> distinct ls ->
  (forall l, In l ls -> lm_what l = Courses /\ 0 <= dval (lm_at_most l)) ->
  (forall l c, In l ls -> In c cs -> ~ forced F c -> decided l c) ->
  g_items (limited_transcripts ord ls F cs) <> [].
Proof.
  intros ord ls F cs O D K T E. destruct ls as [|l0 ls'] eqn:L; [discriminate|]. rewrite <- L in *.
  destruct (limits_lose_no_admissible_selection ord ls F cs O D) as [_ H]; auto; [congruence|].
  destruct (H []) as (v & I & _); [constructor|intros c []| |rewrite E in I; destruct I].
  intros l Hl. unfold restricted, count. simpl. apply (K l Hl).
Qed.
Print Assumptions some_variant_is_emitted_partial.

(** ** concrete limits *)
Definition credited (c : course) (h : Z) : course :=
  {| c_clbid := c_clbid c; c_attributes := c_attributes c; c_credits := mkDec h (-2); c_crsid := c_crsid c;
     c_course_type := c_course_type c; c_gereqs := c_gereqs c; c_gpa_points := c_gpa_points c;
     c_grade_code := c_grade_code c; c_grade_option := c_grade_option c; c_grade_points := c_grade_points c;
     c_institution := c_institution c; c_in_gpa := c_in_gpa c; c_in_progress := c_in_progress c;
     c_ip_this_term := c_ip_this_term c; c_ip_in_future := c_ip_in_future c; c_incomplete := c_incomplete c;
     c_repeat := c_repeat c; c_stolaf := c_stolaf c; c_lab := c_lab c; c_covid := c_covid c;
     c_level := c_level c; c_name := c_name c; c_number := c_number c; c_schedid := c_schedid c;
     c_section := c_section c; c_sub_type := c_sub_type c; c_subject := c_subject c; c_su_grade := c_su_grade c;
     c_term := c_term c; c_transcript_code := c_transcript_code c; c_year := c_year c; c_yearterm := c_yearterm c;
     c_identity := c_identity c; c_chbi := c_chbi c |}.
Definition of_subject (s : string) : pred := PLeaf (mkLeaf "subject" OEq (VS (SStr s)) None).
Definition of_number (s : string) : pred := PLeaf (mkLeaf "number" OEq (VS (SStr s)) None).
Definition credit_limit (id : nat) (k : Z) (p : pred) : limit := mkLimit id (dec_of_Z k) Credits p.
Definition course_limit (id : nat) (k : Z) (p : pred) : limit := mkLimit id (dec_of_Z k) Courses p.
Definition csci1 := credited (mk_simple "1" "CSCI" "121") 100.
Definition csci2 := credited (mk_simple "2" "CSCI" "122") 100.
Definition csci3 := credited (mk_simple "3" "CSCI" "123") 0.
Definition math1 := credited (mk_simple "4" "MATH" "121") 100.

Example course_limit_example :
  let ls := [course_limit 0 1 (of_subject "CSCI"); course_limit 1 1 (of_number "121")] in
  set_order (fun l => l) /\ distinct ls /\
  (forall l, In l ls -> lm_what l = Courses /\ 0 <= dval (lm_at_most l)) /\
  (forall l c, In l ls -> In c [csci1; csci2; math1] -> ~ forced ["9"] c -> decided l c) /\
  map (map c_clbid) (g_items (limited_transcripts (fun l => l) ls ["9"] [csci1; csci2; math1])) =
    [[]; ["1"]; ["4"]; ["2"]; ["2"; "4"]] /\
  map (map c_clbid) (g_items (limited_transcripts (fun l => l) ls ["1"] [csci1; csci2; math1])) =
    [["1"]; ["1"; "4"]; ["1"; "2"]; ["1"; "2"; "4"]].
Proof.
  cbv zeta. split; [intro; reflexivity|]. split; [repeat constructor; simpl; intuition congruence|]. split.
  { intros l [<-|[<-|[]]]; split; try reflexivity; simpl; unfold Qle; simpl; lia. }
  split; [|split; vm_compute; reflexivity].
  intros l c [<-|[<-|[]]] [<-|[<-|[<-|[]]]] _; eexists; vm_compute; reflexivity.
Qed.

(** C15. Overlapping credit limits let more credits through. *)
Theorem credit_limits_hold_refuted :
  exists ord ls F cs l v, set_order ord /\ distinct ls /\ In l ls /\ lm_what l = Credits /\
    In v (g_items (limited_transcripts ord ls F cs)) /\
    dval (lm_at_most l) < total_credits (restricted F l v).
Proof.
  exists (fun l => l), [credit_limit 0 1 (of_subject "CSCI"); credit_limit 1 3 (of_number "121")], [],
    [credited (mk_simple "0" "CSCI" "122") 75; credited (mk_simple "1" "CSCI" "121") 100],
    (credit_limit 0 1 (of_subject "CSCI")), [credited (mk_simple "0" "CSCI" "122") 75; credited (mk_simple "1" "CSCI" "121") 100].
  split; [intro; reflexivity|]. split; [repeat constructor; simpl; intuition congruence|]. split; [simpl; auto|]. split; [reflexivity|].
  split; [|vm_compute; reflexivity].
  vm_compute. tauto.
Qed.
Print Assumptions credit_limits_hold_refuted.

(** C15, the part that holds: a credit limit that shares no course with another one is
    never exceeded. *)
Theorem credit_limits_hold_partial :
  forall ord ls F cs l v, set_order ord -> coherent ls ->
  In l ls -> lm_what l = Credits -> 0 <= dval (lm_at_most l) ->
  (forall l' c, In l' ls -> l' <> l -> In c cs -> matches l c -> matches l' c -> forced F c) ->
  In v (g_items (limited_transcripts ord ls F cs)) ->
  total_credits (restricted F l v) <= dval (lm_at_most l).
Proof.
  intros ord ls F cs l v O CO Hl W P0 DJ I. assert (NE : ls <> []) by (intros ->; destruct Hl).
  apply limited_items in I as (matched & r & MO & C & CH & ->); auto.
  assert (P := restricted_these ord O ls F cs l matched r Hl MO C).
  rewrite <- (restricted_weight_credits l _ W).
  rewrite (Qsum_perm _ _ (Permutation_map (weight l) P)).
  rewrite (restricted_weight_credits l _ W).
  assert (MO' := MO). destruct MO' as (MS & MC & _ & MN).
  assert (UN : forall c l' s', In (l', s') matched -> In c s' -> matches l c -> l' = l).
  { intros c l' s' I' Hc Hm. destruct (MS l' s' I') as (Hl' & _ & IS). apply IS in Hc as (A & NF & M').
    assert (D : l' = l \/ l' <> l).
    { destruct (Nat.eq_dec (lm_id l') (lm_id l)) as [E|N]; [left; apply CO; auto|right; congruence]. }
    destruct D as [D|D]; [exact D|]. exfalso. apply NF. apply (DJ l' c); auto. }
  destruct (in_dec Nat.eq_dec (lm_id l) (map (fun p => lm_id (fst p)) matched)) as [Y|N].
  - apply in_map_iff in Y as ((l1, s) & E & I). simpl in E.
    assert (l1 = l) by (apply CO; auto; apply (MS l1 s I)). subst l1. destruct (MS l s I) as (_ & Ns & IS).
    assert (X : exists combo, In combo (iterate l s) /\ In combo r /\
      forall c, matches l c -> In c (these_of r) -> In c combo).
    { clear CH P. revert UN I MN. unfold chosen in C. clear MS MC MO. induction C as [|x [l1 s1] r matched Hx C IH]; intros UN I MN; [destruct I|].
      simpl in MN. inversion MN; subst. destruct I as [E1|I].
      - injection E1 as -> ->. exists x. split; [exact Hx|]. split; [simpl; auto|]. intros c Hm Hc.
        apply in_these in Hc as (combo & [<-|Hc] & Ic); [exact Ic|]. exfalso.
        destruct (chosen_in matched r c C) as (l' & s' & I' & Hc'); [apply in_these; exists combo; auto|].
        assert (l' = l) by (apply (UN c l' s'); simpl; auto). subst l'. apply H1.
        apply (in_map (fun p => lm_id (fst p)) matched (l, s') I').
      - destruct IH as (combo & A & B & D); auto.
        { intros c l' s' I' Hc. apply UN with (s' := s'); simpl; auto. }
        exists combo. split; [exact A|]. split; [simpl; auto|]. intros c Hm Hc.
        apply in_these in Hc as (combo' & [<-|Hc'] & Ic); [|apply D; [exact Hm|apply in_these; exists combo'; auto]].
        exfalso. assert (Hs : In c s1) by (apply iterate_subseq in Hx; eapply subseq_in in Hx; [|exact Ic]; rewrite in_isort in Hx; exact Hx).
        assert (l1 = l) by (apply (UN c l1 s1); simpl; auto). subst l1. apply H1.
        apply (in_map (fun p => lm_id (fst p)) matched (l, s) I). }
    destruct X as (combo & A & B & D).
    assert (PP : Permutation (restricted F l (ord (these_of r))) combo).
    { apply NoDup_Permutation.
      - apply NoDup_filter. apply (Permutation_NoDup (l := these_of r)); [symmetry; apply O|apply these_NoDup].
      - apply iterate_subseq in A. eapply subseq_NoDup; [exact A|]. apply isort_NoDup. exact Ns.
      - intro c. rewrite in_restricted, (perm_in ord O). split; [intros (H1 & H2 & H3); auto|].
        intro Hc. assert (Hs : In c s) by (apply iterate_subseq in A; eapply subseq_in in A; [|exact Hc]; rewrite in_isort in A; exact A).
        apply IS in Hs as (_ & NF & Hm). split; [|auto]. apply in_these. exists combo. auto. }
    rewrite <- (restricted_weight_credits l _ W). rewrite (Qsum_perm _ _ (Permutation_map (weight l) PP)).
    rewrite (restricted_weight_credits l _ W). apply (iterate_credit_bound l s combo W A).
  - assert (restricted F l (ord (these_of r)) = []) as ->; [|exact P0].
    destruct (restricted F l (ord (these_of r))) as [|c R] eqn:E; [reflexivity|]. exfalso.
    assert (Hc : In c (restricted F l (ord (these_of r)))) by (rewrite E; simpl; auto).
    apply in_restricted in Hc as (Hc & NF & Hm). rewrite (perm_in ord O) in Hc.
    destruct (these_removable ls F cs matched r c MO C Hc) as [Ic _].
    destruct (MC l c Hl Ic NF Hm) as (s & I). apply N. apply (in_map (fun p => lm_id (fst p)) matched (l, s) I).
Qed.
Print Assumptions credit_limits_hold_partial.

(** and every credit limit is exceeded by less than one course: leaving out one of the
    restricted courses brings the total below the maximum. *)
Theorem credit_limits_exceeded_by_one_course :
  forall ord ls F cs l v, set_order ord -> coherent ls ->
  In l ls -> lm_what l = Credits -> (forall c, In c cs -> 0 <= dval (c_credits c)) ->
  In v (g_items (limited_transcripts ord ls F cs)) ->
  restricted F l v = [] \/
  exists c, In c (restricted F l v) /\ total_credits (restricted F l v) - dval (c_credits c) < dval (lm_at_most l).
Proof.
  intros ord ls F cs l v O CO Hl W NN I. assert (NE : ls <> []) by (intros ->; destruct Hl).
  apply limited_items in I as (matched & r & MO & C & CH & ->); auto.
  assert (P := restricted_these ord O ls F cs l matched r Hl MO C).
  destruct (restricted F l (variant ord (unmatched_of cs matched) (these_of r))) as [|c0 R] eqn:E; [left; reflexivity|]. right.
  rewrite <- E in *.
  assert (Hr : forall c, In c (ord (these_of r)) -> In c cs /\ removable F ls c).
  { intros c Hc. rewrite (perm_in ord O) in Hc. apply (these_removable ls F cs matched r c MO C Hc). }
  assert (X : exists c, In c (ord (these_of r)) /\ lm_match l c = Ok true).
  { exists c0. assert (In c0 (restricted F l (ord (these_of r)))) by (eapply Permutation_in; [exact P|rewrite E; simpl; auto]).
    apply in_restricted in H as (A & B & D). split; [exact A|exact D]. }
  destruct (last_match l _ X) as (pre & c & post & EQ & Hm & NP).
  assert (WN : forall x, In x (ord (these_of r)) -> 0 <= weight l x).
  { intros x Hx. unfold weight. rewrite W. apply NN. apply (Hr x Hx). }
  assert (B := check_from_sound ls l (fun l' H Q => CO l' l H Hl Q) Hl _ [] WN CH pre c post EQ Hm).
  unfold count_of in B. simpl in B.
  exists c. split.
  - apply (Permutation_in (l := restricted F l (ord (these_of r)))); [symmetry; exact P|]. apply in_restricted.
    assert (Hc : In c (ord (these_of r))) by (rewrite EQ, in_app_iff; simpl; auto). split; [exact Hc|].
    split; [apply (Hr c Hc)|exact Hm].
  - rewrite <- (restricted_weight_credits l _ W). rewrite (Qsum_perm _ _ (Permutation_map (weight l) P)).
    rewrite <- (restricted_load ls F l _ Hl (fun x Hx => proj2 (Hr x Hx))).
    rewrite EQ, load_app, load_cons, Hm, (load_nomatch l post NP). unfold weight, credits. rewrite W. unfold lm_max in B. lra.
Qed.
Print Assumptions credit_limits_exceeded_by_one_course.

Example credit_limit_example :
  let l := credit_limit 0 1 (of_subject "CSCI") in
  let ls := [l; course_limit 1 1 (of_subject "MATH")] in
  coherent ls /\ 0 <= dval (lm_at_most l) /\
  (forall l' c, In l' ls -> l' <> l -> In c [csci1; csci2; math1] -> matches l c -> matches l' c -> forced [] c) /\
  map (map c_clbid) (g_items (limited_transcripts (fun l => l) ls [] [csci1; csci2; math1])) =
    [[]; ["4"]; ["1"]; ["1"; "4"]; ["2"]; ["2"; "4"]].
Proof.
  cbv zeta. split; [|split; [|split; [|vm_compute; reflexivity]]].
  - intros a b [<-|[<-|[]]] [<-|[<-|[]]]; simpl; congruence.
  - simpl. unfold Qle. simpl. lia.
  - intros l' c [<-|[<-|[]]] N; [congruence|]. intros [<-|[<-|[<-|[]]]] A B; vm_compute in A, B; congruence.
Qed.

(** C16. The credit check depends on the order of iteration of a set. *)
Theorem limits_order_independent_refuted :
  exists ls cs ord1 ord2, set_order ord1 /\ set_order ord2 /\ distinct ls /\ NoDup (map c_clbid cs) /\
    limited_transcripts ord1 ls [] cs <> limited_transcripts ord2 ls [] cs.
Proof.
  exists [credit_limit 0 1 (of_subject "CSCI")], [csci1; csci3], (fun l => l), (@rev course).
  split; [intro; reflexivity|]. split; [intro s; symmetry; apply Permutation_rev|].
  split; [repeat constructor; simpl; intuition congruence|].
  split; [repeat constructor; simpl; intuition congruence|]. vm_compute. discriminate.
Qed.
Print Assumptions limits_order_independent_refuted.

Lemma emit_ext ord1 ord2 ls un combos : (forall r, In r combos ->
    check ls (ord1 (these_of r)) = check ls (ord2 (these_of r)) /\
    isort course_leb (un ++ ord1 (these_of r)) = isort course_leb (un ++ ord2 (these_of r))) ->
  forall em, emit ord1 ls un combos em = emit ord2 ls un combos em.
Proof.
  induction combos as [|r combos IH]; intros H em; [reflexivity|]. cbn [emit]. fold (these_of r).
  destruct (H r (or_introl eq_refl)) as [-> ->].
  rewrite !IH by (intros; apply H; simpl; auto). reflexivity.
Qed.

Lemma check_courses_iff ls cs : distinct ls -> (forall l c, In l ls -> In c cs -> exists b, lm_match l c = Ok b) ->
  (forall l, In l ls -> lm_what l = Courses) ->
  (check ls cs = Ok true <-> forall l, In l ls -> (exists c, In c cs /\ lm_match l c = Ok true) -> load l cs < lm_max l + 1).
Proof.
  intros D T W. split.
  - intros C l Hl X. apply (check_courses_bound ls l cs (distinct_coherent ls D) Hl (W l Hl) C X).
  - apply check_courses_pass; assumption.
Qed.

(** C16, the part that holds: course limits do not depend on it. *)
Theorem limits_order_independent_partial :
  forall ord1 ord2 ls F cs, set_order ord1 -> set_order ord2 -> distinct ls -> NoDup (map c_clbid cs) ->
  (forall l, In l ls -> lm_what l = Courses) ->
  limited_transcripts ord1 ls F cs = limited_transcripts ord2 ls F cs.
Proof.
  intros ord1 ord2 ls F cs O1 O2 D ND W. unfold limited_transcripts. destruct ls as [|l0 ls'] eqn:L; [reflexivity|]. rewrite <- L in *.
  assert (CO := distinct_coherent ls D). fold (the_forced F cs).
  destruct (probe (the_forced F cs) ls cs []) as [matched|] eqn:P; [|reflexivity].
  assert (MO := probe_matched ls F cs CO matched P). fold (unmatched_of cs matched).
  assert (E : forall em, emit ord1 ls (unmatched_of cs matched) (g_items (lazy_run (map (fun p => gret (iterate (fst p) (snd p))) matched))) em
            = emit ord2 ls (unmatched_of cs matched) (g_items (lazy_run (map (fun p => gret (iterate (fst p) (snd p))) matched))) em);
    [|rewrite E; reflexivity].
  apply emit_ext. intros r Hr.
  replace (map (fun p => gret (iterate (fst p) (snd p))) matched) with (map gret (map (fun p => iterate (fst p) (snd p)) matched)) in Hr by (rewrite map_map; reflexivity).
  rewrite lazy_run_pure in Hr.
  assert (C : chosen matched r) by (destruct (existsb _ _) in Hr; [destruct Hr|apply product_chosen; exact Hr]).
  assert (T : forall l c, In l ls -> In c cs -> ~ forced F c -> decided l c) by apply MO.
  assert (PP : Permutation (ord1 (these_of r)) (ord2 (these_of r))) by (rewrite (O1 (these_of r)), (O2 (these_of r)); reflexivity).
  split.
  - assert (T1 := check_decided ord1 ls F cs matched r O1 T MO C). assert (T2 := check_decided ord2 ls F cs matched r O2 T MO C).
    assert (B := check_courses_iff ls _ D T1 W). assert (B' := check_courses_iff ls _ D T2 W).
    assert (EQ : check ls (ord1 (these_of r)) = Ok true <-> check ls (ord2 (these_of r)) = Ok true).
    { rewrite B, B'. split; intros H l Hl (c & Hc & Hm).
      - rewrite <- (load_perm l _ _ PP). apply H; auto. exists c. split; [rewrite PP; exact Hc|exact Hm].
      - rewrite (load_perm l _ _ PP). apply H; auto. exists c. split; [rewrite <- PP; exact Hc|exact Hm]. }
    destruct (check_from_total ls _ T1 []) as [b1 E1]. destruct (check_from_total ls _ T2 []) as [b2 E2].
    unfold check in *. rewrite E1, E2 in *. destruct b1, b2; try reflexivity.
    + symmetry. apply EQ. reflexivity.
    + apply EQ. reflexivity.
  - apply isort_perm_unique; [apply course_total|apply course_trans| |rewrite PP; reflexivity].
    intros x y Hx Hy A B. assert (K : c_clbid x = c_clbid y) by (apply course_antisym; auto).
    assert (S : forall z, In z (unmatched_of cs matched ++ ord1 (these_of r)) -> In z cs).
    { intros z Hz. apply in_app_iff in Hz as [Hz|Hz].
      - apply (in_unmatched ls F cs matched z MO) in Hz. tauto.
      - rewrite (perm_in ord1 O1) in Hz. apply (these_removable ls F cs matched r z MO C Hz). }
    apply S in Hx, Hy. clear -ND Hx Hy K.
    induction cs as [|z cs IH]; [destruct Hx|]. simpl in ND. inversion ND; subst.
    destruct Hx as [->|Hx], Hy as [->|Hy]; auto.
    + exfalso. apply H1. rewrite K. apply in_map. exact Hy.
    + exfalso. apply H1. rewrite <- K. apply in_map. exact Hx.
Qed.
Print Assumptions limits_order_independent_partial.

(** C64. A credit limit whose courses all fit offers only the full selection, which an
    overlapping course limit then rejects: no variant at all. *)
Theorem some_variant_is_emitted_refuted :
  exists ord ls F cs, set_order ord /\ distinct ls /\ (forall l, In l ls -> 0 < dval (lm_at_most l)) /\
    g_items (limited_transcripts ord ls F cs) = [] /\ g_exn (limited_transcripts ord ls F cs) = None.
Proof.
  exists (fun l => l), [credit_limit 0 2 (of_subject "CSCI"); course_limit 1 1 (of_subject "CSCI")], [], [csci1; csci2].
  split; [intro; reflexivity|]. split; [repeat constructor; simpl; intuition congruence|].
  split; [intros l [<-|[<-|[]]]; reflexivity|]. vm_compute. auto.
Qed.
Print Assumptions some_variant_is_emitted_refuted.
