From Coq Require Import List ZArith QArith Bool String Lia Lqa.
From Verif Require Import Prelude Dec Status Course Claims Exceptions Op Context CondExpr Assertion Query CourseRule Tree.
From Verif Require Import ListFacts AssertionSpec AssertionProofs QuerySpec QueryProofs QueryProps CourseRuleSpec CourseRuleProofs CourseRuleProps TreeSpec PredicateProofs.
From Verif Require TranscriptProofs.
Import ListNotations.
Local Open Scope list_scope.
Local Open Scope Q_scope.

(** ** conditionals *)
Lemma in_force_fun i t f x y : in_force i t f x -> in_force i t f y -> x = y.
Proof. intros A B. destruct A, B; congruence. Qed.
Lemma cond_cases i t f :
  (e_result (d_cond i) = Some true /\ in_force i t f t) \/
  (exists x, e_result (d_cond i) = Some false /\ f = Some x /\ in_force i t f x) \/
  ((forall x, ~ in_force i t f x) /\ (forall (A : Type) (a b c : A) (g : node -> A), 
     match e_result (d_cond i), f with Some true, _ => a | Some false, Some x => g x | _, _ => c end = c)).
Proof.
  destruct (e_result (d_cond i)) as [[|]|] eqn:E.
  - left. split; auto. constructor. exact E.
  - destruct f as [x|].
    + right. left. exists x. split; auto. split; auto. constructor 2; auto.
    + right. right. split; [intros x H; destruct H; congruence|reflexivity].
  - right. right. split; [intros x H; destruct H; congruence|reflexivity].
Qed.

(** ** count status *)
Lemma passing_iff s : inS s passing_statuses = true <-> passing s.
Proof. rewrite inS_iff. unfold passing, complete, passing_statuses. cbn [In]. intuition. Qed.
Lemma tally_filter ss : tally passing ss (List.length (filter (fun s => inS s passing_statuses) ss)).
Proof.
  induction ss as [|s t IH]; cbn [filter]; [constructor|]. destruct (inS s passing_statuses) eqn:E.
  - cbn [List.length]. constructor; auto. apply passing_iff. exact E.
  - constructor; auto. rewrite <- passing_iff. congruence.
Qed.
Lemma tally_fun {A} (P : A -> Prop) l n m : tally P l n -> tally P l m -> n = m.
Proof. intro H. revert m. induction H; intros m M; inversion M; subst; try contradiction; auto. Qed.

Lemma count_verdict count ch au : verdict count ch au (count_status count ch au).
Proof.
  unfold count_status. set (pass := filter _ ch). assert (T := tally_filter ch). fold pass in T.
  assert (PI : forall s, In s pass <-> In s ch /\ passing s) by (intro s; unfold pass; rewrite filter_In, passing_iff; reflexivity).
  destruct (inS FailedInvariant ch || inS FailedInvariant au)%bool eqn:F.
  { apply orb_true_iff in F. rewrite !inS_iff in F. exact F. }
  apply orb_false_iff in F. rewrite !inS_no in F. destruct F as [F1 F2].
  destruct (subS ch EMPTY_AND_DEPARTMENTAL) eqn:E.
  { rewrite subS_iff in E. split; auto. split; auto. intros x I. destruct (E x I) as [<-|[<-|[]]]; [left|right]; reflexivity. }
  apply subS_no in E. destruct E as [x0 [I0 N0]].
  assert (S : sound_parts ch au).
  { split; auto. split; auto. exists x0. split; auto. intros [->| ->]; apply N0; simpl; auto. }
  destruct (_ <? count)%Z eqn:LT.
  { apply Z.ltb_lt in LT. split; auto. left. eexists. split; eauto. }
  apply Z.ltb_ge in LT. assert (EN : enough count ch au) by (split; auto; eexists; split; eauto).
  assert (SUB : forall l (P : status -> Prop), (forall s, In s l <-> P s) ->
     (subS pass l && subS au l)%bool = true <-> each_counted ch au P).
  { intros l P LP. rewrite andb_true_iff, !subS_iff. unfold each_counted. split.
    - intros [A B]. split; [intros s I Ps; apply LP, A, PI; auto|intros s I; apply LP, B, I].
    - intros [A B]. split; [intros s I; apply PI in I; apply LP, A; tauto|intros s I; apply LP, B, I]. }
  destruct (eqS pass WAIVED_ONLY && subS au WAIVED_ONLY)%bool eqn:W.
  { unfold eqS in W. apply andb_true_iff in W. destruct W as [W A]. apply andb_true_iff in W. destruct W as [W1 W2].
    split; auto. rewrite subS_iff in W1, W2, A. split; [split|].
    - intros s I Ps. destruct (W1 s) as [<-|[]]; [apply PI; auto|reflexivity].
    - intros s I. destruct (A s I) as [<-|[]]. reflexivity.
    - apply PI. apply W2. simpl. auto. }
  destruct (subS pass WAIVED_AND_DONE && subS au WAIVED_AND_DONE)%bool eqn:D.
  { apply (SUB _ complete) in D; [|intro s; unfold complete; cbn; intuition]. split; auto. split; auto.
    destruct (inS Done ch || inS Done au)%bool eqn:SD.
    { left. apply orb_true_iff in SD. rewrite !inS_iff in SD. exact SD. }
    apply orb_false_iff in SD. rewrite !inS_no in SD. destruct SD as [D1 D2]. right. intro IW.
    assert (X : (eqS pass WAIVED_ONLY && subS au WAIVED_ONLY)%bool = true); [|congruence].
    destruct D as [DA DB]. unfold eqS. rewrite !andb_true_iff, !subS_iff. split; [split|].
    - intros s I. apply PI in I. destruct I as [I Ps]. destruct (DA s I Ps) as [->| ->]; [contradiction|simpl; auto].
    - intros s [<-|[]]. apply PI. split; auto. left. right. reflexivity.
    - intros s I. destruct (DB s I) as [->| ->]; [contradiction|simpl; auto]. }
  assert (ND : ~ each_counted ch au complete) by (intro H; apply (SUB WAIVED_AND_DONE) in H; [congruence|intro s; unfold complete; cbn; intuition]).
  destruct (subS pass WAIVED_DONE_CURRENT && subS au WAIVED_DONE_CURRENT)%bool eqn:C.
  { apply (SUB _ (fun x => complete x \/ x = PendingCurrent)) in C; [|intro s; unfold complete; cbn; intuition]. split; auto. split; auto.
    destruct (inS PendingCurrent ch || inS PendingCurrent au)%bool eqn:SD.
    { apply orb_true_iff in SD. rewrite !inS_iff in SD. exact SD. }
    apply orb_false_iff in SD. rewrite !inS_no in SD. destruct SD as [D1 D2]. exfalso. apply ND. destruct C as [CA CB]. split.
    - intros s I Ps. destruct (CA s I Ps) as [H| ->]; [exact H|contradiction].
    - intros s I. destruct (CB s I) as [H| ->]; [exact H|contradiction]. }
  assert (NC : ~ each_counted ch au (fun x => complete x \/ x = PendingCurrent)) by (intro H; apply (SUB WAIVED_DONE_CURRENT) in H; [congruence|intro s; unfold complete; cbn; intuition]).
  destruct (subS pass WAIVED_DONE_CURRENT_PENDING && subS au WAIVED_DONE_CURRENT_PENDING)%bool eqn:R.
  { apply (SUB _ passing) in R; [|intro s; unfold passing, complete; cbn; intuition]. split; auto. split; auto.
    destruct (inS PendingRegistered ch || inS PendingRegistered au)%bool eqn:SD.
    { apply orb_true_iff in SD. rewrite !inS_iff in SD. exact SD. }
    apply orb_false_iff in SD. rewrite !inS_no in SD. destruct SD as [D1 D2]. exfalso. apply NC. destruct R as [CA CB]. split.
    - intros s I Ps. destruct (CA s I Ps) as [H|[->| ->]]; [left; exact H|auto|contradiction].
    - intros s I. destruct (CB s I) as [H|[->| ->]]; [left; exact H|auto|contradiction]. }
  split; auto. right.
  destruct (forallb (fun s => inS s passing_statuses) au) eqn:AP.
  - exfalso. assert (X : (subS pass WAIVED_DONE_CURRENT_PENDING && subS au WAIVED_DONE_CURRENT_PENDING)%bool = true); [|congruence].
    apply (SUB _ passing); [intro s; unfold passing, complete; cbn; intuition|]. rewrite forallb_forall in AP. split; auto. intros s I. apply passing_iff, AP, I.
  - assert (X : exists s, In s au /\ inS s passing_statuses = false).
    { clear - AP. induction au as [|s t IH]; [discriminate|]. cbn [forallb] in AP. destruct (inS s passing_statuses) eqn:E; [|exists s; simpl; auto]. destruct (IH AP) as [y [I N]]. exists y. simpl. auto. }
    destruct X as [s [I N]]. exists s. split; auto. rewrite <- passing_iff. congruence.
Qed.
Lemma verdict_unique count ch au s1 s2 : verdict count ch au s1 -> verdict count ch au s2 -> s1 = s2.
Proof.
  (* reduced to facts about which statuses occur *)
  intros A B.
  assert (SE : sound_parts ch au -> ~ (forall x, In x ch -> untouched x)) by (intros [_ [_ [s [I N]]]] H; apply N, H, I).
  assert (EN : enough count ch au -> ~ exists n, tally passing ch n /\ (Z.of_nat n < count)%Z).
  { intros [_ [n [T L]]] [m [T' L']]. assert (n = m) by (eapply tally_fun; eauto). subst. lia. }
  assert (EC : forall P, each_counted ch au P -> (forall s, P s -> passing s) -> ~ exists x, In x au /\ ~ passing x).
  { intros P [_ H] PP [x [I N]]. apply N, PP, H, I. }
  assert (SO : forall P s, each_counted ch au P -> someone_is ch au s -> passing s -> P s).
  { intros P s [H1 H2] [I|I] Ps; auto. }
  assert (SF : sound_parts ch au -> ~ (In FailedInvariant ch \/ In FailedInvariant au)) by (intros [H1 [H2 _]]; tauto).
  assert (ES : enough count ch au -> sound_parts ch au) by (intros [H _]; exact H).
  assert (P1 : passing Done) by (left; left; reflexivity). assert (P2 : passing Waived) by (left; right; reflexivity).
  assert (P3 : passing PendingCurrent) by (right; left; reflexivity). assert (P4 : passing PendingRegistered) by (right; right; reflexivity).
  assert (C1 : forall s, complete s -> passing s) by (intros s H; left; exact H).
  assert (C2 : forall s, complete s \/ s = PendingCurrent -> passing s) by (intros s [H|H]; [left; exact H|right; left; exact H]).
  assert (C3 : forall s, Waived = s -> passing s) by (intros s <-; exact P2).
  assert (X : forall s1 s2, verdict count ch au s1 -> verdict count ch au s2 ->
     match s1, s2 with
     | FailedInvariant, (Empty | NeedsMoreItems | Waived | Done | PendingCurrent | PendingRegistered)
     | Empty, (NeedsMoreItems | Waived | Done | PendingCurrent | PendingRegistered)
     | NeedsMoreItems, (Waived | Done | PendingCurrent | PendingRegistered)
     | Waived, (Done | PendingCurrent | PendingRegistered)
     | Done, (PendingCurrent | PendingRegistered)
     | PendingCurrent, PendingRegistered => False
     | _, _ => True
     end).
  { clear A B s1 s2. intros s1 s2 A B. destruct s1, s2; auto; cbn [verdict] in A, B; try contradiction.
    (* failed against the others *)
    all: try (match type of A with _ \/ _ => idtac end; destruct B as [B1 [B2 B3]]; try (apply (SF ltac:(first [exact B1|apply ES; exact B1])); exact A); tauto).
    all: try (match type of A with _ \/ _ => idtac end; destruct B as [B1 B2]; apply (SF B1); exact A).
    all: try (destruct A as [A1 [A2 A3]]; match type of A3 with forall x, In x _ -> untouched x => idtac end;
              match type of B with enough _ _ _ /\ _ => apply (SE (ES (proj1 B)) A3) | _ => apply (SE (proj1 B) A3) end).
    all: try (destruct A as [A1 [A2|A2]]; [apply (EN (proj1 B) A2)|destruct B as [B1 [B2 B3]]; apply (EC _ B2); auto]).
    all: destruct A as [A1 [A2 A3]], B as [B1 [B2 B3]].
    all: first [discriminate (SO _ _ A2 B3 P3) | discriminate (SO _ _ A2 B3 P4)
      | destruct (SO _ _ A2 B3 P3); discriminate | destruct (SO _ _ A2 B3 P4) as [[H|H]|H]; discriminate | destruct (SO _ _ A2 B3 P4) as [H|H]; discriminate
      | destruct B3 as [B3|B3]; [discriminate (SO _ _ A2 B3 P1)|contradiction]]. }
  assert (X1 := X _ _ A B). assert (X2 := X _ _ B A). destruct s1, s2; try reflexivity; try contradiction; cbn [verdict] in A, B; contradiction.
Qed.

(** ** completeness *)
Lemma course_complete_ok k r : complete (c_status k r) -> course_complete k r.
Proof.
  unfold course_complete. destruct k.
  1,2: unfold c_status, c_waived, c_claims; destruct (r_overridden r); auto; cbn; destruct (r_optional r); auto; intros [H|H]; discriminate.
  intro H. assert (S := proj1 (course_result_status_exact r _) eq_refl).
  destruct S as [[_ [E|E]]|c NE U F|c NE U C|c NE U C|NE N O|NE N O]; auto.
  - right. right. right. split; auto. exists c. auto.
  - destruct H; discriminate.
  - destruct H; discriminate.
  - destruct H; discriminate.
Qed.
Lemma passing_subseq (items : list node) :
  subseq (filter (fun x => inS (status_of x) passing_statuses) items) items /\
  List.length (filter (fun x => inS (status_of x) passing_statuses) items) = List.length (filter (fun s => inS s passing_statuses) (map status_of items)).
Proof.
  induction items as [|x t [IH1 IH2]]; cbn [filter map]; [split; constructor|]. destruct (inS (status_of x) passing_statuses); cbn [List.length].
  - split; [constructor; auto|congruence].
  - split; [constructor; auto|auto].
Qed.
Lemma achieved_ok n : complete (status_of n) -> achieved n.
Proof.
  induction n as [k r|k q|k i items IH|k i result IH|k i t f IHt IHf|k i c] using node_induction; cbn [status_of]; intro C.
  - constructor. apply course_complete_ok. exact C.
  - constructor. destruct (q_overridden q) eqn:O; auto. right. apply (query_passes_iff_all_pass q O). exact C.
  - destruct (n_overridden i) eqn:O; [apply ac_count_waived; auto|].
    assert (V := count_verdict (n_count i) (map status_of items) (map any_status (n_audits i))).
    set (s := count_status _ _ _) in *. destruct (passing_subseq items) as [S L].
    assert (X : enough (n_count i) (map status_of items) (map any_status (n_audits i)) /\ each_counted (map status_of items) (map any_status (n_audits i)) complete).
    { destruct C as [E|E]; rewrite E in V; cbn [verdict] in V; destruct V as [V1 [V2 V3]]; split; auto.
      destruct V2 as [V2 V2']. split; [intros x I P; right; symmetry; auto|intros x I; right; symmetry; auto]. }
    destruct X as [[_ [m [T LE]]] [X1 X2]].
    assert (m = List.length (filter (fun s => inS s passing_statuses) (map status_of items))) by (eapply tally_fun; [exact T|apply tally_filter]). subst m.
    eapply ac_count; [exact S|rewrite L; exact LE| |].
    + intros x I. apply filter_In in I. destruct I as [I P]. apply IH; auto. apply X1; [apply in_map; auto|apply passing_iff; exact P].
    + intros a I. apply X2. apply in_map. exact I.
  - unfold req_status in C. destruct (e_overridden i) eqn:O; [apply ac_req_waived; auto|]. cbn [andb] in C.
    destruct (e_audited i) eqn:A; [destruct C; discriminate|]. destruct result as [x|]; [|destruct C; discriminate]. apply ac_req; auto.
  - destruct (cond_cases i t f) as [[E F]|[[x [E [-> F]]]|[N _]]].
    + rewrite E in C. eapply ac_cond; eauto.
    + rewrite E in C. eapply ac_cond; eauto.
    + apply ac_cond_none. exact N.
  - unfold prof_node_status in C. destruct (f_overridden i) eqn:O; [apply ac_prof_waived; auto|].
    destruct (inS (f_status i) WAIVED_AND_DONE) eqn:S; [apply ac_prof; exact C|]. destruct c as [[k' r]|]; [|destruct C; discriminate].
    apply ac_prof_course, course_complete_ok. exact C.
Qed.

(** ** rank *)
Lemma Qmax_of_l a b : a <= Qmax_of a b.
Proof. unfold Qmax_of. destruct (Qltb a b) eqn:E; [apply Qltb_iff in E; lra|lra]. Qed.
Lemma Qmax_of_r a b : b <= Qmax_of a b.
Proof. unfold Qmax_of. destruct (Qltb a b) eqn:E; [lra|apply Qltb_no in E; lra]. Qed.
Lemma Qsum_nonneg l : (forall q, In q l -> 0 <= q) -> 0 <= Qsum l.
Proof. unfold Qsum. induction l as [|x t IH]; cbn; intro H; [lra|]. assert (A := H x (or_introl eq_refl)). assert (B := IH (fun q I => H q (or_intror I))). lra. Qed.
Lemma count_rank_le i ranks r m : count_rank i ranks = Ok (r, m) -> r <= m.
Proof.
  unfold count_rank. match goal with |- bind ?x _ = _ -> _ => destruct x as [im|] end; cbn [bind]; [|discriminate]. intro H. injection H as <- <-.
  assert (A := Qmax_of_l (Qsum (map fst ranks)) im). assert (B := Qmax_of_l (Qsum (map any_rank (n_audits i))) (Qsum (map any_max_rank (n_audits i)))). lra.
Qed.
Lemma rank_le n r m : rank_of n = Ok (r, m) -> r <= m.
Proof.
  revert r m. induction n as [k r|k q|k i items IH|k i result IH|k i t f IHt IHf|k i c] using node_induction; cbn [rank_of]; intros a b H.
  - injection H as <- <-. apply course_rank_bounded.
  - injection H as <- <-. apply query_rank_bounded.
  - destruct (n_overridden i); [injection H as <- <-; lra|]. destruct (mapr rank_of items) as [ranks|]; cbn [bind] in H; [|discriminate]. eapply count_rank_le; eauto.
  - destruct (e_overridden i); [injection H as <- <-; lra|]. destruct (e_audited i); [injection H as <- <-; lra|]. destruct result as [x|]; [|injection H as <- <-; lra].
    destruct (rank_of x) as [[r m]|] eqn:R; cbn [bind] in H; [|discriminate]. assert (L := IH x eq_refl r m R). unfold boosted in H. destruct (inS _ _); injection H as <- <-; cbn; lra.
  - destruct (e_result (d_cond i)) as [[|]|]; [eauto| |injection H as <- <-; lra]. destruct f; [eauto|injection H as <- <-; lra].
  - injection H as <- <-. destruct (prof_node_status i c); cbn; lra.
Qed.
Lemma as_rank_nonneg a : measured a -> 0 <= as_rank a.
Proof.
  intros [E R]. unfold as_rank. assert (X : 0 <= match as_resolved a with Some r => match as_op a with OLt | OLte => 0 | _ => if Qeqb (dval (as_expected a)) 0 then 0 else Qminb 1 (r / dval (as_expected a)) end | None => 0 end).
  { destruct (as_resolved a) as [r|]; [|lra]. specialize (R r eq_refl).
    assert (Y : 0 <= if Qeqb (dval (as_expected a)) 0 then 0 else Qminb 1 (r / dval (as_expected a))).
    { destruct (Qeqb _ 0) eqn:Z; [lra|]. unfold Qminb. destruct (Qltb _ _); [|lra].
      apply Qle_shift_div_l; [|lra]. apply Qle_lteq in E. destruct E as [E|E]; auto. assert (X : Qeqb (dval (as_expected a)) 0 = true) by (apply TranscriptProofs.Qeqb_iff; symmetry; exact E). congruence. }
    destruct (as_op a); auto; lra. }
  destruct (as_state a); auto; lra.
Qed.
Lemma any_rank_nonneg a : any_measured a -> 0 <= any_rank a.
Proof.
  destruct a as [x|p c t e|p c t]; cbn [any_measured any_rank].
  - apply as_rank_nonneg.
  - intros [A B]. destruct (e_result c) as [[|]|]; [apply as_rank_nonneg; auto| |lra]. destruct e; [apply as_rank_nonneg; auto|lra].
  - intro A. destruct (d_result c) as [[|]|]; [apply as_rank_nonneg; auto|lra|lra].
Qed.
Lemma rank_nonneg n r m : rank_of n = Ok (r, m) -> (forall a, ranked_assertion n a -> any_measured a) -> 0 <= r.
Proof.
  revert r m. induction n as [k r|k q|k i items IH|k i result IH|k i t f IHt IHf|k i c] using node_induction; cbn [rank_of]; intros a b H M.
  - injection H as <- <-. apply course_rank_bounded.
  - injection H as <- <-. unfold q_rank. destruct (q_overridden q); [lra|]. apply Qsum_nonneg. intros x I. apply in_map_iff in I. destruct I as [y [<- I]]. apply any_rank_nonneg, M. constructor. exact I.
  - destruct (n_overridden i); [injection H as <- <-; lra|]. destruct (mapr rank_of items) as [ranks|] eqn:R; cbn [bind] in H; [|discriminate].
    unfold count_rank in H. match type of H with bind ?x _ = _ => destruct x as [im|] end; cbn [bind] in H; [|discriminate]. injection H as <- <-.
    assert (A : 0 <= Qsum (map fst ranks)).
    { apply Qsum_nonneg. intros x I. apply in_map_iff in I. destruct I as [[u v] [<- I]]. apply mapr_ok in R. destruct (F2_in_r _ _ _ _ R I) as [y [Iy E]]. cbn. eapply IH; eauto. intros z Z. apply M. eapply ra_item; eauto. }
    assert (B : 0 <= Qsum (map any_rank (n_audits i))).
    { apply Qsum_nonneg. intros x I. apply in_map_iff in I. destruct I as [y [<- I]]. apply any_rank_nonneg, M. apply ra_audit. exact I. }
    lra.
  - destruct (e_overridden i); [injection H as <- <-; lra|]. destruct (e_audited i); [injection H as <- <-; lra|]. destruct result as [x|]; [|injection H as <- <-; lra].
    destruct (rank_of x) as [[r m]|] eqn:R; cbn [bind] in H; [|discriminate].
    assert (L := IH x eq_refl r m R (fun z Z => M z (ra_req k i x z Z))). unfold boosted in H. destruct (inS _ _); injection H as <- <-; cbn; lra.
  - destruct (cond_cases i t f) as [[E F]|[[x [E [-> F]]]|[N EQ]]].
    + rewrite E in H. eapply IHt; eauto. intros z Z. apply M. eapply ra_cond; eauto.
    + rewrite E in H. eapply IHf; eauto. intros z Z. apply M. eapply ra_cond; eauto.
    + rewrite (EQ _ (rank_of t) (rank_of t) _ rank_of) in H. injection H as <- <-. lra.
  - injection H as <- <-. destruct (prof_node_status i c); cbn; lra.
Qed.
Lemma rank_err n : (forall e, rank_of n = Err e -> e = ValueErr /\ rank_undefined n) /\ (rank_undefined n -> rank_of n = Err ValueErr).
Proof.
  induction n as [k r|k q|k i items IH|k i result IH|k i t f IHt IHf|k i c] using node_induction; cbn [rank_of].
  - split; [discriminate|]. intro H; inversion H.
  - split; [discriminate|]. intro H; inversion H.
  - destruct (n_overridden i) eqn:O; [split; [discriminate|intro H; inversion H; congruence]|].
    destruct (mapr rank_of items) as [ranks|e] eqn:R; cbn [bind].
    + assert (F2 := R). apply mapr_ok in F2. assert (LEN : List.length items = List.length ranks) by (clear - F2; induction F2; cbn; auto).
      split.
      * intros e H. unfold count_rank in H. destruct (Nat.eqb (List.length ranks) 2 && _)%bool eqn:B1; [discriminate|]. destruct ((n_count i =? 1)%Z && n_at_most i)%bool eqn:B2; [|discriminate].
        apply andb_true_iff in B2. destruct B2 as [C AM]. apply Z.eqb_eq in C. unfold Qmaximum in H. destruct (map snd ranks) eqn:MS; [|discriminate]. cbn [bind] in H. injection H as <-.
        split; auto. apply ru_here; auto. split; auto. split; auto. destruct ranks; [|discriminate]. destruct items; [auto|discriminate].
      * intro H. inversion H as [? ? ? _ [C [AM EI]]|? ? ? x _ I U|? ? ? ? ? ?|? ? ? ? ? ? ?]; subst.
        -- destruct ranks; [|discriminate]. unfold count_rank. cbn [List.length Nat.eqb andb]. rewrite C, AM. reflexivity.
        -- destruct (IH x I) as [_ X]. destruct (F2_in_l _ _ _ _ F2 I) as [y [_ E]]. rewrite (X U) in E. discriminate.
    + assert (X : exists x, In x items /\ rank_of x = Err e).
      { clear IH O. revert e R. induction items as [|x l IHl]; cbn [mapr]; intros e R; [discriminate|]. destruct (rank_of x) as [p|e'] eqn:RX; cbn [bind] in R.
        - destruct (mapr rank_of l) as [|e''] eqn:RL; cbn [bind] in R; [discriminate|]. injection R as ->. destruct (IHl e eq_refl) as [y [I Y]]. exists y. split; [right|]; auto.
        - injection R as ->. exists x. split; [left|]; auto. }
      destruct X as [x [I RX]]. destruct (IH x I) as [IH1 IH2]. destruct (IH1 e RX) as [-> U]. split; [|auto]. intros e' H. injection H as <-. split; auto. eapply ru_count; eauto.
  - destruct (e_overridden i) eqn:O; [split; [discriminate|intro H; inversion H; congruence]|]. destruct (e_audited i) eqn:A; [split; [discriminate|intro H; inversion H; congruence]|].
    destruct result as [x|]; [|split; [discriminate|intro H; inversion H]]. destruct (IH x eq_refl) as [IH1 IH2]. destruct (rank_of x) as [p|e] eqn:R; cbn [bind].
    + split; [discriminate|]. intro H. inversion H; subst. specialize (IH2 H5). discriminate.
    + destruct (IH1 e eq_refl) as [-> U]. split; [|auto]. intros e' H. injection H as <-. split; auto. apply ru_req; auto.
  - destruct (cond_cases i t f) as [[E F]|[[x [E [-> F]]]|[N EQ]]].
    + rewrite E. destruct IHt as [IH1 IH2]. split.
      * intros e H. destruct (IH1 e H) as [-> U]. split; auto. eapply ru_cond; eauto.
      * intro H. inversion H as [| | |? ? ? ? y F' U]; subst. rewrite (in_force_fun _ _ _ _ _ F' F) in U. auto.
    + rewrite E. destruct (IHf x eq_refl) as [IH1 IH2]. split.
      * intros e H. destruct (IH1 e H) as [-> U]. split; auto. eapply ru_cond; eauto.
      * intro H. inversion H as [| | |? ? ? ? y F' U]; subst. rewrite (in_force_fun _ _ _ _ _ F' F) in U. auto.
    + rewrite (EQ _ (rank_of t) (rank_of t) _ rank_of). split; [discriminate|]. intro H. inversion H as [| | |? ? ? ? y F' U]; subst. destruct (N _ F').
  - split; [discriminate|]. intro H; inversion H.
Qed.

(** ** claims *)
Lemma c_claims_iff k r cl : In cl (c_claims k r) <-> k = KRes /\ r_claim r = Some cl /\ cl_failed cl = false.
Proof.
  unfold c_claims. destruct k; try (split; [intros []|intros [H _]; discriminate]).
  destruct (r_claim r) as [c|]; cbn; [|split; [intros []|intros [_ [H _]]; discriminate]].
  destruct (cl_failed c) eqn:F; cbn; split.
  - intros [].
  - intros [_ [E X]]. injection E as ->. congruence.
  - intros [<-|[]]. auto.
  - intros [_ [E _]]. injection E as ->. auto.
Qed.
Lemma claims_ok n cl : (In cl (claims_of n) <-> claimed_in false n cl) /\ (In cl (gpa_claims_of n) <-> claimed_in true n cl).
Proof.
  assert (PR : forall gpa k i c, In cl (prof_claims k c) <-> claimed_in gpa (NProf k i c) cl).
  { intros gpa k i c. unfold prof_claims. destruct k; try (split; [intros []|intro H; inversion H]). destruct c as [[k' r]|]; [|split; [intros []|intro H; inversion H]].
    rewrite c_claims_iff. split; [intros [-> [E F]]; constructor; auto|intro H; inversion H; subst; auto]. }
  assert (QR : forall gpa k q, In cl (q_node_claims k q) <-> claimed_in gpa (NQuery k q) cl).
  { intros gpa k q. unfold q_node_claims. destruct k; try (split; [intros []|intro H; inversion H]). split; [intro; constructor; auto|intro H; inversion H; subst; auto]. }
  assert (CR : forall gpa k r, In cl (c_claims k r) <-> claimed_in gpa (NCourse k r) cl).
  { intros gpa k r. rewrite c_claims_iff. split; [intros [-> [E F]]; constructor; auto|intro H; inversion H; subst; auto]. }
  induction n as [k r|k q|k i items IH|k i result IH|k i t f IHt IHf|k i c] using node_induction; cbn [claims_of gpa_claims_of]; auto.
  - split; rewrite in_flat_map; split.
    + intros [x [I C]]. eapply ci_count; eauto. apply IH; auto.
    + intro H. inversion H; subst. exists x. split; auto. apply IH; auto.
    + intros [x [I C]]. eapply ci_count; eauto. apply IH; auto.
    + intro H. inversion H; subst. exists x. split; auto. apply IH; auto.
  - destruct (e_audited i) eqn:A.
    + rewrite andb_false_r. split; (split; [intros []|intro H; inversion H; congruence]).
    + rewrite andb_true_r. destruct result as [x|].
      * destruct (IH x eq_refl) as [IH1 IH2]. split.
        -- rewrite IH1. split; [intro; constructor; auto; discriminate|intro H; inversion H; auto].
        -- destruct (e_in_gpa i) eqn:G; [rewrite IH2; split; [intro; constructor; auto|intro H; inversion H; auto]|]. split; [intros []|intro H; inversion H; subst]. specialize (H5 eq_refl). congruence.
      * split; [|destruct (e_in_gpa i)]; (split; [intros []|intro H; inversion H]).
  - destruct (cond_cases i t f) as [[E F]|[[x [E [-> F]]]|[N EQ]]].
    + rewrite E. destruct IHt as [IH1 IH2]. rewrite IH1, IH2. split; (split; [intro; eapply ci_cond; eauto|intro H; inversion H as [| | | |? ? ? ? y ? F' U|]; subst; rewrite (in_force_fun _ _ _ _ _ F' F) in U; auto]).
    + rewrite E. destruct (IHf x eq_refl) as [IH1 IH2]. rewrite IH1, IH2. split; (split; [intro; eapply ci_cond; eauto|intro H; inversion H as [| | | |? ? ? ? y ? F' U|]; subst; rewrite (in_force_fun _ _ _ _ _ F' F) in U; auto]).
    + rewrite (EQ _ (claims_of t) (claims_of t) _ claims_of), (EQ _ (gpa_claims_of t) (gpa_claims_of t) _ gpa_claims_of). split; (split; [intros []|intro H; inversion H as [| | | |? ? ? ? y ? F' U|]; subst; destruct (N _ F')]).
Qed.

(** ** the whole of status and rank *)
Lemma leaf_status_iff k r s : c_status k r = s <-> leaf_status k r s.
Proof.
  destruct k.
  3: { rewrite course_result_status_exact. split; [intro H; apply ls_audited; auto|]. intro H; inversion H; subst; auto; congruence. }
  1,2: unfold c_status, c_waived, c_claims; destruct (r_overridden r) eqn:O; cbn;
    [split; [intros <-; apply ls_waived; auto; discriminate|intro H; inversion H; subst; auto; congruence]|];
    destruct (r_optional r) eqn:P; (split; [intros <-; constructor; auto; discriminate|]); intro H; inversion H as [? E|? [E|E]|? E1 E2]; subst; auto; try congruence; discriminate.
Qed.
Lemma Forall2_map_iff {A B} (f : A -> B) (R : A -> B -> Prop) l ss :
  (forall x, In x l -> forall s, f x = s <-> R x s) -> (Forall2 R l ss <-> ss = map f l).
Proof.
  revert ss. induction l as [|x l IH]; intros ss H; cbn [map].
  - split; [intro F; inversion F; auto|intros ->; constructor].
  - split.
    + intro F. inversion F as [|? y ? ys RX F']; subst. f_equal; [symmetry; apply H; simpl; auto|]. apply IH; auto. intros; apply H; simpl; auto.
    + intros ->. constructor; [apply H; simpl; auto|]. apply IH; auto. intros; apply H; simpl; auto.
Qed.
Lemma complete_iff s : inS s WAIVED_AND_DONE = true <-> complete s.
Proof. unfold complete. rewrite inS_iff. unfold WAIVED_AND_DONE. cbn. intuition. Qed.
Lemma complete_no s : inS s WAIVED_AND_DONE = false -> ~ complete s.
Proof. intros E H. apply complete_iff in H. congruence. Qed.
Lemma status_ok n : forall s, status_of n = s <-> has_status n s.
Proof.
  induction n as [k r|k q|k i items IH|k i result IH|k i t f IHt IHf|k i c] using node_induction; cbn [status_of]; intro s.
  - rewrite leaf_status_iff. split; [intro; constructor; auto|intro H; inversion H; auto].
  - destruct (q_overridden q) eqn:O.
    + unfold q_status. rewrite O. split; [intros <-; apply hs_query_waived; auto|intro H; inversion H; subst; auto; congruence].
    + rewrite (query_status_is_conjunction q s O). split; [intro; apply hs_query; auto|intro H; inversion H; subst; auto; congruence].
  - destruct (n_overridden i) eqn:O.
    + split; [intros <-; apply hs_count_waived; auto|intro H; inversion H; subst; auto; congruence].
    + assert (V := count_verdict (n_count i) (map status_of items) (map any_status (n_audits i))). split.
      * intros <-. eapply hs_count; eauto. apply (Forall2_map_iff status_of); auto.
      * intro H. inversion H as [| | | |? ? ? ss ? _ F V'| | | | | | | | | | |]; subst; [congruence|].
        apply (Forall2_map_iff status_of) in F; auto. subst ss. eapply verdict_unique; eauto.
  - unfold req_status. destruct (e_overridden i) eqn:O; cbn [andb].
    + destruct (e_audited i) eqn:A; [|destruct (e_contract i) eqn:C]; cbn [orb].
      * split; [intros <-; apply hs_approved; auto|intro H; inversion H; subst; auto; congruence].
      * split; [intros <-; apply hs_approved; auto|intro H; inversion H; subst; auto; congruence].
      * split; [intros <-; apply hs_req_waived; auto|intro H; inversion H as [| | | | |? ? ? ? [X|X]| | | | | | | | | |]; subst; auto; congruence].
    + destruct (e_audited i) eqn:A; [split; [intros <-; apply hs_awaiting; auto|intro H; inversion H; subst; auto; congruence]|].
      destruct result as [x|].
      * rewrite (IH x eq_refl). split; [intro; apply hs_req; auto|intro H; inversion H; subst; auto; congruence].
      * split; [intros <-; apply hs_void; auto|intro H; inversion H; subst; auto; congruence].
  - destruct (cond_cases i t f) as [[E F]|[[x [E [-> F]]]|[N EQ]]].
    + rewrite E, IHt. split; [intro; eapply hs_cond; eauto|]. intro H; inversion H as [| | | | | | | | | |? ? ? ? y ? F' U|? ? ? ? N| | | |]; subst; [rewrite <- (in_force_fun _ _ _ _ _ F' F); auto|destruct (N _ F)].
    + rewrite E, (IHf x eq_refl). split; [intro; eapply hs_cond; eauto|]. intro H; inversion H as [| | | | | | | | | |? ? ? ? y ? F' U|? ? ? ? N| | | |]; subst; [rewrite <- (in_force_fun _ _ _ _ _ F' F); auto|destruct (N _ F)].
    + rewrite (EQ _ (status_of t) (status_of t) _ status_of). split; [intros <-; apply hs_cond_none; auto|]. intro H; inversion H as [| | | | | | | | | |? ? ? ? y ? F' U|? ? ? ? N'| | | |]; subst; [destruct (N _ F')|auto].
  - unfold prof_node_status. destruct (f_overridden i) eqn:O; [split; [intros <-; apply hs_prof_waived; auto|intro H; inversion H; subst; auto; congruence]|].
    destruct (inS (f_status i) WAIVED_AND_DONE) eqn:S.
    + apply complete_iff in S. split; [intros <-; apply hs_prof; auto|intro H; inversion H; subst; auto; congruence].
    + apply complete_no in S. destruct c as [[k' r]|].
      * rewrite leaf_status_iff. split; [intro; apply hs_prof_course; auto|intro H; inversion H; subst; auto; congruence].
      * split; [intros <-; apply hs_prof_none; auto|intro H; inversion H; subst; auto; congruence].
Qed.

Lemma total_ok l q : total l q <-> q == Qsum l.
Proof.
  unfold Qsum. revert q. induction l as [|x l IH]; cbn; intro q.
  - split; [intro H; inversion H; auto|intro; constructor; auto].
  - split; [intro H; inversion H as [|? ? s ? T E]; subst; apply IH in T; rewrite E, T; reflexivity|].
    intro E. eapply tot_cons; [apply IH; reflexivity|exact E].
Qed.
Lemma larger_ok a b m : larger a b m <-> m == Qmax_of a b.
Proof.
  unfold larger, Qmax_of. destruct (Qltb a b) eqn:E; [apply Qltb_iff in E|apply Qltb_no in E]; split; intro H.
  - destruct H as [[_ H]|[H _]]; [auto|lra].
  - left. split; [lra|auto].
  - destruct H as [[L H]|[_ H]]; [lra|auto].
  - right. auto.
Qed.
Lemma Qmax_of_comp a b a' b' : a == a' -> b == b' -> Qmax_of a b == Qmax_of a' b'.
Proof.
  intros A B. apply larger_ok. assert (L : larger a b (Qmax_of a b)) by (apply larger_ok; reflexivity). unfold larger in *. rewrite <- A, <- B. exact L.
Qed.
Lemma fold_max l : forall x, (exists y, In y (x :: l) /\ y == fold_left Qmax_of l x) /\ forall y, In y (x :: l) -> y <= fold_left Qmax_of l x.
Proof.
  induction l as [|z l IH]; intro x; cbn [fold_left].
  - split; [exists x; simpl; split; auto; reflexivity|]. intros y [<-|[]]. lra.
  - destruct (IH (Qmax_of x z)) as [[y [I E]] G]. split.
    + destruct I as [<-|I]; [|exists y; simpl; auto]. unfold Qmax_of in *. destruct (Qltb x z); [exists z; simpl; auto|exists x; simpl; auto].
    + assert (G0 := G _ (or_introl eq_refl)). intros w [<-|[<-|J]].
      * eapply Qle_trans; [apply Qmax_of_l|exact G0].
      * eapply Qle_trans; [apply Qmax_of_r|exact G0].
      * apply G. simpl. auto.
Qed.
Lemma greatest_ok l m q : Qmaximum l = Ok q -> (greatest l m <-> m == q).
Proof.
  destruct l as [|x l]; [discriminate|]. cbn. intro H. injection H as <-. destruct (fold_max l x) as [[y [I E]] G]. unfold greatest. split.
  - intros [[z [Iz Ez]] Gz]. assert (A := G z Iz). assert (B := Gz y I). lra.
  - intro M. split; [exists y; split; auto; rewrite M; auto|]. intros z Iz. rewrite M. auto.
Qed.
Lemma greatest_nil m : ~ greatest [] m.
Proof. intros [[x [[] _]] _]. Qed.

(** two lists of ranks that agree *)
Definition same_rank (p q : Q * Q) : Prop := fst p == fst q /\ snd p == snd q.
Lemma total_same l l' q : Forall2 Qeq l l' -> total l q -> total l' q.
Proof.
  intros F. revert q. induction F as [|x y l l' E F IH]; intros q T; auto. inversion T as [|? ? s ? T' E']; subst. eapply tot_cons; [apply IH; exact T'|]. rewrite E', E. reflexivity.
Qed.
Lemma greatest_same l l' q : Forall2 Qeq l l' -> greatest l q -> greatest l' q.
Proof.
  intros F [[x [I E]] G]. split.
  - destruct (F2_in_l _ _ _ _ F I) as [y [Iy Ey]]. exists y. split; auto. rewrite <- Ey. exact E.
  - intros y Iy. destruct (F2_in_r _ _ _ _ F Iy) as [z [Iz Ez]]. rewrite <- Ez. auto.
Qed.
Lemma reachable_same i l l' q : Forall2 Qeq l l' -> reachable i l q -> reachable i l' q.
Proof.
  intros F [[A [B G]]|[N T]]; [left; split; auto; split; auto; eapply greatest_same; eauto|right; split; auto; eapply total_same; eauto].
Qed.
Lemma reachable_ok i (ranks : list (Q * Q)) m :
  reachable i (map snd ranks) m <->
  exists q, (if (Nat.eqb (List.length ranks) 2 && (n_count i =? 2)%Z)%bool then Ok (Qsum (map snd ranks))
    else if ((n_count i =? 1)%Z && n_at_most i)%bool then Qmaximum (map snd ranks)
    else Ok (Qsum (map snd ranks))) = Ok q /\ m == q.
Proof.
  unfold reachable. destruct ((n_count i =? 1)%Z && n_at_most i)%bool eqn:B.
  - apply andb_true_iff in B. destruct B as [C A]. apply Z.eqb_eq in C. assert (C2 : (n_count i =? 2)%Z = false) by (apply Z.eqb_neq; lia). rewrite C2, andb_false_r. split.
    + intros [[_ [_ G]]|[N _]]; [|tauto]. destruct (Qmaximum (map snd ranks)) as [q|] eqn:MX; [|].
      * exists q. split; auto. apply (greatest_ok _ m q MX). exact G.
      * destruct (map snd ranks); [destruct (greatest_nil _ G)|discriminate].
    + intros [q [MX E]]. left. split; auto. split; auto. apply (greatest_ok _ m q MX). exact E.
  - assert (N : ~ (n_count i = 1%Z /\ n_at_most i = true)) by (intros [C A]; rewrite C, A in B; discriminate).
    split.
    + intros [[C [A _]]|[_ T]]; [tauto|]. exists (Qsum (map snd ranks)). apply total_ok in T. destruct (Nat.eqb (List.length ranks) 2 && _)%bool; split; auto.
    + intros [q [E M]]. right. split; auto. apply total_ok. destruct (Nat.eqb (List.length ranks) 2 && _)%bool; injection E as <-; exact M.
Qed.
Lemma status_rank_points s : status_rank s == points s.
Proof. destruct s; reflexivity. Qed.
Lemma Forall2_map {A B C D} (f : A -> C) (g : B -> D) (R : C -> D -> Prop) l r : Forall2 R (map f l) (map g r) <-> Forall2 (fun a b => R (f a) (g b)) l r.
Proof.
  revert r. induction l as [|x l IH]; intros [|y r]; cbn; split; intro H; inversion H; subst; constructor; auto; apply IH; auto.
Qed.
Definition rank_spec (n : node) : Prop := forall a m, has_rank n a m <-> exists p, rank_of n = Ok p /\ same_rank (a, m) p.
Lemma ranks_found items ranks :
  (forall x, In x items -> rank_spec x) ->
  Forall2 (fun x p => has_rank x (fst p) (snd p)) items ranks ->
  exists ranks', mapr rank_of items = Ok ranks' /\ Forall2 same_rank ranks ranks'.
Proof.
  intros IH F. revert IH. induction F as [|x p items ranks H F IHF]; intro IH; cbn [mapr]; [exists []; split; auto|].
  apply IH in H; [|simpl; auto]. destruct H as [p' [E S]]. destruct IHF as [ranks' [E' F']]; [intros; apply IH; simpl; auto|].
  exists (p' :: ranks'). rewrite E. cbn [bind]. rewrite E'. cbn [bind]. split; auto.
Qed.
Lemma rank_ok n : rank_spec n.
Proof.
  unfold rank_spec, same_rank.
  assert (ONE : forall a m (x : Q * Q) , (a == fst x /\ m == snd x) <-> exists p, Ok x = Ok p /\ fst (a, m) == fst p /\ snd (a, m) == snd p).
  { intros a m x. cbn [fst snd]. split; [intro; exists x; auto|intros [p [E H]]; injection E as <-; auto]. }
  induction n as [k r|k q|k i items IH|k i result IH|k i t f IHt IHf|k i c] using node_induction; cbn [rank_of]; intros a m.
  - rewrite <- ONE. cbn [fst snd]. unfold c_rank, c_max_rank. destruct (r_optional r) eqn:O; split.
    + intro H; inversion H; subst; auto; congruence.
    + intros [A M]. apply hr_optional; auto.
    + intro H; inversion H as [|? ? s ? ? _ L A M| | | | | | | | | |]; subst; [congruence|]. apply leaf_status_iff in L. rewrite L, status_rank_points. auto.
    + intros [A M]. eapply hr_course; [auto|apply leaf_status_iff; reflexivity| |auto]. rewrite <- status_rank_points. auto.
  - rewrite <- ONE. cbn [fst snd]. split; [intro H; inversion H; auto|intros []; constructor; auto].
  - destruct (n_overridden i) eqn:O.
    { rewrite <- ONE. cbn [fst snd]. split; [intro H; inversion H; subst; auto; congruence|intros []; apply hr_count_waived; auto]. }
    split.
    + intro H. inversion H as [| | | |? ? ? ranks r reach cap ar am cap' ? ? _ F T R L TA TM L' A M| | | | | | |]; subst; [congruence|].
      destruct (ranks_found items ranks) as [ranks' [E F']]; [exact IH|exact F|]. rewrite E. cbn [bind]. unfold count_rank.
      assert (F1 : Forall2 Qeq (map fst ranks) (map fst ranks')) by (apply Forall2_map; clear - F'; induction F' as [|? ? ? ? []]; constructor; auto).
      assert (F2 : Forall2 Qeq (map snd ranks) (map snd ranks')) by (apply Forall2_map; clear - F'; induction F' as [|? ? ? ? []]; constructor; auto).
      apply (total_same _ _ _ F1) in T. apply (reachable_same _ _ _ _ F2) in R. apply total_ok in T, TA, TM. apply reachable_ok in R. destruct R as [q [-> RQ]]. cbn [bind].
      eexists. split; [reflexivity|]. cbn [fst snd].
      apply larger_ok in L, L'. rewrite A, M, T, TA, L, L'. split; [reflexivity|]. apply Qplus_comp; apply Qmax_of_comp; auto.
    + intros [p [E [A M]]]. destruct (mapr rank_of items) as [ranks|] eqn:R; cbn [bind] in E; [|discriminate].
      assert (F : Forall2 (fun x p => has_rank x (fst p) (snd p)) items ranks).
      { apply mapr_ok in R. clear E A M. induction R as [|x y items ranks RX R IHR]; constructor; [|apply IHR; intros; apply IH; simpl; auto].
        apply IH; [simpl; auto|]. exists y. cbn. split; auto. split; reflexivity. }
      unfold count_rank in E. match type of E with bind ?x _ = _ => destruct x as [im|] eqn:IM end; cbn [bind] in E; [|discriminate]. injection E as <-. cbn [fst snd] in A, M.
      eapply hr_count with (ranks := ranks); [exact O|exact F|apply total_ok; reflexivity|apply reachable_ok; exists im; split; [exact IM|reflexivity]|apply larger_ok; reflexivity|apply total_ok; reflexivity|apply total_ok; reflexivity|apply larger_ok; reflexivity|exact A|exact M].
  - destruct (e_overridden i) eqn:O.
    { rewrite <- ONE. cbn [fst snd]. split; [intro H; inversion H; subst; auto; congruence|intros []; apply hr_req_waived; auto]. }
    destruct (e_audited i) eqn:A.
    { rewrite <- ONE. cbn [fst snd]. split; [intro H; inversion H; subst; auto; congruence|intros []; apply hr_req_void; auto]. }
    destruct result as [x|].
    2: { rewrite <- ONE. cbn [fst snd]. split; [intro H; inversion H; subst; auto; congruence|intros []; apply hr_req_void; auto]. }
    assert (ST : status_of (NReq k i (Some x)) = status_of x) by (cbn [status_of]; unfold req_status; rewrite O, A; reflexivity). rewrite ST.
    split.
    + intro H. inversion H as [| | | | |? ? ? ? ? X|? ? ? ? ? _ [X|X]|? ? ? s r c ? ? _ _ HR HS P EA EM|? ? ? s r c ? ? _ _ HR HS P EA EM| | |]; subst; try congruence; try discriminate.
      * apply (IH x eq_refl) in HR. destruct HR as [p [E [E1 E2]]]. rewrite E. cbn [bind]. eexists. split; [reflexivity|]. apply status_ok in HS. rewrite HS. unfold boosted. apply passing_iff in P. rewrite P. cbn in *. rewrite EA, EM, E1, E2. split; reflexivity.
      * apply (IH x eq_refl) in HR. destruct HR as [p [E [E1 E2]]]. rewrite E. cbn [bind]. eexists. split; [reflexivity|]. apply status_ok in HS. rewrite HS. unfold boosted. destruct (inS s passing_statuses) eqn:PS; [apply passing_iff in PS; contradiction|]. cbn in *. rewrite EA, EM, E1, E2. split; reflexivity.
    + intros [p [E [E1 E2]]]. destruct (rank_of x) as [[r c]|] eqn:R; cbn [bind] in E; [|discriminate]. injection E as <-.
      assert (HR : has_rank x r c) by (apply (IH x eq_refl); exists (r, c); split; auto; split; reflexivity).
      assert (HS : has_status x (status_of x)) by (apply status_ok; reflexivity).
      unfold boosted in E1, E2. destruct (inS (status_of x) passing_statuses) eqn:PS; cbn in E1, E2.
      * eapply hr_req_boost; eauto. apply passing_iff. exact PS.
      * eapply hr_req; eauto. intro P. apply passing_iff in P. congruence.
  - destruct (cond_cases i t f) as [[E F]|[[x [E [-> F]]]|[N EQ]]].
    + rewrite E, <- IHt. split; [|intro; eapply hr_cond; eauto]. intro H; inversion H as [| | | | | | | | |? ? ? ? y ? ? F' U|? ? ? ? ? ? N|]; subst; [rewrite <- (in_force_fun _ _ _ _ _ F' F); auto|destruct (N _ F)].
    + rewrite E, <- (IHf x eq_refl). split; [|intro; eapply hr_cond; eauto]. intro H; inversion H as [| | | | | | | | |? ? ? ? y ? ? F' U|? ? ? ? ? ? N|]; subst; [rewrite <- (in_force_fun _ _ _ _ _ F' F); auto|destruct (N _ F)].
    + rewrite (EQ _ (rank_of t) (rank_of t) _ rank_of), <- ONE. cbn [fst snd]. split; [|intros []; apply hr_cond_none; auto]. intro H; inversion H as [| | | | | | | | |? ? ? ? y ? ? F' U|? ? ? ? ? ? N'|]; subst; [destruct (N _ F')|auto].
  - rewrite <- ONE. cbn [fst snd]. split.
    + intro H; inversion H as [| | | | | | | | | | |? ? ? s ? ? HS A M]; subst. apply status_ok in HS. cbn [status_of] in HS. rewrite HS, status_rank_points. auto.
    + intros [A M]. eapply hr_prof; [apply status_ok; reflexivity| |auto]. cbn [status_of]. rewrite <- status_rank_points. exact A.
Qed.
