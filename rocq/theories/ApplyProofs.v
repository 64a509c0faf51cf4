(** Proofs about the quantities of dp/apply_clause.py. *)
From Coq Require Import List ZArith QArith Bool String Ascii Lia Permutation Arith.
From Verif Require Import Prelude Dec Status Course Exceptions Op Context CondExpr Predicate Transcript Apply Assertion.
From Verif Require Import ListFacts StrFacts TranscriptSpec TranscriptProofs AssertionSpec LimitProofs.
Import ListNotations.
Local Open Scope string_scope.
Local Open Scope list_scope.
Local Open Scope Q_scope.

Lemma how_many_fun {A} (P : A -> Prop) q q' : how_many P q -> how_many P q' -> q == q'.
Proof.
  intros [l [Nl [Il El]]] [m [Nm [Im Em]]]. rewrite El, Em.
  assert (L : List.length l = List.length m).
  { apply Permutation_length, NoDup_Permutation; auto. intro x. rewrite Il, Im. reflexivity. }
  rewrite L. reflexivity.
Qed.
Lemma how_many_ext {A} (P P' : A -> Prop) q : (forall x, P x <-> P' x) -> how_many P q -> how_many P' q.
Proof. intros E [l [N [I L]]]. exists l. repeat split; auto; intro; [apply E, I|apply I, E]; auto. Qed.
Lemma how_many_list {A} (P : A -> Prop) l : NoDup l -> (forall x, In x l <-> P x) -> how_many P (of_nat_Q (List.length l)).
Proof. intros N I. exists l. split; [|split]; auto. unfold of_nat_Q. reflexivity. Qed.

Lemma string_eqb_iff a b : String.eqb a b = true <-> a = b.
Proof. apply String.eqb_eq. Qed.
Lemma seen_in s l : existsb (String.eqb s) l = true <-> In s l.
Proof.
  rewrite existsb_exists. split.
  - intros [x [I E]]. apply String.eqb_eq in E. subst. exact I.
  - intro I. exists s. split; [exact I|apply String.eqb_refl].
Qed.
Lemma seen_not s l : existsb (String.eqb s) l = false <-> ~ In s l.
Proof. rewrite <- seen_in. destruct (existsb _ _); split; congruence. Qed.

(** first_by *)
Lemma first_by_values f cs : forall seen,
  NoDup (map f (first_by f seen cs)) /\
  forall s, In s (map f (first_by f seen cs)) <-> (exists c, In c cs /\ f c = s) /\ ~ In s seen.
Proof.
  induction cs as [|c t IH]; intro seen; cbn [first_by].
  - split; [constructor|]. intro s. simpl. split; [tauto|intros [[c [[] _]] _]].
  - destruct (existsb (String.eqb (f c)) seen) eqn:E.
    + apply seen_in in E. destruct (IH seen) as [N I]. split; auto. intro s. rewrite I. split.
      * intros [[c' [H1 H2]] H3]. split; auto. exists c'. simpl. auto.
      * intros [[c' [[H|H] H2]] H3]; [subst; contradiction|]. split; auto. exists c'. auto.
    + apply seen_not in E. destruct (IH (f c :: seen)) as [N I]. cbn [map]. split.
      * constructor; auto. rewrite I. simpl. tauto.
      * intro s. cbn [In]. rewrite I. split.
        { intros [H|[[c' [H1 H2]] H3]].
          - subst. split; auto. exists c. simpl. auto.
          - split; [exists c'; simpl; auto|]. simpl in H3. tauto. }
        { intros [[c' [[H|H] H2]] H3].
          - subst. auto.
          - destruct (string_dec (f c) s); [auto|]. right. split; [exists c'; auto|]. simpl. tauto. }
Qed.
Lemma first_by_in f cs : forall seen c,
  In c (first_by f seen cs) <-> exists pre post, cs = pre ++ c :: post /\ ~ In (f c) seen /\ forall c', In c' pre -> f c' <> f c.
Proof.
  induction cs as [|x t IH]; intros seen c; cbn [first_by].
  - split; [intros []|]. intros [pre [post [E _]]]. destruct pre; discriminate.
  - destruct (existsb (String.eqb (f x)) seen) eqn:E.
    + apply seen_in in E. rewrite IH. split.
      * intros [pre [post [H1 [H2 H3]]]]. exists (x :: pre), post. rewrite H1. repeat split; auto.
        intros c' [H|H]; [subst; intro F; rewrite <- F in H2; contradiction|auto].
      * intros [pre [post [H1 [H2 H3]]]]. destruct pre as [|y pre]; simpl in H1; injection H1 as -> ->.
        -- contradiction.
        -- exists pre, post. repeat split; auto. intros. apply H3. simpl. auto.
    + apply seen_not in E. cbn [In]. rewrite IH. split.
      * intros [H|[pre [post [H1 [H2 H3]]]]].
        -- subst. exists [], t. repeat split; auto.
        -- exists (x :: pre), post. rewrite H1. repeat split; auto.
           ++ intro F. apply H2. simpl. auto.
           ++ intros c' [H|H]; [subst; intro F; apply H2; simpl; auto|auto].
      * intros [pre [post [H1 [H2 H3]]]]. destruct pre as [|y pre]; simpl in H1; injection H1 as -> ->.
        -- auto.
        -- right. exists pre, post. split; auto. split.
           ++ intros [F|F]; [|contradiction]. apply (H3 y); [simpl; auto|exact F].
           ++ intros. apply H3. simpl. auto.
Qed.

Lemma count_firsts_value f cs : how_many (values_of f cs) (ap_value (count_firsts f cs)).
Proof.
  unfold count_firsts, counted. cbn [ap_value]. rewrite map_length, <- (map_length f).
  destruct (first_by_values f cs []) as [N I]. apply how_many_list; auto. intro s. rewrite I.
  unfold values_of. simpl. tauto.
Qed.
Lemma count_firsts_courses f cs c : In c (ap_courses (count_firsts f cs)) <-> first_with f cs c.
Proof.
  unfold count_firsts, counted. cbn [ap_courses]. rewrite first_by_in. unfold first_with. simpl. firstorder.
Qed.

(** years: str() is injective *)
Lemma zdigits_head f : forall z acc a t, (0 <= z)%Z -> zdigits f z acc = String a t -> f <> O -> exists d, a = digit_ascii d /\ (0 <= d < 10)%Z.
Proof.
  induction f as [|f IH]; intros z acc a t Hz E NF; [contradiction|]. cbn [zdigits] in E.
  destruct (z <? 10)%Z eqn:L.
  - exists (z mod 10)%Z. injection E as E1 E2. split; [auto|]. apply Z.mod_pos_bound. lia.
  - destruct f as [|f].
    + cbn [zdigits] in E. exists (z mod 10)%Z. injection E as E1 E2. split; [auto|]. apply Z.mod_pos_bound. lia.
    + apply IH in E; auto. apply Z.div_pos; lia.
Qed.
Lemma digit_not_minus d : (0 <= d < 10)%Z -> digit_ascii d <> "-"%char.
Proof.
  intro H. assert (C : (d = 0 \/ d = 1 \/ d = 2 \/ d = 3 \/ d = 4 \/ d = 5 \/ d = 6 \/ d = 7 \/ d = 8 \/ d = 9)%Z) by lia.
  repeat destruct C as [C|C]; subst; discriminate.
Qed.
Lemma str_of_Z_inj a b : str_of_Z a = str_of_Z b -> a = b.
Proof.
  assert (P : forall x y, (0 <= x)%Z -> (0 <= y)%Z -> str_of_Z x = str_of_Z y -> x = y).
  { intros x y Hx Hy E. destruct (str_of_Z_digits x Hx) as [A _]. destruct (str_of_Z_digits y Hy) as [B _].
    rewrite E in A. congruence. }
  assert (N : forall x, (x < 0)%Z -> str_of_Z x = String "-"%char (str_of_Z (- x))).
  { intros x Hx. unfold str_of_Z. destruct (Z.ltb_spec x 0); [|lia]. destruct (Z.ltb_spec (- x) 0); [lia|]. reflexivity. }
  assert (M : forall x y, (x < 0)%Z -> (0 <= y)%Z -> str_of_Z x = str_of_Z y -> False).
  { intros x y Hx Hy E. rewrite (N x Hx) in E. symmetry in E. unfold str_of_Z in E at 1.
    destruct (Z.ltb_spec y 0); [lia|]. apply zdigits_head in E; auto. destruct E as [d [Ed Rd]].
    apply (digit_not_minus d Rd). auto. }
  intro E. destruct (Z_lt_le_dec a 0), (Z_lt_le_dec b 0).
  - rewrite (N a), (N b) in E by assumption. injection E as E. apply P in E; lia.
  - exfalso. eauto.
  - exfalso. symmetry in E. eauto.
  - auto.
Qed.

Lemma years_value cs : how_many (values_of c_year cs) (ap_value (count_years cs)).
Proof.
  unfold count_years, count_firsts, counted. cbn [ap_value]. rewrite map_length.
  set (f := fun c => str_of_Z (c_year c)). destruct (first_by_values f cs []) as [N I].
  rewrite <- (map_length c_year). apply how_many_list.
  - apply (NoDup_map_inv str_of_Z). rewrite map_map. exact N.
  - intro y. rewrite in_map_iff. unfold values_of. split.
    + intros [c [E H]]. exists c. split; auto. apply first_by_in in H. destruct H as [pre [post [H _]]]. subst. apply in_or_app. simpl. auto.
    + intros [c [H E]]. specialize (I (str_of_Z y)). rewrite in_map_iff in I. destruct I as [_ I].
      destruct I as [c' [E' H']]; [split; [|intros []]; exists c; unfold f; split; congruence|].
      exists c'. split; auto. apply str_of_Z_inj, E'.
Qed.
Lemma years_courses cs c : In c (ap_courses (count_years cs)) <-> first_with c_year cs c.
Proof.
  unfold count_years. rewrite count_firsts_courses. unfold first_with. split; intros [pre [post [E H]]]; exists pre, post; split; auto; intros c' I.
  - intro F. apply (H c' I). congruence.
  - intro F. apply (H c' I). apply str_of_Z_inj, F.
Qed.

(** subjects *)
Lemma split_subject_iff c s : split_subject c = s <-> discipline c s.
Proof.
  unfold split_subject. destruct (String.eqb_spec (c_subject c) "CH/BI") as [E|E].
  - destruct (String.eqb_spec (c_number c) "125") as [A|A]; [|destruct (String.eqb_spec (c_number c) "126") as [B|B]]; cbn [orb].
    + split; [intros <-; constructor; auto|]. inversion 1; subst; congruence.
    + split; [intros <-; constructor; auto|]. inversion 1; subst; congruence.
    + split; [intros <-; apply ds_bio; auto|]. inversion 1; subst; try congruence. destruct H1; congruence.
  - split; [intros <-; apply ds_own; auto|]. inversion 1; subst; congruence.
Qed.
Lemma subjects_value cs : how_many (disciplines cs) (ap_value (count_subjects cs)).
Proof.
  apply (how_many_ext (values_of split_subject cs)); [|apply count_firsts_value].
  intro s. unfold values_of, disciplines. setoid_rewrite split_subject_iff. reflexivity.
Qed.
Lemma subjects_courses cs c : In c (ap_courses (count_subjects cs)) <-> contributes KSubjects cs c.
Proof.
  unfold count_subjects. rewrite count_firsts_courses. unfold first_with. cbn [contributes]. unfold same_discipline.
  split; intros [pre [post [E H]]]; exists pre, post; split; auto; intros c' I.
  - intros [s [A B]]. apply (H c' I). apply split_subject_iff in A, B. congruence.
  - intro F. apply (H c' I). exists (split_subject c). split; [apply split_subject_iff; auto|apply split_subject_iff; auto].
Qed.

(** attributes *)
Lemma prefix_iff p : forall s, String.prefix p s = true <-> exists r, s = String.append p r.
Proof.
  induction p as [|a p IH]; intro s.
  - split; [intros _; exists s; reflexivity|intros _; destruct s; reflexivity].
  - destruct s as [|b s]; [split; [discriminate|intros [r E]; discriminate]|]. cbn [String.prefix].
    destruct (Ascii.ascii_dec a b) as [->|N].
    + rewrite IH. split; intros [r E]; exists r; [simpl; congruence|simpl in E; congruence].
    + split; [discriminate|]. intros [r E]. simpl in E. congruence.
Qed.
Lemma attributes_value p cs : how_many (attributes_of p cs) (ap_value (count_attributes p cs)).
Proof.
  unfold count_attributes, counted. cbn [ap_value]. rewrite map_length. apply how_many_list.
  - apply dedup_NoDup. apply string_eqb_iff.
  - intro s. rewrite (in_dedup String.eqb string_eqb_iff). rewrite filter_In, in_flat_map. unfold attributes_of, starts_with. rewrite prefix_iff.
    split.
    + intros [[c [H1 H2]] [r E]]. exists c, r. auto.
    + intros [c [r [H1 [H2 E]]]]. split; [exists c; auto|exists r; auto].
Qed.
Lemma attributes_courses p cs c : In c (ap_courses (count_attributes p cs)) <-> exists s, In c cs /\ attributes_of p [c] s.
Proof.
  unfold count_attributes, counted. cbn [ap_courses]. rewrite (in_dedup course_eqb course_eqb_spec), filter_In, existsb_exists.
  unfold attributes_of. split.
  - intros [I [s [A B]]]. apply prefix_iff in B. destruct B as [r B]. exists s. split; auto. exists c, r. simpl. auto.
  - intros [s [I [c' [r [[E|[]] [A B]]]]]]. subst c'. split; auto. exists s. split; auto. apply prefix_iff. exists r. auto.
Qed.

(** sums *)
Lemma has_credits_iff c : has_credits c = true <-> worth c.
Proof.
  unfold has_credits, worth, credits. rewrite negb_true_iff. split.
  - intros E H. apply Qeqb_iff in H. congruence.
  - intro H. destruct (Qeqb _ _) eqn:E; auto. apply Qeqb_iff in E. contradiction.
Qed.
Lemma has_credits_not c : has_credits c = false <-> dval (c_credits c) == 0.
Proof.
  unfold has_credits, credits. rewrite negb_false_iff. apply Qeqb_iff.
Qed.
Lemma credits_of_cons c cs : credits_of (c :: cs) = dval (c_credits c) + credits_of cs.
Proof. reflexivity. Qed.
Lemma sum_worth cs : sum_of (filter has_credits cs) == credits_of cs.
Proof.
  induction cs as [|c t IH]; [reflexivity|]. rewrite credits_of_cons. cbn [filter].
  destruct (has_credits c) eqn:E.
  - change (sum_of (c :: filter has_credits t)) with (credits c + sum_of (filter has_credits t)). rewrite IH. reflexivity.
  - apply has_credits_not in E. rewrite E, IH. ring.
Qed.
Lemma sum_is_credits cs : sum_of cs = credits_of cs.
Proof. reflexivity. Qed.
Lemma filter_filter {A} (f g : A -> bool) l : filter f (filter g l) = filter (fun x => f x && g x) l.
Proof. induction l as [|x t IH]; simpl; auto. destruct (g x) eqn:G; simpl; rewrite IH; destruct (f x); simpl; auto. Qed.
Lemma filter_comm {A} (f g : A -> bool) l : filter f (filter g l) = filter g (filter f l).
Proof. rewrite !filter_filter. apply filter_ext. intro. apply andb_comm. Qed.
Lemma subject_total_is cs s : subject_total (filter has_credits cs) s == credits_in cs s.
Proof. unfold subject_total, credits_in, with_subject. rewrite filter_comm. apply sum_worth. Qed.

Lemma pair_le_iff a b : pair_le a b = true <-> fst a < fst b \/ (fst a == fst b /\ String.compare (snd a) (snd b) <> Gt).
Proof.
  unfold pair_le. rewrite orb_true_iff, andb_true_iff, Qeqb_iff. unfold Qltb. rewrite negb_true_iff.
  assert (L : Qle_bool (fst b) (fst a) = false <-> fst a < fst b).
  { rewrite <- Qleb_false. reflexivity. }
  rewrite L. destruct (String.compare (snd a) (snd b)); split; intros [H|[H1 H2]]; auto; try (right; split; auto; discriminate); try (right; split; congruence); try congruence.
Qed.
Lemma pair_total a b : pair_le a b = true \/ pair_le b a = true.
Proof.
  rewrite !pair_le_iff. destruct (Qlt_le_dec (fst a) (fst b)) as [L|L]; [auto|].
  destruct (Qlt_le_dec (fst b) (fst a)) as [M|M]; [auto|].
  assert (E : fst a == fst b) by (apply Qle_antisym; auto).
  destruct (String.compare (snd a) (snd b)) eqn:C.
  - left. right. split; auto. discriminate.
  - left. right. split; auto. discriminate.
  - right. right. split; [symmetry; auto|]. rewrite String.compare_antisym, C. discriminate.
Qed.
Lemma pair_trans a b c : pair_le a b = true -> pair_le b c = true -> pair_le a c = true.
Proof.
  rewrite !pair_le_iff. intros [H|[H1 H2]] [K|[K1 K2]].
  - left. eapply Qlt_trans; eauto.
  - left. rewrite <- K1. auto.
  - left. rewrite H1. auto.
  - right. split; [rewrite H1; auto|]. eapply str_le_trans; eauto.
Qed.
Lemma max_pair_spec l : forall b, In (max_pair b l) (b :: l) /\ forall e, In e (b :: l) -> pair_le e (max_pair b l) = true.
Proof.
  induction l as [|x t IH]; intro b; cbn [max_pair].
  - split; [simpl; auto|]. intros e [->|[]]. destruct (pair_total e e); auto.
  - destruct (IH (if pair_le x b then b else x)) as [I M]. split.
    + destruct (pair_le x b); simpl in *; tauto.
    + intros e [->|[->|He]].
      * destruct (pair_le x e) eqn:E; [apply M; simpl; auto|].
        eapply pair_trans; [|apply M; simpl; auto]. destruct (pair_total e x); congruence.
      * destruct (pair_le e b) eqn:E; [|apply M; simpl; auto].
        eapply pair_trans; [exact E|]. apply M. simpl; auto.
      * apply M. simpl. auto.
Qed.

Lemma single_subject_spec cs :
  let r := apply_sum_single_subject cs in
  measures KSumSingleSubject cs (ap_value r) /\ forall c, In c (ap_courses r) <-> contributes KSumSingleSubject cs c.
Proof.
  cbv zeta. unfold apply_sum_single_subject.
  assert (IN : forall s, In s (dedup String.eqb (map c_subject (filter has_credits cs))) <-> exists c, In c cs /\ worth c /\ c_subject c = s).
  { intro s. rewrite (in_dedup String.eqb string_eqb_iff), in_map_iff. setoid_rewrite filter_In. setoid_rewrite has_credits_iff. firstorder. }
  destruct (by_credits (filter has_credits cs)) as [|e t] eqn:B.
  - unfold by_credits in B. apply map_eq_nil in B.
    assert (NO : forall c, In c cs -> ~ worth c).
    { intros c I W. assert (In (c_subject c) []) by (rewrite <- B; apply IN; exists c; auto). contradiction. }
    cbn [ap_value ap_courses measures contributes]. split; [left; split; auto; reflexivity|].
    intro c. split; [intros []|]. intros [I [W _]]. apply (NO c I W).
  - destruct (max_pair_spec t e) as [I M]. rewrite <- B in I, M. unfold by_credits in I, M.
    apply in_map_iff in I. destruct I as [s [E I]]. rewrite <- E in *. cbn [snd].
    assert (BEST : best_subject cs s).
    { split; [apply IN; auto|]. intros c Ic W.
      assert (P := M (subject_total (filter has_credits cs) (c_subject c), c_subject c)).
      assert (PI : In (subject_total (filter has_credits cs) (c_subject c), c_subject c)
                     (map (fun s0 => (subject_total (filter has_credits cs) s0, s0)) (dedup String.eqb (map c_subject (filter has_credits cs))))).
      { apply in_map_iff. exists (c_subject c). split; auto. apply IN. exists c. auto. }
      specialize (P PI). rewrite pair_le_iff in P. cbn [fst snd] in P.
      assert (E1 := subject_total_is cs (c_subject c)). assert (E2 := subject_total_is cs s).
      rewrite E1, E2 in P. exact P. }
    assert (UNIQ : forall s', best_subject cs s' -> s' = s).
    { intros s' [[c' [I' [W' S']]] H']. destruct BEST as [[c0 [I0 [W0 S0]]] H0].
      specialize (H' c0 I0 W0). specialize (H0 c' I' W'). rewrite S0 in H'. rewrite S' in H0.
      destruct H0 as [H0|[H0 C0]].
      - destruct H' as [H'|[H' _]]; [exfalso; apply (Qlt_irrefl (credits_in cs s)); eapply Qlt_trans; eauto|].
        exfalso. rewrite H' in H0. apply (Qlt_irrefl _ H0).
      - destruct H' as [H'|[_ C']]; [exfalso; rewrite H0 in H'; apply (Qlt_irrefl _ H')|].
        destruct (String.compare s' s) eqn:C; [apply str_compare_eq; auto| |congruence].
        rewrite String.compare_antisym, C in C'. simpl in C'. congruence. }
    assert (F : forall c, (s =? c_subject c) = (c_subject c =? s)) by (intro; apply String.eqb_sym).
    cbn [ap_value ap_courses]. split.
    + right. exists s. split; auto. rewrite (filter_ext _ _ F), <- (subject_total_is cs s). reflexivity.
    + intro c. cbn [contributes]. rewrite !filter_In, has_credits_iff, String.eqb_eq. split.
      * intros [[H1 H2] H3]. subst. auto.
      * intros [H1 [H2 H3]]. apply UNIQ in H3. auto.
Qed.

(** averages *)
Lemma credits_pos_len (l : list course) : l <> [] -> ~ of_nat_Q (List.length l) == 0.
Proof.
  intro N. unfold of_nat_Q, Qeq. simpl. destruct l; [congruence|]. simpl. lia.
Qed.
Lemma average_credits_spec cs second :
  let r := average_credits cs second in
  measures KAvgCredits cs (ap_value r) /\ forall c, In c (ap_courses r) <-> In c second /\ worth c.
Proof.
  cbv zeta. unfold average_credits. cbn [ap_value ap_courses measures]. split.
  - exists (filter has_credits cs). split; [intro c; rewrite filter_In, has_credits_iff; reflexivity|].
    split; [eauto|]. destruct (filter has_credits cs) as [|x t] eqn:E; [left; split; reflexivity|].
    right. split; [discriminate|]. rewrite <- E. assert (NZ : filter has_credits cs <> []) by (rewrite E; discriminate).
    rewrite sum_is_credits. apply credits_pos_len in NZ. unfold of_nat_Q in *. field. exact NZ.
  - intro c. rewrite filter_In, has_credits_iff. reflexivity.
Qed.

(** most common label *)
Lemma dedup_app_one l x : dedup String.eqb (l ++ [x]) = dedup String.eqb l ++ (if in_dec string_dec x l then [] else [x]).
Proof.
  induction l as [|y t IH]; [reflexivity|]. cbn [app dedup]. rewrite IH, filter_app. cbn [app]. f_equal. f_equal.
  destruct (in_dec string_dec x t) as [I|I].
  - destruct (in_dec string_dec x (y :: t)) as [J|J]; [reflexivity|]. exfalso. apply J. simpl. auto.
  - cbn [filter]. destruct (in_dec string_dec x (y :: t)) as [J|J], (String.eqb_spec y x) as [E|E]; try reflexivity.
    + exfalso. destruct J; auto.
    + exfalso. apply J. simpl. auto.
Qed.
Lemma tally_in n ks k : NoDup ks -> In k ks ->
  tally (map (fun s => (s, n s)) ks) k = map (fun s => (s, if string_dec s k then S (n s) else n s)) ks.
Proof.
  induction ks as [|x t IH]; intros N I; [destruct I|]. inversion N; subst. cbn [map tally].
  destruct (String.eqb_spec k x) as [->|NE].
  - destruct (string_dec x x); [|congruence]. f_equal. apply map_ext_in. intros s Hs.
    destruct (string_dec s x); [subst; contradiction|reflexivity].
  - destruct (string_dec x k); [congruence|]. f_equal. apply IH; auto. destruct I; [congruence|auto].
Qed.
Lemma tally_new n ks k : ~ In k ks -> tally (map (fun s => (s, n s)) ks) k = map (fun s => (s, n s)) ks ++ [(k, 1%nat)].
Proof.
  induction ks as [|x t IH]; intro I; [reflexivity|]. cbn [map tally app].
  destruct (String.eqb_spec k x) as [->|NE]; [exfalso; apply I; simpl; auto|]. rewrite IH; [reflexivity|]. simpl in I. tauto.
Qed.
Lemma counter_is f cs : counter f cs = map (fun s => (s, occurrences f cs s)) (dedup String.eqb (map f cs)).
Proof.
  induction cs as [|c cs IH] using rev_ind; [reflexivity|].
  unfold counter in *. rewrite fold_left_app. cbn [fold_left]. rewrite IH, map_app. cbn [map]. rewrite dedup_app_one, map_app.
  assert (OC : forall s, occurrences f (cs ++ [c]) s = if string_dec s (f c) then S (occurrences f cs s) else occurrences f cs s).
  { intro s. unfold occurrences. rewrite map_app, count_occ_app. cbn [map count_occ].
    destruct (string_dec (f c) s), (string_dec s (f c)); try congruence; lia. }
  destruct (in_dec string_dec (f c) (map f cs)) as [I|I].
  - rewrite tally_in; [|apply dedup_NoDup, string_eqb_iff|apply in_dedup; [apply string_eqb_iff|auto]].
    rewrite app_nil_r. apply map_ext. intro s. rewrite OC. reflexivity.
  - rewrite tally_new; [|rewrite (in_dedup String.eqb string_eqb_iff); auto]. f_equal.
    + apply map_ext_in. intros s Hs. rewrite OC. destruct (string_dec s (f c)); auto.
      subst. rewrite (in_dedup String.eqb string_eqb_iff) in Hs. contradiction.
    + cbn [map]. rewrite OC. destruct (string_dec (f c) (f c)); [|congruence]. repeat f_equal.
      unfold occurrences. rewrite (proj1 (count_occ_not_In string_dec (map f cs) (f c)) I). reflexivity.
Qed.
Lemma first_max_spec t : forall e, exists pre post, e :: t = pre ++ first_max e t :: post /\
  (forall x, In x pre -> (snd x < snd (first_max e t))%nat) /\ (forall x, In x post -> (snd x <= snd (first_max e t))%nat).
Proof.
  induction t as [|y t IH]; intro e; cbn [first_max].
  - exists [], []. repeat split; intros ? [].
  - destruct (Nat.ltb_spec (snd e) (snd y)) as [L|L].
    + destruct (IH y) as [pre [post [E [H1 H2]]]]. exists (e :: pre), post. rewrite E. split; [reflexivity|]. split; auto.
      intros x [<-|I]; [|auto]. assert (snd y <= snd (first_max y t))%nat; [|lia].
      assert (I : In y (pre ++ first_max y t :: post)) by (rewrite <- E; simpl; auto).
      apply in_app_or in I. destruct I as [I|[I|I]]; [apply H1 in I; lia|rewrite I; lia|auto].
    + destruct (IH e) as [pre [post [E [H1 H2]]]]. destruct pre as [|z pre]; simpl in E.
      * injection E as E1 E2. exists [], (y :: post). rewrite <- E1. subst t. split; [reflexivity|]. split; [intros ? []|].
        intros x [<-|I]; [lia|]. rewrite E1. auto.
      * injection E as <- E2. exists (e :: y :: pre), post. rewrite E2 at 1. split; [reflexivity|]. split; [|auto].
        intros x [<-|[<-|I]]; [apply H1; simpl; auto| |apply H1; simpl; auto].
        assert (snd e < snd (first_max e t))%nat by (apply H1; simpl; auto). lia.
Qed.
Lemma filter_app_inv {A} (g : A -> bool) l : forall a s b, filter g l = a ++ s :: b ->
  exists a' b', l = a' ++ s :: b' /\ filter g a' = a /\ filter g b' = b.
Proof.
  induction l as [|x t IH]; intros a s b E; cbn [filter] in E; [destruct a; discriminate|].
  destruct (g x) eqn:G.
  - destruct a as [|y a]; simpl in E; injection E as -> E.
    + exists [], t. auto.
    + destruct (IH a s b E) as [a' [b' [H1 [H2 H3]]]]. exists (y :: a'), b'. subst. cbn [filter app]. rewrite G. auto.
  - destruct (IH a s b E) as [a' [b' [H1 [H2 H3]]]]. exists (x :: a'), b'. subst. cbn [filter app]. rewrite G. auto.
Qed.
Lemma dedup_split l : forall kp s kq, dedup String.eqb l = kp ++ s :: kq ->
  exists p q, l = p ++ s :: q /\ forall x, In x p -> In x kp.
Proof.
  induction l as [|x t IH]; intros kp s kq E; cbn [dedup] in E; [destruct kp; discriminate|].
  destruct kp as [|y kp]; cbn [app] in E; injection E as -> E.
  - exists [], t. split; [reflexivity|intros ? []].
  - apply filter_app_inv in E. destruct E as [a [b [E1 [E2 E3]]]].
    destruct (IH _ _ _ E1) as [p [q [H1 H2]]]. exists (y :: p), q. split; [rewrite H1; reflexivity|].
    intros z [<-|I]; [simpl; auto|]. destruct (string_dec y z); [simpl; auto|]. right. rewrite <- E2. apply filter_In.
    split; [auto|]. apply negb_true_iff. apply String.eqb_neq. auto.
Qed.
Lemma two_splits {A} (p : list A) : forall p' (c c' : A) q q', p ++ c :: q = p' ++ c' :: q' ->
  In c p' \/ In c' p \/ c = c'.
Proof.
  induction p as [|x p IH]; intros p' c c' q q' E; destruct p' as [|x' p']; simpl in E; injection E as E1 E2; subst; simpl; auto.
  destruct (IH _ _ _ _ _ E2) as [H|[H|H]]; auto.
Qed.
Lemma most_common_unique f cs s s' : most_common f cs s -> most_common f cs s' -> s = s'.
Proof.
  intros [p [c [q [E [S [H1 H2]]]]]] [p' [c' [q' [E' [S' [H1' H2']]]]]].
  assert (LE : (occurrences f cs s' <= occurrences f cs s)%nat).
  { assert (I : In c' (p ++ c :: q)) by (rewrite <- E, E'; apply in_or_app; simpl; auto).
    rewrite <- S'. apply in_app_or in I. destruct I as [I|[I|I]]; [apply H1 in I; lia|subst; lia|auto]. }
  assert (GE : (occurrences f cs s <= occurrences f cs s')%nat).
  { assert (I : In c (p' ++ c' :: q')) by (rewrite <- E', E; apply in_or_app; simpl; auto).
    rewrite <- S. apply in_app_or in I. destruct I as [I|[I|I]]; [apply H1' in I; lia|subst; lia|auto]. }
  rewrite E in E'. destruct (two_splits _ _ _ _ _ _ E') as [I|[I|I]]; [| |congruence].
  - apply H1' in I. rewrite S in I. lia.
  - apply H1 in I. rewrite S' in I. lia.
Qed.
Lemma count_most_common_spec f cs :
  let r := count_most_common f cs cs in
  measures_most_common f cs (ap_value r) /\ forall c, In c (ap_courses r) <-> In c cs /\ most_common f cs (f c).
Proof.
  cbv zeta. unfold count_most_common. rewrite counter_is.
  destruct (map (fun s => (s, occurrences f cs s)) (dedup String.eqb (map f cs))) as [|e t] eqn:M.
  - apply map_eq_nil in M. destruct cs as [|c cs]; [|discriminate]. split; [left; split; reflexivity|].
    intro c. cbn [counted ap_courses]. simpl. tauto.
  - destruct (first_max_spec t e) as [kp [kq [E [H1 H2]]]]. rewrite <- M in E.
    apply map_eq_app in E. destruct E as [a [b [E1 [E2 E3]]]]. apply map_eq_cons in E3. destruct E3 as [s [b' [E3 [E4 E5]]]].
    subst b. rewrite <- E4 in *. cbn [fst snd] in *.
    destruct (dedup_split _ _ _ _ E1) as [p [q [S1 S2]]].
    apply map_eq_app in S1. destruct S1 as [pre [r [R1 [R2 R3]]]]. apply map_eq_cons in R3. destruct R3 as [c [post [R3 [R4 R5]]]]. subst r.
    assert (KEY : forall x, In x (map f cs) -> In x a \/ x = s \/ In x b').
    { intros x I. rewrite <- (in_dedup String.eqb string_eqb_iff), E1 in I. apply in_app_or in I. simpl in I. destruct I as [I|[I|I]]; auto. }
    assert (A : forall x, In x a -> (occurrences f cs x < occurrences f cs s)%nat).
    { intros x I. apply (H1 (x, occurrences f cs x)). rewrite <- E2. apply in_map_iff. eauto. }
    assert (B : forall x, In x b' -> (occurrences f cs x <= occurrences f cs s)%nat).
    { intros x I. apply (H2 (x, occurrences f cs x)). rewrite <- E5. apply in_map_iff. eauto. }
    assert (MC : most_common f cs s).
    { exists pre, c, post. repeat split; auto.
      - intros c' I. apply A, S2. rewrite <- R2. apply in_map. auto.
      - intros c' I. destruct (KEY (f c')) as [K|[K|K]].
        + apply in_map. rewrite R1. apply in_or_app. simpl. auto.
        + apply A in K. lia.
        + rewrite K. lia.
        + auto. }
    split.
    + right. exists s. split; auto. unfold counted. cbn [ap_value]. rewrite map_length. apply how_many_list.
      * apply dedup_NoDup, string_eqb_iff.
      * intro x. rewrite (in_dedup String.eqb string_eqb_iff), in_map_iff. setoid_rewrite filter_In. setoid_rewrite String.eqb_eq.
        unfold terms_of_label. firstorder.
    + intro x. unfold counted. cbn [ap_courses]. rewrite filter_In, String.eqb_eq. split.
      * intros [I <-]. auto.
      * intros [I MC']. split; auto. eapply most_common_unique; eauto.
Qed.

Lemma apply_spec k cs r : apply_courses k cs cs = Ok r ->
  measures k cs (ap_value r) /\ forall c, In c (ap_courses r) <-> contributes k cs c.
Proof.
  destruct k; cbn [apply_courses]; intro E; try discriminate; injection E as <-.
  - split.
    + unfold count_courses, counted. cbn [ap_value measures]. rewrite map_length. apply how_many_list; [apply dedup_NoDup, course_eqb_spec|].
      intro c. apply in_dedup, course_eqb_spec.
    + intro c. unfold count_courses, counted. cbn [ap_courses contributes]. apply in_dedup, course_eqb_spec.
  - split; [apply count_firsts_value|apply count_firsts_courses].
  - apply (count_most_common_spec c_crsid).
  - apply (count_most_common_spec label).
  - split; [apply attributes_value|apply attributes_courses].
  - split; [apply attributes_value|apply attributes_courses].
  - split; [apply attributes_value|apply attributes_courses].
  - split; [apply subjects_value|apply subjects_courses].
  - split; [apply count_firsts_value|apply count_firsts_courses].
  - split; [apply years_value|apply years_courses].
  - cbn [apply_sum_credits ap_value ap_courses measures contributes]. split; [apply sum_worth|].
    intro c. unfold apply_sum_credits. cbn [ap_courses]. rewrite filter_In, has_credits_iff. reflexivity.
  - apply single_subject_spec.
  - unfold average_grades. cbn [ap_value ap_courses measures contributes]. split.
    + cbv zeta. destruct (Qeq_dec (credits_of (filter c_in_gpa cs)) 0) as [Z|N].
      * left. split; auto. unfold grade_point_average, gpa_items.
        change (Qsum (map (fun c => dval (c_credits c)) (filter c_in_gpa cs))) with (credits_of (filter c_in_gpa cs)).
        cbv zeta. assert (Q0 : Qeqb (credits_of (filter c_in_gpa cs)) 0 = true) by (apply Qeqb_iff; auto). rewrite Q0. reflexivity.
      * right. split; auto. unfold grade_point_average, gpa_items.
        change (Qsum (map (fun c => dval (c_credits c)) (filter c_in_gpa cs))) with (credits_of (filter c_in_gpa cs)).
        change (Qsum (map (fun c => dval (c_gpa_points c)) (filter c_in_gpa cs))) with (points_of (filter c_in_gpa cs)).
        cbv zeta. destruct (Qeqb (credits_of (filter c_in_gpa cs)) 0) eqn:Q0; [apply Qeqb_iff in Q0; contradiction|].
        eexists. split; [|reflexivity]. eapply cut_ext; [|apply trunc2_cut]. apply Qred_correct.
    + intro c. unfold gpa_items. rewrite filter_In. reflexivity.
  - apply average_credits_spec.
Qed.

Lemma filter_decides {A} (f g : A -> bool) l : (forall x, In x l -> (f x = true <-> g x = true)) -> filter f l = filter g l.
Proof. intro H. apply filter_ext_in. intros x I. specialize (H x I). destruct (f x), (g x); intuition congruence. Qed.
Lemma best_subject_unique cs s s' : best_subject cs s -> best_subject cs s' -> s = s'.
Proof.
  intros [[c0 [I0 [W0 S0]]] H0] [[c' [I' [W' S']]] H'].
  specialize (H' c0 I0 W0). specialize (H0 c' I' W'). rewrite S0 in H'. rewrite S' in H0.
  destruct H0 as [H0|[H0 C0]].
  - destruct H' as [H'|[H' _]]; [exfalso; apply (Qlt_irrefl (credits_in cs s)); eapply Qlt_trans; eauto|].
    exfalso. rewrite H' in H0. apply (Qlt_irrefl _ H0).
  - destruct H' as [H'|[_ C']]; [exfalso; rewrite H0 in H'; apply (Qlt_irrefl _ H')|].
    destruct (String.compare s s') eqn:C; [apply str_compare_eq; auto| |congruence].
    rewrite String.compare_antisym, C in C0. simpl in C0. congruence.
Qed.
Lemma measures_fun k cs q q' : measures k cs q -> measures k cs q' -> q == q'.
Proof.
  assert (MC : forall f, measures_most_common f cs q -> measures_most_common f cs q' -> q == q').
  { intros f [[E H]|[s [M H]]] [[E' H']|[s' [M' H']]].
    - rewrite H, H'. reflexivity.
    - subst. destruct M' as [p [c [r [E _]]]]. destruct p; discriminate.
    - subst. destruct M as [p [c [r [E _]]]]. destruct p; discriminate.
    - rewrite (most_common_unique _ _ _ _ M M') in H. eapply how_many_fun; eauto. }
  destruct k; cbn [measures]; try tauto; try apply how_many_fun; try apply MC.
  - intros -> ->. reflexivity.
  - intros [[N E]|[s [B E]]] [[N' E']|[s' [B' E']]].
    + rewrite E, E'. reflexivity.
    + exfalso. destruct B' as [[c [I [W _]]] _]. apply (N c I W).
    + exfalso. destruct B as [[c [I [W _]]] _]. apply (N' c I W).
    + rewrite (best_subject_unique _ _ _ B B') in E. rewrite E, E'. reflexivity.
  - cbv zeta. intros [[Z E]|[N [d [C E]]]] [[Z' E']|[N' [d' [C' E']]]]; try contradiction.
    + rewrite E, E'. reflexivity.
    + rewrite E, E', (cut_unique _ _ _ C C'). reflexivity.
  - intros [l [I [[f F] H]]] [l' [I' [[f' F'] H']]].
    assert (E : l = l').
    { rewrite F, F'. apply filter_decides. intros x Hx. specialize (I x). specialize (I' x). rewrite F, filter_In in I. rewrite F', filter_In in I'. tauto. }
    subst l'. rewrite E in H. destruct H as [[N H]|[N H]], H' as [[N' H']|[N' H']]; try congruence.
    + rewrite H, H'. reflexivity.
    + rewrite <- E in H, N. assert (NZ := credits_pos_len l N). unfold of_nat_Q in NZ. rewrite <- E in H'.
      rewrite <- H' in H. apply Qmult_inj_r in H; auto.
Qed.

Lemma credits_perm a b : Permutation a b -> credits_of a == credits_of b.
Proof. intro P. apply (Qsum_perm _ _ (Permutation_map (fun c => dval (c_credits c)) P)). Qed.
Lemma points_perm a b : Permutation a b -> points_of a == points_of b.
Proof. intro P. apply (Qsum_perm _ _ (Permutation_map (fun c => dval (c_gpa_points c)) P)). Qed.
Lemma filter_perm {A} (f : A -> bool) a b : Permutation a b -> Permutation (filter f a) (filter f b).
Proof.
  induction 1; simpl; auto.
  - destruct (f x); auto.
  - destruct (f x), (f y); auto. constructor.
  - etransitivity; eauto.
Qed.
Lemma measures_perm k a b q : ~ twice_read k -> Permutation a b -> measures k a q -> measures k b q.
Proof.
  intros T P. assert (IN : forall c, In c a <-> In c b) by (intro c; split; apply Permutation_in; [|symmetry]; auto).
  assert (V : forall (A : Type) (f : course -> A) x, values_of f a x <-> values_of f b x).
  { intros A f x. unfold values_of. setoid_rewrite IN. reflexivity. }
  assert (AT : forall p x, attributes_of p a x <-> attributes_of p b x).
  { intros p x. unfold attributes_of. setoid_rewrite IN. reflexivity. }
  destruct k; cbn [measures]; try (apply how_many_ext; auto); try tauto.
  - exfalso. apply T. left. reflexivity.
  - exfalso. apply T. right. reflexivity.
  - intro x. unfold disciplines. setoid_rewrite IN. reflexivity.
  - intros ->. apply credits_perm, P.
  - assert (CI : forall s, credits_in a s == credits_in b s) by (intro s; apply credits_perm, filter_perm, P).
    intros [[N E]|[s [[[c [I W]] H] E]]].
    + left. split; auto. intros c I. apply N, IN, I.
    + right. exists s. split.
      * split; [exists c; split; [apply IN|]; auto|]. intros c' I' W'. rewrite <- !CI. apply H; auto. apply IN, I'.
      * rewrite E. apply CI.
  - cbv zeta. assert (PF := filter_perm c_in_gpa _ _ P). rewrite (credits_perm _ _ PF).
    intros [H|[N [d [C E]]]]; [auto|]. right. split; auto. exists d. split; auto.
    eapply cut_ext; [|exact C]. rewrite (credits_perm _ _ PF), (points_perm _ _ PF). reflexivity.
  - intros [l [I [[f F] H]]]. exists (filter f b). subst l. assert (PF := filter_perm f _ _ P). split; [|split].
    + intro c. rewrite <- IN, <- I. split; apply Permutation_in; [symmetry|]; auto.
    + eauto.
    + rewrite <- (credits_perm _ _ PF), <- (Permutation_length PF). destruct H as [[N H]|[N H]]; [left|right]; split; auto.
      * rewrite N in PF. apply Permutation_nil in PF. auto.
      * intro E. apply N. rewrite E in PF. apply Permutation_nil. symmetry. auto.
Qed.

(** leaving out courses in progress that do not contribute *)
Lemma finished_in c cs : In c (finished cs) <-> In c cs /\ c_in_progress c = false.
Proof. unfold finished. rewrite filter_In, negb_true_iff. reflexivity. Qed.
Lemma first_exists f cs : forall c, In c cs -> exists c', first_with f cs c' /\ f c' = (f c : string).
Proof.
  intros c I. destruct (first_by_values f cs []) as [_ V]. specialize (V (f c)). destruct V as [_ V].
  assert (J : In (f c) (map f (first_by f [] cs))) by (apply V; split; [eauto|intros []]).
  apply in_map_iff in J. destruct J as [c' [E J]]. exists c'. split; auto. apply count_firsts_courses. exact J.
Qed.
Lemma first_in {A} (f : course -> A) cs c : first_with f cs c -> In c cs.
Proof. intros [p [q [-> _]]]. apply in_or_app. simpl. auto. Qed.
Lemma values_finished {A} (f : course -> A) cs : (forall c, In c cs -> exists c', In c' cs /\ c_in_progress c' = false /\ f c' = f c) ->
  forall x, values_of f cs x <-> values_of f (finished cs) x.
Proof.
  intros H x. unfold values_of. setoid_rewrite finished_in. split.
  - intros [c [I E]]. destruct (H c I) as [c' [I' [P E']]]. exists c'. repeat split; auto. congruence.
  - intros [c [[I _] E]]. eauto.
Qed.
Lemma credits_finished cs : (forall c, In c cs -> worth c -> c_in_progress c = false) -> credits_of (finished cs) == credits_of cs.
Proof.
  induction cs as [|c t IH]; intro H; [reflexivity|]. unfold finished in *. cbn [filter]. rewrite credits_of_cons.
  assert (IHt := IH (fun x I => H x (or_intror I))).
  destruct (c_in_progress c) eqn:E; cbn [negb].
  - rewrite IHt. assert (Z : dval (c_credits c) == 0).
    { destruct (Qeq_dec (dval (c_credits c)) 0) as [Z|N]; auto. exfalso. assert (c_in_progress c = false) by (apply H; simpl; auto). congruence. }
    rewrite Z. ring.
  - rewrite credits_of_cons, IHt. reflexivity.
Qed.
Lemma credits_finished_le cs : (forall c, In c cs -> 0 <= dval (c_credits c)) -> credits_of (finished cs) <= credits_of cs.
Proof.
  induction cs as [|c t IH]; intro H; [apply Qle_refl|]. unfold finished in *. cbn [filter]. rewrite credits_of_cons.
  assert (IHt := IH (fun x I => H x (or_intror I))). assert (P : 0 <= dval (c_credits c)) by (apply H; simpl; auto).
  destruct (c_in_progress c); cbn [negb].
  - rewrite <- (Qplus_0_l (credits_of _)) at 1. apply Qplus_le_compat; auto.
  - rewrite credits_of_cons. apply Qplus_le_compat; auto. apply Qle_refl.
Qed.
Lemma finished_subject cs s : with_subject (finished cs) s = finished (with_subject cs s).
Proof. unfold with_subject, finished. apply filter_comm. Qed.

Lemma measures_finished k cs q : ~ twice_read k ->
  (k = KSumSingleSubject -> forall c, In c cs -> 0 <= dval (c_credits c)) ->
  (forall c, contributes k cs c -> c_in_progress c = false) ->
  measures k cs q -> measures k (finished cs) q.
Proof.
  intros T NN C.
  assert (FIRST : forall f : course -> string, (forall c, first_with f cs c -> c_in_progress c = false) ->
    forall c, In c cs -> exists c', In c' cs /\ c_in_progress c' = false /\ f c' = f c).
  { intros f F c I. destruct (first_exists f cs c I) as [c' [F' E]]. exists c'. split; [eapply first_in; eauto|]. split; auto. }
  assert (AT : forall p, (forall c, (exists s, In c cs /\ attributes_of p [c] s) -> c_in_progress c = false) ->
    forall x, attributes_of p cs x <-> attributes_of p (finished cs) x).
  { intros p H x. unfold attributes_of. setoid_rewrite finished_in. split.
    - intros [c [r [I [A E]]]]. exists c, r. repeat split; auto. apply H. exists x. split; auto. exists c, r. simpl. auto.
    - intros [c [r [[I _] [A E]]]]. eauto. }
  destruct k; cbn [measures contributes] in *; try tauto.
  - intro H. eapply how_many_ext; [|exact H]. intro c. cbv beta. rewrite finished_in. intuition.
  - apply how_many_ext, values_finished, FIRST, C.
  - exfalso. apply T. left. reflexivity.
  - exfalso. apply T. right. reflexivity.
  - apply how_many_ext, AT, C.
  - apply how_many_ext, AT, C.
  - apply how_many_ext, AT, C.
  - apply how_many_ext. intro s. unfold disciplines. setoid_rewrite finished_in. split.
    + intros [c [I D]]. destruct (first_exists split_subject cs c I) as [c' [F E]]. exists c'. repeat split.
      * eapply first_in; eauto.
      * apply C. apply subjects_courses. apply count_firsts_courses. exact F.
      * apply split_subject_iff in D. apply split_subject_iff. congruence.
    + intros [c [[I _] D]]. eauto.
  - apply how_many_ext, values_finished, FIRST, C.
  - apply how_many_ext, values_finished. intros c I.
    destruct (first_exists (fun c => str_of_Z (c_year c)) cs c I) as [c' [F E]]. exists c'. repeat split.
    + eapply first_in; eauto.
    + apply C, years_courses, count_firsts_courses, F.
    + apply str_of_Z_inj, E.
  - intros ->. symmetry. apply credits_finished. intros. apply C. auto.
  - intros [[N E]|[s [B E]]].
    + left. split; auto. intros c I. apply finished_in in I. apply N. tauto.
    + right. exists s. specialize (NN eq_refl).
      assert (EQ : credits_in (finished cs) s == credits_in cs s).
      { unfold credits_in. rewrite finished_subject. apply credits_finished. intros c I W.
        unfold with_subject in I. apply filter_In in I. destruct I as [I S]. apply String.eqb_eq in S. apply C. subst s. auto. }
      split; [|rewrite E, EQ; reflexivity]. split.
      * destruct B as [[c [I [W S]]] H] eqn:EB. exists c. rewrite finished_in. repeat split; auto. apply C. rewrite S. auto.
      * intros c I W. apply finished_in in I. destruct I as [I P].
        assert (LE : credits_in (finished cs) (c_subject c) <= credits_in cs (c_subject c)).
        { unfold credits_in. rewrite finished_subject. apply credits_finished_le. intros x Hx.
          unfold with_subject in Hx. apply filter_In in Hx. apply NN. tauto. }
        destruct B as [_ H]. rewrite EQ. destruct (H c I W) as [L|[L SC]].
        -- left. eapply Qle_lt_trans; eauto.
        -- rewrite L in LE. apply Qle_lteq in LE. destruct LE; auto.
  - cbv zeta. assert (F : filter c_in_gpa (finished cs) = filter c_in_gpa cs).
    { unfold finished. rewrite filter_filter. apply filter_decides. intros x I. specialize (C x).
      rewrite andb_true_iff, negb_true_iff. intuition. }
    rewrite F. auto.
  - intros [l [I [[f F] H]]]. exists l. split; [|split; [|exact H]].
    + intro c. rewrite I, finished_in. specialize (C c). intuition.
    + exists f. rewrite F. unfold finished. rewrite filter_filter. apply filter_decides. intros x Hx.
      rewrite andb_true_iff, negb_true_iff. split; [|tauto]. intro Fx. split; auto. apply C. apply I. rewrite F. apply filter_In. auto.
Qed.

Lemma second_irrelevant k d s1 s2 r1 r2 : ~ twice_read k -> apply_courses k d s1 = Ok r1 -> apply_courses k d s2 = Ok r2 ->
  ap_value r1 = ap_value r2.
Proof.
  intros T E1 E2. destruct k; cbn [apply_courses] in E1, E2; try discriminate; injection E1 as <-; injection E2 as <-; try reflexivity;
    exfalso; apply T; [left|right]; reflexivity.
Qed.
Lemma apply_total k d s : In k course_actions -> exists r, apply_courses k d s = Ok r.
Proof. intro H. destruct k; cbn [apply_courses]; eauto; simpl in H; intuition discriminate. Qed.
Lemma apply_action k d s r : apply_courses k d s = Ok r -> In k course_actions.
Proof. intro H. destruct k; cbn [apply_courses] in H; try discriminate; simpl; tauto. Qed.
