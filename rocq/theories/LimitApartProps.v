(** Property theorems about limits on courses and credits together (C176): the selections are
    exactly known when no class under a credit limit is under another limit as well. *)
From Coq Require Import List ZArith QArith Bool String Lia Lqa Sorted Permutation.
From Verif Require Import Prelude Dec Course Op Context Predicate LazyProduct LazyRun Claims Limit.
From Verif Require Import EnumSpec EnumProofs ListFacts StrFacts LimitSpec LimitProofs LimitProps LimitLoadProps.
Import ListNotations.
Local Open Scope list_scope.
Local Open Scope Q_scope.

(** the classes under a limit *)
Definition under (F : list string) (l : limit) (cs : list course) (c : course) : Prop := In c cs /\ ~ forced F c /\ matches l c.
(** Amounts make sense, no limit is listed twice, each can be asked of each class, no class under
    a credit limit is under another limit, and each of them is worth something. *)
Record limits_apart (F : list string) (ls : list limit) (cs : list course) : Prop := {
  la_some : ls <> [];
  la_distinct : distinct ls;
  la_amounts : forall l, In l ls -> whole_courses l \/ lm_what l = Credits /\ 0 <= dval (lm_at_most l);
  la_decided : forall l c, In l ls -> In c cs -> ~ forced F c -> decided l c;
  la_apart : forall l l' c, In l ls -> In l' ls -> lm_what l = Credits -> under F l cs c -> under F l' cs c -> l' = l;
  la_worth : forall l c, In l ls -> lm_what l = Credits -> under F l cs c -> 0 < dval (c_credits c) }.
(** all classes under the limit fit into it *)
Definition all_fit (F : list string) (l : limit) (cs : list course) : Prop :=
  exists s, NoDup s /\ (forall c, In c s <-> under F l cs c) /\ total_credits s <= dval (lm_at_most l).
(** what a selection has to satisfy: if all classes under a credit limit fit, all of them are
    selected *)
Record selection (F : list string) (ls : list limit) (cs v : list course) : Prop := {
  se_from : forall c, In c v -> In c cs;
  se_rest : forall c, In c cs -> ~ removable F ls c -> In c v;
  se_courses : forall l, In l ls -> lm_what l = Courses -> count (restricted F l v) <= dval (lm_at_most l);
  se_credits : forall l, In l ls -> lm_what l = Credits -> total_credits (restricted F l v) <= dval (lm_at_most l);
  se_all : forall l, In l ls -> lm_what l = Credits -> all_fit F l cs -> forall c, under F l cs c -> In c v }.

Lemma fewer_apart F ls cs cs' : (forall c, In c cs -> In c cs') -> limits_apart F ls cs' -> limits_apart F ls cs.
Proof.
  intros IN [A B C D G H]. assert (U : forall l c, under F l cs c -> under F l cs' c) by (intros l c [I K]; split; [apply IN, I|exact K]).
  constructor; auto; [intros l l' c L L' W U1 U2; apply (G l l' c); auto|intros l c L W U1; apply (H l c); auto].
Qed.
Lemma filter_whole {A} (f : A -> bool) l : (forall x, In x l -> f x = true) -> filter f l = l.
Proof. induction l as [|x l IH]; intro H; [reflexivity|]. cbn [filter]. rewrite (H x (or_introl eq_refl)), IH; [reflexivity|]. intros y I. apply H. simpl. auto. Qed.
Definition kept (F : list string) (ls : list limit) (c : course) : bool :=
  existsb (String.eqb (c_clbid c)) F || negb (existsb (fun l => match apply_pred (ICourse c) (lm_where l) with Ok b => b | Err _ => false end) ls).
Lemma kept_iff F ls c : kept F ls c = true <-> ~ removable F ls c.
Proof.
  unfold kept, removable, forced. rewrite orb_true_iff, negb_true_iff. split.
  - intros [H|H] [NF [l [L M]]].
    + apply existsb_exists in H. destruct H as [k [I E]]. apply String.eqb_eq in E. subst. contradiction.
    + assert (X : existsb (fun l => match apply_pred (ICourse c) (lm_where l) with Ok b => b | Err _ => false end) ls = true) by (apply existsb_exists; exists l; split; [exact L|]; unfold matches in M; rewrite M; reflexivity). congruence.
  - intro H. destruct (existsb (String.eqb (c_clbid c)) F) eqn:X; [auto|]. right. destruct (existsb (fun l => match apply_pred (ICourse c) (lm_where l) with Ok b => b | Err _ => false end) ls) eqn:Y; [|reflexivity].
    exfalso. apply H. split.
    + intro I. assert (existsb (String.eqb (c_clbid c)) F = true) by (apply existsb_exists; exists (c_clbid c); split; [exact I|apply String.eqb_refl]). congruence.
    + apply existsb_exists in Y. destruct Y as [l [L M]]. exists l. split; [exact L|]. unfold matches. destruct (apply_pred _ _) as [b|]; [subst; reflexivity|discriminate].
Qed.
Lemma kept_rev F ls c : kept F ls c = false -> removable F ls c.
Proof.
  unfold kept. intro K. apply orb_false_iff in K. destruct K as [K1 K2]. apply negb_false_iff in K2. apply existsb_exists in K2. destruct K2 as [l [L M]]. split.
  - intro I. assert (X : existsb (String.eqb (c_clbid c)) F = true) by (apply existsb_exists; exists (c_clbid c); split; [exact I|apply String.eqb_refl]). congruence.
  - exists l. split; [exact L|]. unfold matches. destruct (apply_pred _ _) as [b|]; [subst; reflexivity|discriminate].
Qed.
Lemma kept_dec F ls c : removable F ls c \/ ~ removable F ls c.
Proof. destruct (kept F ls c) eqn:K; [right; apply kept_iff; exact K|left; apply kept_rev; exact K]. Qed.
Lemma whole_nonneg l : whole_courses l -> 0 <= lm_max l.
Proof. intros [_ [k K]]. unfold lm_max. rewrite K. change 0 with (inject_Z 0). rewrite <- Zle_Qle. lia. Qed.
Lemma amount_nonneg F ls cs l : limits_apart F ls cs -> In l ls -> 0 <= lm_max l.
Proof. intros LA L. destruct (la_amounts _ _ _ LA l L) as [W|[_ P]]; [apply whole_nonneg, W|exact P]. Qed.

Lemma iterate_credits_complete l s combo : lm_what l = Credits -> subseq combo (isort course_leb s) ->
  sum_credits combo <= lm_max l -> (sum_credits (isort course_leb s) <= lm_max l -> combo = isort course_leb s) -> In combo (iterate l s).
Proof.
  intros W SS B ALL. unfold iterate. rewrite W. unfold iterate_credits. destruct (Qleb (sum_credits (isort course_leb s)) (lm_max l)) eqn:E.
  - apply Qleb_iff in E. rewrite (ALL E). simpl. auto.
  - apply filter_In. split; [|apply Qleb_iff; exact B]. apply in_flat_map. exists (List.length combo). split; [|apply in_combs; split; [exact SS|reflexivity]].
    apply in_seq. apply subseq_length in SS. lia.
Qed.
Lemma iterate_some l s : 0 <= lm_max l -> iterate l s <> [].
Proof.
  intros P E. destruct (lm_what l) eqn:W.
  - assert (H : In [] (iterate l s)) by (apply iterate_courses_complete; [exact W|exact P|apply subseq_nil_l|unfold count; simpl; exact P]). rewrite E in H. destruct H.
  - unfold iterate in E. rewrite W in E. unfold iterate_credits in E. destruct (Qleb _ _); [discriminate|].
    assert (H : In [] (filter (fun combo => Qleb (sum_credits combo) (lm_max l)) (flat_map (fun n => combs n (isort course_leb s)) (nrange 0 (List.length (isort course_leb s) + 1))))).
    { apply filter_In. split; [|apply Qleb_iff; exact P]. apply in_flat_map. exists 0%nat. split; [|apply in_combs; split; [apply subseq_nil_l|reflexivity]].
      apply in_seq. lia. }
    rewrite E in H. destruct H.
Qed.
Lemma limited_emit ord ls F cs : limits_apart F ls cs ->
  exists matched, matched_ok ls F cs matched /\
    limited_transcripts ord ls F cs = emit ord ls (unmatched_of cs matched) (product (map (fun p => iterate (fst p) (snd p)) matched)) [].
Proof.
  intro LA. assert (CO := distinct_coherent ls (la_distinct _ _ _ LA)). unfold limited_transcripts. destruct ls as [|l0 ls'] eqn:L; [destruct (la_some _ _ _ LA); reflexivity|]. rewrite <- L in *. fold (the_forced F cs).
  destruct (probe_total (the_forced F cs) ls cs) with (d := @nil (limit * list course)) as [matched P].
  { intros l c Hl Hc NF. apply (la_decided _ _ _ LA); auto. rewrite <- (the_forced_iff F cs c Hc). exact NF. }
  rewrite P. assert (MO := probe_matched ls F cs CO matched P). exists matched. split; [exact MO|]. fold (unmatched_of cs matched).
  replace (map (fun p => gret (iterate (fst p) (snd p))) matched) with (map gret (map (fun p => iterate (fst p) (snd p)) matched)) by (rewrite map_map; reflexivity).
  rewrite lazy_run_pure.
  assert (existsb (fun l : list (list course) => match l with [] => true | _ => false end) (map (fun p => iterate (fst p) (snd p)) matched) = false) as ->.
  { apply not_true_is_false. intro X. apply existsb_exists in X as (it & H & E). apply in_map_iff in H as ((l, s) & <- & I). simpl in E.
    destruct MO as (S & _). destruct (S l s I) as (Hl & _). assert (H := iterate_some l s (amount_nonneg _ _ _ l LA Hl)).
    destruct (iterate l s); [congruence|discriminate]. }
  cbn [g_exn g_items gret]. apply gapp_nil_r.
Qed.
Lemma total_perm a b : Permutation a b -> total_credits a == total_credits b.
Proof. intro P. unfold total_credits. change (Qsum (map credits a) == Qsum (map credits b)). apply Qsum_perm, Permutation_map, P. Qed.
(** the selected classes under one limit are among its combinations *)
Lemma picked F ls cs matched S l s : limits_apart F ls cs -> matched_ok ls F cs matched -> selection F ls cs S -> NoDup S -> In (l, s) matched ->
  In (filter (fun c => memb course_eqb c S) (isort course_leb s)) (iterate l s).
Proof.
  intros LA MO SE NS I. destruct MO as (MS & _). destruct (MS l s I) as (Hl & Ns & IS).
  set (pick := filter (fun c => memb course_eqb c S) (isort course_leb s)).
  assert (PI : forall c, In c pick <-> In c (restricted F l S)).
  { intro c. unfold pick. rewrite filter_In, in_isort, (memb_In course_eqb course_eqb_spec), IS, in_restricted. assert (X := se_from _ _ _ _ SE c). tauto. }
  assert (PP : Permutation pick (restricted F l S)).
  { apply NoDup_Permutation; [apply NoDup_filter, isort_NoDup, Ns|apply NoDup_filter, NS|exact PI]. }
  destruct (lm_what l) eqn:W.
  - apply iterate_courses_complete; [exact W|eapply amount_nonneg; eassumption|apply subseq_filter|]. rewrite (count_perm _ _ PP). apply (se_courses _ _ _ _ SE l Hl W).
  - apply iterate_credits_complete; [exact W|apply subseq_filter| |].
    + change (total_credits pick <= dval (lm_at_most l)). rewrite (total_perm _ _ PP). apply (se_credits _ _ _ _ SE l Hl W).
    + intro B. assert (AF : all_fit F l cs).
      { exists (isort course_leb s). split; [apply isort_NoDup, Ns|]. split; [|exact B]. intro c. rewrite in_isort. apply IS. }
      assert (ALL := se_all _ _ _ _ SE l Hl W AF). unfold pick. apply filter_whole. intros c J. apply (memb_In course_eqb course_eqb_spec). apply ALL. apply IS. rewrite in_isort in J. exact J.
Qed.
Lemma load_matched_nonneg l cs : (forall c, In c cs -> matches l c -> 0 <= weight l c) -> 0 <= load l cs.
Proof.
  induction cs as [|c cs IH]; intro H; [unfold load; simpl; lra|]. rewrite load_cons.
  assert (0 <= load l cs) by (apply IH; intros; apply H; simpl; auto). destruct (lm_match l c) as [[]|] eqn:M; [|lra|lra].
  assert (0 <= weight l c) by (apply H; [simpl; auto|exact M]). lra.
Qed.
Lemma check_passes ls cs : distinct ls -> (forall l c, In l ls -> In c cs -> exists b, lm_match l c = Ok b) ->
  (forall l c, In l ls -> In c cs -> matches l c -> 0 < weight l c) -> (forall l, In l ls -> load l cs <= lm_max l) -> check ls cs = Ok true.
Proof.
  intros D T P B. apply check_from_complete; [exact D|exact T|]. intros l pre c post L E M. change (count_of [] l) with 0.
  specialize (B l L). rewrite E, load_app, load_cons in B. unfold matches in M. change (lm_match l c = Ok true) in M. rewrite M in B.
  assert (0 < weight l c) by (apply P; [exact L|rewrite E; apply in_or_app; simpl; auto|exact M]).
  assert (0 <= load l post) by (apply load_matched_nonneg; intros x I N; apply Qlt_le_weak, P; [exact L|rewrite E; apply in_or_app; simpl; auto|exact N]). lra.
Qed.
Lemma weight_worth F ls cs l c : limits_apart F ls cs -> In l ls -> under F l cs c -> 0 < weight l c.
Proof. intros LA L U. unfold weight. destruct (lm_what l) eqn:W; [reflexivity|]. apply (la_worth _ _ _ LA l c L W U). Qed.
Lemma selections_are_tried ord ls F cs s : set_order ord -> limits_apart F ls cs -> NoDup s -> selection F ls cs s ->
  exists v, In v (g_items (limited_transcripts ord ls F cs)) /\ same_set v s.
Proof.
  intros O LA NS SE. destruct (limited_emit ord ls F cs LA) as (matched & MO & ->). assert (T := la_decided _ _ _ LA).
  assert (TC : forall r, In r (product (map (fun p => iterate (fst p) (snd p)) matched)) -> exists b, check ls (ord (these_of r)) = Ok b).
  { intros r Hr. apply check_from_total. apply (check_decided ord ls F cs matched r O T MO). apply product_chosen. exact Hr. }
  destruct (emit_complete ord ls (unmatched_of cs matched) _ TC []) as [_ H].
  set (r := map (fun p : limit * list course => filter (fun c => memb course_eqb c s) (isort course_leb (snd p))) matched).
  assert (C : chosen matched r).
  { unfold chosen, r. assert (G : forall m, (forall p, In p m -> In p matched) -> Forall2 (fun combo p => In combo (iterate (fst p) (snd p))) (map (fun p : limit * list course => filter (fun c => memb course_eqb c s) (isort course_leb (snd p))) m) m); [|apply G; auto].
    induction m as [|[l x] m IH]; simpl; intro Sub; constructor; [|apply IH; intros; apply Sub; auto]. cbn [fst snd]. eapply picked; eauto. }
  assert (TH : forall c, In c (these_of r) <-> In c s /\ removable F ls c).
  { intro c. rewrite in_these. split.
    - intros (combo & Hc & Ic). unfold r in Hc. apply in_map_iff in Hc as ((l, x) & <- & I). cbn [snd] in Ic. apply filter_In in Ic as [Ic M]. apply (memb_In course_eqb course_eqb_spec) in M.
      rewrite in_isort in Ic. destruct MO as (MS & _). destruct (MS l x I) as (Hl & _ & IS). apply IS in Ic. destruct Ic as (_ & NF & Hm). split; [exact M|]. split; [exact NF|]. eauto.
    - intros [Ic [NF (l & Hl & Hm)]]. assert (MO' := MO). destruct MO' as (MS & MC & _). assert (J := se_from _ _ _ _ SE c Ic). destruct (MC l c Hl J NF Hm) as (x & I). destruct (MS l x I) as (_ & _ & IS).
      exists (filter (fun c => memb course_eqb c s) (isort course_leb x)). split; [unfold r; apply in_map_iff; exists (l, x); auto|]. apply filter_In. split; [rewrite in_isort; apply IS; auto|apply (memb_In course_eqb course_eqb_spec); exact Ic]. }
  assert (REM : forall c, In c (ord (these_of r)) -> In c cs /\ removable F ls c).
  { intros c I. rewrite (perm_in ord O) in I. apply TH in I. destruct I as [I R]. split; [apply (se_from _ _ _ _ SE), I|exact R]. }
  assert (CH : check ls (ord (these_of r)) = Ok true).
  { apply check_passes; [apply (la_distinct _ _ _ LA)|apply (check_decided ord ls F cs matched r O T MO C)| |].
    - intros l c L I M. apply (weight_worth F ls cs l c LA L). destruct (REM c I) as [J [NF _]]. split; [exact J|]. split; [exact NF|exact M].
    - intros l L. rewrite (restricted_load ls F l _ L (fun c I => proj2 (REM c I))).
      assert (PP : Permutation (restricted F l (ord (these_of r))) (restricted F l s)).
      { apply NoDup_Permutation.
        - apply NoDup_filter. apply (Permutation_NoDup (l := these_of r)); [symmetry; apply O|apply these_NoDup].
        - apply NoDup_filter. exact NS.
        - intro c. rewrite !in_restricted, (perm_in ord O), TH. unfold removable. split; [tauto|]. intros (A & B & D). split; [|auto]. split; [exact A|]. split; [exact B|]. eauto. }
      rewrite (Qsum_perm _ _ (Permutation_map (weight l) PP)). destruct (lm_what l) eqn:W.
      + rewrite (restricted_weight_count l _ W). apply (se_courses _ _ _ _ SE l L W).
      + rewrite (restricted_weight_credits l _ W). apply (se_credits _ _ _ _ SE l L W). }
  destruct (H r (proj2 (product_chosen matched r) C) CH) as [(x & [] & _)|(r' & Hr' & SS' & I)].
  exists (variant ord (unmatched_of cs matched) (these_of r')). split; [exact I|]. intro c.
  rewrite (in_variant ord O ls F cs matched r' c MO), <- (SS' c), TH. split.
  - intros [[A B]|[A _]]; [apply (se_rest _ _ _ _ SE); assumption|exact A].
  - intro A. destruct (kept_dec F ls c) as [R|R]; [right; auto|left; split; [apply (se_from _ _ _ _ SE), A|exact R]].
Qed.
Lemma chosen_at matched r l s : chosen matched r -> In (l, s) matched -> exists combo, In combo r /\ In combo (iterate l s).
Proof.
  intro C. induction C as [|x p r matched H C IH]; intro I; [destruct I|]. destruct I as [->|I]; [exists x; simpl; auto|]. destruct (IH I) as (combo & A & B). exists combo. simpl. auto.
Qed.
Lemma tried_selections_hold ord ls F cs v : set_order ord -> limits_apart F ls cs -> In v (g_items (limited_transcripts ord ls F cs)) -> selection F ls cs v.
Proof.
  intros O LA I. assert (CO := distinct_coherent ls (la_distinct _ _ _ LA)). assert (NE := la_some _ _ _ LA).
  destruct (variant_shape ord O ls F cs NE CO v I) as (N & _ & SUB & K). constructor; auto.
  - intros l L W. destruct (la_amounts _ _ _ LA l L) as [[_ (k & E)]|[X _]]; [|congruence]. assert (H := at_most_k_courses ord ls F cs l v k O CO L W E I). rewrite E. unfold count. rewrite <- Zle_Qle. lia.
  - intros l L W. apply (credit_limits_hold_partial ord ls F cs l v O CO L W); [apply (amount_nonneg _ _ _ _ LA L)| |exact I].
    intros l' c L' D J M M'. destruct (in_dec string_dec (c_clbid c) F) as [X|X]; [exact X|]. exfalso. apply D. apply (la_apart _ _ _ LA l l' c L L' W); split; auto.
  - intros l L W (t & Nt & It & Bt) c U. apply limited_items in I as (matched & r & MO & C & _ & ->); auto. apply (in_variant ord O ls F cs matched r c MO). right.
    assert (MO' := MO). destruct MO' as (MS & MC & _). destruct U as (J & NF & M). destruct (MC l c L J NF M) as (s & IS). destruct (MS l s IS) as (_ & Ns & IN).
    destruct (chosen_at matched r l s C IS) as (combo & A & B). apply in_these. exists combo. split; [exact A|].
    unfold iterate in B. rewrite W in B. unfold iterate_credits in B.
    assert (X : Qleb (sum_credits (isort course_leb s)) (lm_max l) = true).
    { apply Qleb_iff. change (total_credits (isort course_leb s) <= dval (lm_at_most l)). rewrite (total_perm (isort course_leb s) t); [exact Bt|].
      apply NoDup_Permutation; [apply isort_NoDup, Ns|exact Nt|]. intro x. rewrite in_isort, It. apply IN. }
    rewrite X in B. destruct B as [<-|[]]. rewrite in_isort. apply IN. auto.
Qed.
(** The selections that are tried are exactly these, each once. *)
Theorem selections_under_limits_apart_exact : forall ord ls F cs s, set_order ord -> limits_apart F ls cs -> NoDup s ->
  ((exists v, In v (g_items (limited_transcripts ord ls F cs)) /\ same_set v s) <-> selection F ls cs s).
Proof.
  intros ord ls F cs s O LA NS. split; [|apply selections_are_tried; assumption].
  intros (v & V & E). assert (CO := distinct_coherent ls (la_distinct _ _ _ LA)).
  destruct (variant_shape ord O ls F cs (la_some _ _ _ LA) CO v V) as (N & _ & _ & _).
  assert (P : Permutation v s) by (apply NoDup_Permutation; assumption).
  destruct (tried_selections_hold ord ls F cs v O LA V) as [A B C D G]. constructor.
  - intros c I. apply A, E, I.
  - intros c I R. apply E, B; assumption.
  - intros l L W. rewrite <- (count_perm _ _ (restricted_perm F l _ _ P)). apply C; assumption.
  - intros l L W. rewrite <- (total_perm _ _ (restricted_perm F l _ _ P)). apply D; assumption.
  - intros l L W AF c U. apply E. eapply G; eassumption.
Qed.
Print Assumptions selections_under_limits_apart_exact.

(** ** Completing a choice to a selection *)
Definition fits (F : list string) (l : limit) (cs : list course) : bool := Qleb (total_credits (restricted F l (dedup course_eqb cs))) (lm_max l).
Lemma under_restricted F l cs c : In c (restricted F l (dedup course_eqb cs)) <-> under F l cs c.
Proof. rewrite in_restricted, (in_dedup course_eqb course_eqb_spec). reflexivity. Qed.
Lemma fits_iff F l cs : fits F l cs = true <-> all_fit F l cs.
Proof.
  unfold fits. rewrite Qleb_iff. assert (N : NoDup (restricted F l (dedup course_eqb cs))) by (apply NoDup_filter, dedup_NoDup, course_eqb_spec). split.
  - intro H. exists (restricted F l (dedup course_eqb cs)). split; [exact N|]. split; [apply under_restricted|exact H].
  - intros (s & Ns & E & B). unfold lm_max. rewrite (total_perm (restricted F l (dedup course_eqb cs)) s); [exact B|]. apply NoDup_Permutation; [exact N|exact Ns|]. intro c. rewrite E. apply under_restricted.
Qed.
Definition is_credits (l : limit) : bool := match lm_what l with Credits => true | Courses => false end.
(** what no limit may remove, the choice, and all under the credit limits into which all fits *)
Definition completed (F : list string) (ls : list limit) (cs t : list course) : list course :=
  filter (fun c => kept F ls c || memb course_eqb c t || existsb (fun l => is_credits l && fits F l cs && memb course_eqb c (restricted F l (dedup course_eqb cs))) ls) (dedup course_eqb cs).
Lemma completed_in F ls cs t c : In c (completed F ls cs t) <->
  In c cs /\ (~ removable F ls c \/ In c t \/ exists l, In l ls /\ lm_what l = Credits /\ all_fit F l cs /\ under F l cs c).
Proof.
  unfold completed. rewrite filter_In, (in_dedup course_eqb course_eqb_spec), !orb_true_iff, kept_iff, (memb_In course_eqb course_eqb_spec), existsb_exists.
  assert (X : (exists l, In l ls /\ is_credits l && fits F l cs && memb course_eqb c (restricted F l (dedup course_eqb cs)) = true) <-> (exists l, In l ls /\ lm_what l = Credits /\ all_fit F l cs /\ under F l cs c)).
  { split; intros (l & L & H); exists l; (split; [exact L|]); rewrite ?andb_true_iff, ?fits_iff, ?(memb_In course_eqb course_eqb_spec), ?under_restricted in *; unfold is_credits in *.
    - destruct H as [[A B] C]. destruct (lm_what l); [discriminate|]. auto.
    - destruct H as (A & B & C). rewrite A. auto. }
  rewrite X. tauto.
Qed.
Lemma completed_selection F ls cs t : limits_apart F ls cs -> NoDup t -> (forall c, In c t -> In c cs) ->
  (forall l, In l ls -> lm_what l = Courses -> count (restricted F l t) <= dval (lm_at_most l)) ->
  (forall l, In l ls -> lm_what l = Credits -> total_credits (restricted F l t) <= dval (lm_at_most l)) ->
  selection F ls cs (completed F ls cs t) /\ NoDup (completed F ls cs t) /\ (forall c, In c t -> In c (completed F ls cs t)).
Proof.
  intros LA NT IN BC BR. assert (N : NoDup (completed F ls cs t)) by (apply NoDup_filter, dedup_NoDup, course_eqb_spec).
  split; [|split; [exact N|]]; [|intros c I; apply completed_in; auto].
  constructor.
  - intros c I. apply completed_in in I. tauto.
  - intros c I R. apply completed_in. auto.
  - intros l L W. apply Qle_trans with (count (restricted F l t)); [|apply BC; assumption]. unfold count. rewrite <- Zle_Qle. apply Nat2Z.inj_le. apply NoDup_incl_length; [apply NoDup_filter, N|].
    intros c I. apply in_restricted in I. destruct I as (I & NF & M). apply in_restricted. split; [|auto]. apply completed_in in I. destruct I as (I & [R|[T|(l' & L' & W' & _ & U')]]); [|exact T|].
    + exfalso. apply R. split; [exact NF|]. eauto.
    + exfalso. assert (E := la_apart _ _ _ LA l' l c L' L W' U' (conj I (conj NF M))). congruence.
  - intros l L W. destruct (fits F l cs) eqn:FI.
    + assert (AF := proj1 (fits_iff F l cs) FI). destruct AF as (s & Ns & E & B). rewrite (total_perm (restricted F l (completed F ls cs t)) s); [exact B|].
      apply NoDup_Permutation; [apply NoDup_filter, N|exact Ns|]. intro c. rewrite E, in_restricted, completed_in. unfold under. split; [tauto|]. intros (A & B' & C). split; [|auto]. split; [exact A|]. right. right. exists l. split; [exact L|]. split; [exact W|]. split; [apply fits_iff, FI|]. split; auto.
    + rewrite (total_perm (restricted F l (completed F ls cs t)) (restricted F l t)); [apply BR; assumption|].
      apply NoDup_Permutation; [apply NoDup_filter, N|apply NoDup_filter, NT|]. intro c. rewrite !in_restricted, completed_in. split.
      * intros ((I & [R|[T|(l' & L' & W' & AF & U')]]) & NF & M); [exfalso; apply R; split; [exact NF|eauto]|auto|].
        exfalso. assert (E := la_apart _ _ _ LA l' l c L' L W' U' (conj I (conj NF M))). subst l'. apply fits_iff in AF. congruence.
      * intros (T & NF & M). auto.
  - intros l L W AF c U. apply completed_in. split; [apply U|]. right. right. exists l. auto.
Qed.

(** There is always something to try. *)
Theorem some_selection_is_tried : forall ord ls F cs, set_order ord -> limits_apart F ls cs -> g_items (limited_transcripts ord ls F cs) <> [].
Proof.
  intros ord ls F cs O LA E. destruct (completed_selection F ls cs [] LA) as (SE & N & _); [constructor|intros c []| | |].
  - intros l L W. apply (amount_nonneg F ls cs l LA L).
  - intros l L W. apply (amount_nonneg F ls cs l LA L).
  - destruct (selections_are_tried ord ls F cs _ O LA N SE) as (v & V & _). rewrite E in V. destruct V.
Qed.
Print Assumptions some_selection_is_tried.

(** What is sorted without repetition is in the same order as any sorted list of more. *)
Lemma sorted_part_in_order (l : list course) : StronglySorted before l -> NoDup l ->
  (forall c d, In c l -> In d l -> c_clbid c = c_clbid d -> c = d) ->
  forall v, StronglySorted before v -> NoDup v -> (forall c, In c v -> In c l) -> subseq v l.
Proof.
  induction l as [|x l IH]; intros SL NL ID v SV NV IN.
  - destruct v as [|y v]; [constructor|]. destruct (IN y (or_introl eq_refl)).
  - inversion SL as [|? ? SL' FL]; subst. inversion NL as [|? ? NX NL']; subst. rewrite Forall_forall in FL.
    assert (ID' : forall c d, In c l -> In d l -> c_clbid c = c_clbid d -> c = d) by (intros; apply ID; simpl; auto).
    destruct v as [|y v]; [apply ss_drop; apply IH; auto; intros c []|]. inversion SV as [|? ? SV' FV]; subst. inversion NV as [|? ? NY NV']; subst. rewrite Forall_forall in FV.
    destruct (IN y (or_introl eq_refl)) as [<-|IY].
    + apply ss_keep. apply IH; auto. intros c I. destruct (IN c (or_intror I)) as [<-|J]; [contradiction|exact J].
    + apply ss_drop. apply IH; auto. intros c I. destruct (IN c I) as [<-|J]; [|exact J]. destruct I as [<-|I]; [exact IY|].
      exfalso. assert (E : c_clbid x = c_clbid y) by (apply course_antisym; apply course_leb_iff; [apply FL; exact IY|apply FV; exact I]).
      assert (EQ : x = y) by (apply ID; simpl; auto). subst. contradiction.
Qed.
Lemma subseq_both {A} (a b : list A) : subseq a b -> List.length a = List.length b -> a = b.
Proof.
  induction 1 as [|x s l S IH|x s l S IH]; intro E; [reflexivity|f_equal; apply IH; simpl in E; lia|]. apply subseq_length in S. simpl in E. lia.
Qed.
(** The order in which python lists a set does not matter. *)
Theorem set_order_does_not_matter_apart : forall ord1 ord2 ls F cs v, set_order ord1 -> set_order ord2 -> limits_apart F ls cs ->
  (forall c d, In c cs -> In d cs -> c_clbid c = c_clbid d -> c = d) ->
  (In v (g_items (limited_transcripts ord1 ls F cs)) <-> In v (g_items (limited_transcripts ord2 ls F cs))).
Proof.
  assert (G : forall ord1 ord2 ls F cs v, set_order ord1 -> set_order ord2 -> limits_apart F ls cs ->
    (forall c d, In c cs -> In d cs -> c_clbid c = c_clbid d -> c = d) ->
    In v (g_items (limited_transcripts ord1 ls F cs)) -> In v (g_items (limited_transcripts ord2 ls F cs))).
  { intros ord1 ord2 ls F cs v O1 O2 LA ID I. assert (CO := distinct_coherent ls (la_distinct _ _ _ LA)). assert (NE := la_some _ _ _ LA).
    destruct (variant_shape ord1 O1 ls F cs NE CO v I) as (N & S & SUB & _).
    destruct (selections_are_tried ord2 ls F cs v O2 LA N (tried_selections_hold ord1 ls F cs v O1 LA I)) as (w & J & E).
    destruct (variant_shape ord2 O2 ls F cs NE CO w J) as (N' & S' & SUB' & _).
    assert (v = w); [|subst; exact J]. apply subseq_both.
    - apply sorted_part_in_order; auto. intros c K. apply E, K.
    - apply Permutation_length. apply NoDup_Permutation; auto. intro c. symmetry. apply E. }
  intros; split; apply G; assumption.
Qed.
Print Assumptions set_order_does_not_matter_apart.

(** At most one credit of CSCI and one course of MATH. With two CSCI courses at most one of them
    is selected; with one it is always selected, while the MATH course may be left out. *)
Definition apart_limits : list limit := [credit_limit 0 1 (of_subject "CSCI"); course_limit 1 1 (of_subject "MATH")].
Example limits_apart_example :
  set_order (fun l => l) /\ limits_apart [] apart_limits [csci1; csci2; math1] /\ limits_apart [] apart_limits [csci1; math1] /\
  map (map c_clbid) (g_items (limited_transcripts (fun l => l) apart_limits [] [csci1; csci2; math1])) = [[]; ["4"]; ["1"]; ["1"; "4"]; ["2"]; ["2"; "4"]]%string /\
  map (map c_clbid) (g_items (limited_transcripts (fun l => l) apart_limits [] [csci1; math1])) = [["1"]; ["1"; "4"]]%string.
Proof.
  assert (LA : forall cs, (forall c, In c cs -> In c [csci1; csci2; math1]) -> limits_apart [] apart_limits cs).
  { intros cs IN. constructor.
    - discriminate.
    - repeat constructor; simpl; intuition congruence.
    - intros l [<-|[<-|[]]]; [right; split; [reflexivity|vm_compute; discriminate]|left; split; [reflexivity|exists 1%nat; reflexivity]].
    - intros l c [<-|[<-|[]]] I _; destruct (IN c I) as [<-|[<-|[<-|[]]]]; eexists; vm_compute; reflexivity.
    - intros l l' c [<-|[<-|[]]] [<-|[<-|[]]] W [I [_ M]] [_ [_ M']]; try reflexivity; try discriminate. destruct (IN c I) as [<-|[<-|[<-|[]]]]; vm_compute in M, M'; discriminate.
    - intros l c [<-|[<-|[]]] W [I [_ M]]; try discriminate. destruct (IN c I) as [<-|[<-|[<-|[]]]]; vm_compute; reflexivity. }
  split; [intro; reflexivity|]. split; [apply LA; auto|]. split; [apply LA; intros c [<-|[<-|[]]]; simpl; auto|]. split; vm_compute; reflexivity.
Qed.
(** A class worth no credits can take all selections away: when the limit is reached nothing more
    is let through, and as all fits nothing less is tried. *)
Theorem some_selection_is_tried_refuted : exists ord l cs, set_order ord /\ lm_what l = Credits /\ 0 < dval (lm_at_most l) /\
  NoDup (map c_clbid cs) /\ (forall c, In c cs -> decided l c) /\ all_fit [] l cs /\
  g_items (limited_transcripts ord [l] [] cs) = [] /\ g_exn (limited_transcripts ord [l] [] cs) = None.
Proof.
  exists (fun l => l), (credit_limit 0 1 (of_subject "CSCI")), [csci1; csci3].
  split; [intro; reflexivity|]. split; [reflexivity|]. split; [reflexivity|]. split; [repeat constructor; simpl; intuition congruence|].
  split; [intros c [<-|[<-|[]]]; eexists; vm_compute; reflexivity|].
  split; [apply fits_iff; vm_compute; reflexivity|]. vm_compute. auto.
Qed.
Print Assumptions some_selection_is_tried_refuted.
