(** C171-C173: copying results into the testbed and looking at them; asking what if. *)
From Coq Require Import List ZArith QArith Bool String Ascii Lia Permutation.
From Verif Require Import Prelude Dec Paths StrFacts ListFacts Catalog CatalogProps Testbed TestbedProps Server ServerSpec ServerProofs ServerHist ServerActive ServerProps Fetch FetchSpec.
Import ListNotations.
Local Open Scope string_scope.
Local Infix "+++" := (@app _) (at level 61, right associativity).

(** ** C172 *)

Lemma asked_iff latest run answer sel : asked_run latest run answer = Ok sel <-> selection latest run answer sel.
Proof.
  unfold asked_run. destruct latest.
  - split; [intro H; injection H as <-; constructor; reflexivity|]. intro H. inversion H; subst; congruence.
  - split.
    + destruct run as [[|p|p]|]; [destruct answer as [n|]; [|discriminate]| | |destruct answer as [n|]; [|discriminate]]; intro H; injection H as <-;
        [apply sel_answer; auto|apply sel_run; [reflexivity|reflexivity|discriminate]|apply sel_run; [reflexivity|reflexivity|discriminate]|apply sel_answer; auto].
    + intro H. inversion H as [E|n _ R N|n _ [R|R] A]; subst; [discriminate|destruct n; [congruence|reflexivity|reflexivity]|reflexivity|reflexivity].
Qed.
Lemma wanted_iff sel r : wanted sel r = true <-> belongs sel r.
Proof.
  unfold wanted, belongs, of_run. destruct (m_result r) as [x|]; [|split; [discriminate|intros [H _]; congruence]]. assert (N : Some x <> None) by discriminate.
  destruct sel; [rewrite Z.eqb_eq|]; tauto.
Qed.
Lemma copy_iff r l : copy_of r = Some l <-> same_row r l.
Proof.
  unfold copy_of, same_row. split.
  - destruct (m_result r), (m_input r), (m_rest r); try discriminate. intro H. injection H as <-. auto.
  - intros (A & B & -> & -> & ->). f_equal. destruct l; cbn in *; congruence.
Qed.
Lemma taken_key t k : existsb (fun x => tkey_eqb (l_key x) k) t = true <-> In k (map l_key t).
Proof.
  rewrite existsb_exists, in_map_iff. split; intros (x & A & B); exists x; [apply tkey_eqb_iff in B|rewrite tkey_eqb_iff]; auto.
Qed.
Lemma insert_exact sel rows : forall t t', unique_keys t ->
  (insert_all t (filter (wanted sel) rows) = Ok t' <-> exists new, copies sel rows new /\ unique_keys (t +++ new) /\ t' = (t +++ new)%list).
Proof.
  induction rows as [|r rows IH]; intros t t' U; cbn [filter].
  - cbn [insert_all]. split.
    + intro H. injection H as <-. exists []. rewrite app_nil_r. split; [constructor|auto].
    + intros (new & C & _ & ->). inversion C. rewrite app_nil_r. reflexivity.
  - destruct (wanted sel r) eqn:W.
    + assert (B := proj1 (wanted_iff _ _) W). cbn [insert_all]. destruct (copy_of r) as [l|] eqn:CO.
      2:{ split; [discriminate|]. intros (new & C & _). inversion C as [|r0 rs l ls _ S _|r0 rs ls NB _]; subst; [apply copy_iff in S; congruence|contradiction]. }
      assert (S := proj1 (copy_iff _ _) CO). assert (KL : l_key l = m_key r) by apply S.
      destruct (existsb (fun x => tkey_eqb (l_key x) (m_key r)) t) eqn:E.
      * apply taken_key in E. split; [discriminate|]. intros (new & C & N & _). exfalso. inversion C as [|r0 rs l' ls _ S' C'|r0 rs ls NB _]; subst; [|contradiction].
        unfold unique_keys in N. rewrite map_app in N. cbn [map] in N. apply NoDup_remove_2 in N. apply N. apply in_or_app. left. destruct S' as [-> _]. exact E.
      * assert (NI : ~ In (l_key l) (map l_key t)) by (rewrite KL; intro J; apply taken_key in J; congruence).
        assert (U' : unique_keys (t +++ [l])).
        { unfold unique_keys. rewrite map_app. cbn [map]. apply (Permutation_NoDup (l := l_key l :: map l_key t)); [apply Permutation_cons_append|]. constructor; [exact NI|exact U]. }
        rewrite (IH _ _ U'). split.
        -- intros (new & C & N & ->). exists (l :: new). rewrite <- app_assoc in N |- *. split; [constructor; auto|]. auto.
        -- intros (new & C & N & ->). inversion C as [|r0 rs l' ls _ S' C'|r0 rs ls NB _]; subst; [|contradiction]. apply copy_iff in S'. assert (l' = l) by congruence. subst l'.
           exists ls. rewrite <- app_assoc. auto.
    + assert (B : ~ belongs sel r) by (rewrite <- wanted_iff; congruence). rewrite (IH t t' U). split; intros (new & C & N & ->); exists new.
      * split; [apply cp_no; auto|auto].
      * inversion C as [|r0 rs l ls Y _ _|r0 rs ls _ C']; subst; [contradiction|auto].
Qed.
(** Fetching adds exactly the rows of the run (or the active ones) to what there is, or to nothing
    if it is cleared before; it does so if their keys are new. Otherwise it raises, and nothing is
    added. *)
Theorem fetching_is_exact :
  forall (latest clear : bool) run answer rows t, unique_keys t ->
  let base : list copied := if clear then [] else t in
  (forall sel new, selection latest run answer sel -> copies sel rows new -> unique_keys (base +++ new) -> fetch latest clear run answer rows t = (None, base +++ new)) /\
  (fst (fetch latest clear run answer rows t) = None ->
     exists sel new, selection latest run answer sel /\ copies sel rows new /\ unique_keys (base +++ new) /\ snd (fetch latest clear run answer rows t) = (base +++ new)%list) /\
  (fst (fetch latest clear run answer rows t) <> None -> (exists sel, selection latest run answer sel) -> snd (fetch latest clear run answer rows t) = base) /\
  (~ (exists sel, selection latest run answer sel) -> fetch latest clear run answer rows t = (Some ValueErr, t)).
Proof.
  intros latest clear run answer rows t U base. assert (UB : unique_keys base) by (unfold base; destruct clear; [constructor|exact U]).
  unfold fetch. fold base. split; [|split; [|split]].
  - intros sel new S C N. apply asked_iff in S. rewrite S. assert (I : insert_all base (filter (wanted sel) rows) = Ok (base +++ new)%list) by (apply (insert_exact sel rows base _ UB); eauto). rewrite I. reflexivity.
  - destruct (asked_run latest run answer) as [sel|e] eqn:A; [|discriminate]. apply asked_iff in A. destruct (insert_all base _) as [t'|e] eqn:I; [|discriminate]. intros _.
    apply (insert_exact sel rows base _ UB) in I. destruct I as (new & C & N & ->). exists sel, new. auto.
  - intros NE (sel & S). apply asked_iff in S. rewrite S in *. destruct (insert_all base _); [cbn in NE; congruence|reflexivity].
  - intro NS. destruct (asked_run latest run answer) as [sel|e] eqn:A; [exfalso; apply NS; exists sel; apply asked_iff; exact A|].
    f_equal. f_equal. unfold asked_run in A. destruct latest; [discriminate|]. destruct run as [[|p|p]|], answer; congruence.
Qed.
Print Assumptions fetching_is_exact.

(** The number announced is the number fetched, unless there are rows without a result. *)
Theorem the_number_announced_is_fetched :
  forall sel rows new, (forall r, In r rows -> m_result r <> None) -> copies sel rows new -> announced sel rows = List.length new.
Proof.
  intros sel rows new NN C. unfold announced. induction C as [|r rs l ls B S C IH|r rs ls B C IH]; [reflexivity| |]; cbn [filter].
  - assert (O : of_run sel r = true) by (apply wanted_iff in B; unfold wanted in B; destruct (m_result r); [exact B|discriminate]).
    rewrite O. cbn. f_equal. apply IH. intros x I. apply NN. right. exact I.
  - assert (O : of_run sel r = false).
    { destruct (of_run sel r) eqn:O; [|reflexivity]. exfalso. apply B, wanted_iff. unfold wanted. destruct (m_result r) eqn:E; [exact O|]. destruct (NN r (or_introl eq_refl) E). }
    rewrite O. apply IH. intros x I. apply NN. right. exact I.
Qed.
Print Assumptions the_number_announced_is_fetched.

(** After any history of the server in which no two workers store results of one student and area
    at a time, "--latest --clear" fetches the active results, exactly one of each such student and
    area. *)
Definition copy_row (inp : rrow -> string) (rest : rrow -> outcome) (r : rrow) : copied :=
  mkCopied (mkTKey (r_student r) (r_catalog r) (r_code r)) (r_run r) (r_result r) (inp r) (rest r).
Lemma published_copies inp rest l : copies None
  (map (fun r => mkRemote (mkTKey (r_student r) (r_catalog r) (r_code r)) (r_run r) (r_active r) (Some (r_result r)) (Some (inp r)) (Some (rest r))) l)
  (map (copy_row inp rest) (filter r_active l)).
Proof.
  induction l as [|r l IH]; [constructor|]. cbn [map filter]. destruct (r_active r) eqn:A.
  - cbn [map]. apply cp_yes; [split; [discriminate|reflexivity]|unfold same_row, copy_row; cbn; auto|exact IH].
  - apply cp_no; [intros [_ H]; discriminate H|exact IH].
Qed.
Lemma active_keys inp rest (l : list rrow) : NoDup (map r_id l) ->
  (forall r r', In r l -> In r' l -> of_key (r_student r, r_code r) r' -> r_active r = true -> r_active r' = true -> r = r') ->
  unique_keys (map (copy_row inp rest) (filter r_active l)).
Proof.
  intros ND O. unfold unique_keys. rewrite map_map. cbn [copy_row l_key]. induction l as [|r l IH]; [constructor|]. cbn [filter].
  assert (ND' : NoDup (map r_id l)) by (inversion ND; auto). assert (NI : ~ In (r_id r) (map r_id l)) by (inversion ND; auto).
  assert (IH' := IH ND' (fun a b I J => O a b (or_intror I) (or_intror J))). destruct (r_active r) eqn:A; [|exact IH'].
  cbn [map]. constructor; [|exact IH']. intro J. apply in_map_iff in J. destruct J as (r' & E & J). apply filter_In in J. destruct J as [J A'].
  assert (X : r = r'). { apply O; [left; reflexivity|right; exact J| |exact A|exact A']. unfold of_key. injection E as E1 E2 E3. congruence. }
  subst r'. apply NI. apply in_map. exact J.
Qed.
Theorem the_active_results_can_be_fetched :
  forall d n es s inp rest run answer t, sound_db d -> one_active d -> throughout apart (initial d n) es -> Server.run (initial d n) es = Some s -> unique_keys t ->
  exists t', fetch true true run answer (published inp rest (db s)) t = (None, t') /\ unique_keys t' /\
    (forall l, In l t' <-> exists r, In r (results (db s)) /\ r_active r = true /\ l = copy_row inp rest r) /\
    (forall l l', In l t' -> In l' t' -> tk_stnum (l_key l) = tk_stnum (l_key l') -> tk_code (l_key l) = tk_code (l_key l') -> l = l').
Proof.
  intros d n es s inp rest rn answer t SD OA T R U. destruct (ainv_run d es _ _ (inv_initial d n SD) (ainv_initial d n SD) T R) as (_ & A & _).
  assert (O := a_active d s A OA). assert (IDS := a_ids d s A).
  exists (map (copy_row inp rest) (filter r_active (results (db s)))). assert (K : unique_keys (map (copy_row inp rest) (filter r_active (results (db s))))) by (apply active_keys; assumption).
  assert (M : forall l, In l (map (copy_row inp rest) (filter r_active (results (db s)))) <-> exists r, In r (results (db s)) /\ r_active r = true /\ l = copy_row inp rest r).
  { intro l. rewrite in_map_iff. split; intros (r & H); exists r; [destruct H as [<- H]; apply filter_In in H; tauto|rewrite filter_In; intuition]. }
  split; [|split; [exact K|split; [exact M|]]].
  - destruct (fetching_is_exact true true rn answer (published inp rest (db s)) t U) as [F _]. apply (F None); [constructor; reflexivity|apply published_copies|exact K].
  - intros l l' I I' E1 E2. apply M in I, I'. destruct I as (r & J & AC & ->), I' as (r' & J' & AC' & ->). cbn in E1, E2. f_equal. apply O; auto. unfold of_key. congruence.
Qed.
Print Assumptions the_active_results_can_be_fetched.

(** *** What does not hold *)
Definition some_out : outcome := mkOut 1 1 1 true 1 1 "done".
Definition say_inp (r : rrow) : string := r_result r.
Definition say_rest (_ : rrow) : outcome := some_out.
(** two audits of one run for the same student and area *)
Definition two_rounds : list event :=
  good_round +++ [Take 0 no_tie; Computed 0 "newer"; Delete1 0; Delete2 0; Update1 0; Update2 0; Insert 0 201; Commit 0].
Definition after_two : database := match Server.run (initial db2 1) two_rounds with Some s => db s | None => db2 end.
Definition any_run_can_be_fetched : Prop :=
  forall d n es s inp rest k, sound_db d -> one_active d -> throughout apart (initial d n) es -> Server.run (initial d n) es = Some s -> k <> 0%Z ->
  fst (fetch false true (Some k) None (published inp rest (db s)) []) = None.
Theorem any_run_can_be_fetched_refuted : ~ any_run_can_be_fetched.
Proof.
  intro H. assert (E : exists s, Server.run (initial db2 1) two_rounds = Some s /\ db s = after_two) by (eexists; split; [vm_compute; reflexivity|vm_compute; reflexivity]).
  destruct E as (s & R & D). specialize (H db2 1%nat two_rounds s say_inp say_rest 7%Z sound_db2). rewrite D in H.
  assert (X : fst (fetch false true (Some 7%Z) None (published say_inp say_rest after_two) []) = None).
  { apply H; [intros r r' [<-|[]] [<-|[]] _ _ _; reflexivity| |exact R|discriminate].
    apply (alone_apart two_rounds 0).
    - intros e J. cbn in J. repeat (destruct J as [<-|J]; [right; reflexivity|]). destruct J.
    - intros v N. destruct v as [|[|v]]; [congruence|reflexivity|reflexivity]. }
  vm_compute in X. discriminate X.
Qed.
Print Assumptions any_run_can_be_fetched_refuted.
(** What had been fetched is gone although fetching fails. *)
Definition a_failed_fetch_changes_nothing : Prop :=
  forall latest clear run answer rows t, unique_keys t -> fst (fetch latest clear run answer rows t) <> None -> snd (fetch latest clear run answer rows t) = t.
Definition one_row : copied := mkCopied (mkTKey "1" "2019-20" "130") 5 "r" "i" some_out.
Theorem a_failed_fetch_changes_nothing_refuted : ~ a_failed_fetch_changes_nothing.
Proof.
  intro H. specialize (H false true (Some 7%Z) None (published say_inp say_rest after_two) [one_row]).
  assert (U : unique_keys [one_row]) by (repeat constructor; intros []). assert (E : snd (fetch false true (Some 7%Z) None (published say_inp say_rest after_two) [one_row]) = []) by (vm_compute; reflexivity).
  rewrite H in E; [discriminate|exact U|vm_compute; discriminate].
Qed.
Print Assumptions a_failed_fetch_changes_nothing_refuted.
(** Without "--clear" the same cannot be fetched a second time. *)
Theorem fetching_again_fails :
  forall latest run answer rows t sel new, selection latest run answer sel -> copies sel rows new -> new <> [] -> unique_keys t ->
  (forall l, In l new -> In (l_key l) (map l_key t)) -> fst (fetch latest false run answer rows t) <> None /\ snd (fetch latest false run answer rows t) = t.
Proof.
  intros latest rn answer rows t sel new S C N U I. destruct (fetching_is_exact latest false rn answer rows t U) as (_ & A & B & _).
  assert (F : fst (fetch latest false rn answer rows t) <> None).
  { intro E. destruct (A E) as (sel' & new' & S' & C' & U' & _).
    assert (sel' = sel) by (apply asked_iff in S, S'; congruence). subst sel'.
    assert (new' = new). { clear - C C'. revert new' C'. induction C as [|r rs l ls Bl S C IH|r rs ls Bl C IH]; intros new' C'; inversion C' as [|r0 rs0 l0 ls0 B0 S0 C0|r0 rs0 ls0 B0 C0]; subst; try contradiction; [reflexivity| |auto].
      apply copy_iff in S, S0. f_equal; [congruence|auto]. }
    subst new'. destruct new as [|l new]; [congruence|]. unfold unique_keys in U'. rewrite map_app in U'. cbn [map] in U'. apply NoDup_remove_2 in U'. apply U', in_or_app. left. apply I. left. reflexivity. }
  split; [exact F|]. apply B; [exact F|eauto].
Qed.
Print Assumptions fetching_again_fails.
(** "--latest: always fetch the latest run of audits" (dp/testbed/__main__.py:49): it fetches what is
    active, of whatever run. *)
Definition latest_is_the_latest_run : Prop :=
  forall d n es s inp rest t', sound_db d -> one_active d -> throughout apart (initial d n) es -> Server.run (initial d n) es = Some s ->
  fetch true true None None (published inp rest (db s)) [] = (None, t') ->
  forall l r, In l t' -> In r (results (db s)) -> (r_run r <= l_run l)%Z.
Definition other_item : qrow := mkQ 1 5 10 "sam" "456" "2019-20" "130" 7 None false.
Definition db4 : database := mkDb [other_item] [old_result] 3 2.
Definition after_other : database := match Server.run (initial db4 1) good_round with Some s => db s | None => db4 end.
Theorem latest_is_the_latest_run_refuted : ~ latest_is_the_latest_run.
Proof.
  intro H. assert (E : exists s, Server.run (initial db4 1) good_round = Some s /\ db s = after_other) by (eexists; split; [vm_compute; reflexivity|vm_compute; reflexivity]).
  destruct E as (s & R & D). specialize (H db4 1%nat good_round s say_inp say_rest (snd (fetch true true None None (published say_inp say_rest after_other) []))). rewrite D in H.
  assert (X := H ltac:(unfold sound_db, db4; cbn; repeat split; try (repeat constructor; cbn; intuition lia); intros ? [<-|[]]; cbn; lia)). clear H.
  assert (Y := X ltac:(intros r r' [<-|[]] [<-|[]] _ _ _; reflexivity)). clear X.
  assert (TA : throughout apart (initial db4 1) good_round).
  { apply (alone_apart good_round 0).
    - intros e J. cbn in J. repeat (destruct J as [<-|J]; [right; reflexivity|]). destruct J.
    - intros v N. destruct v as [|[|v]]; [congruence|reflexivity|reflexivity]. }
  assert (Z1 := Y TA R ltac:(vm_compute; reflexivity)). specialize (Z1 (copy_row say_inp say_rest old_result) (mkR 2 "456" "130" "2019-20" 7 None false "new" 200 true 1)).
  assert (W : (7 <= 6)%Z) by (apply Z1; [vm_compute; auto|vm_compute; auto]). lia.
Qed.
Print Assumptions latest_is_the_latest_run_refuted.
Example fetch_example :
  let rows := published say_inp say_rest after_two in
  map (fun l => (l_run l, l_result l)) (snd (fetch true true None None rows [one_row])) = [(7%Z, "newer")] /\
  map (fun l => (l_run l, l_result l)) (snd (fetch false false None (Some 6%Z) rows [one_row])) = [(5%Z, "r"); (6%Z, "old")] /\
  fst (fetch false false (Some 6%Z) None rows [one_row]) = None /\ fetch false true None None rows [one_row] = (Some ValueErr, [one_row]) /\
  fst (fetch true false None None rows (snd (fetch true true None None rows []))) = Some OtherErr /\ announced (Some 7%Z) rows = 2%nat /\
  announced None [mkRemote (mkTKey "1" "2019-20" "130") 5 true None None None] = 1%nat /\
  fetch true true None None [mkRemote (mkTKey "1" "2019-20" "130") 5 true None None None] [one_row] = (None, []).
Proof. vm_compute. repeat split. Qed.

(** ** C173 *)

Lemma fits_iff o x : fits_one o x = true <-> fits o x.
Proof.
  unfold fits_one, fits. destruct o as [y|]; [rewrite String.eqb_eq|]; split.
  - intros -> z E. congruence.
  - intro H. apply H. reflexivity.
  - intros _ y E. discriminate.
  - reflexivity.
Qed.
(** Queries list the rows that agree with everything that is given. *)
Theorem queries_list_what_agrees :
  forall stnum catalog code t, unique_keys t ->
  NoDup (query stnum catalog code t) /\
  forall k, In k (query stnum catalog code t) <->
    (exists l, In l t /\ l_key l = k) /\ fits stnum (tk_stnum k) /\ fits catalog (tk_catalog k) /\ fits code (tk_code k).
Proof.
  intros stnum catalog code t U. split; [apply NoDup_map_filter, U|]. intro k. unfold query. rewrite in_map_iff. split.
  - intros (l & <- & I). apply filter_In in I. destruct I as [I F]. rewrite !andb_true_iff, !fits_iff in F. split; [eauto|tauto].
  - intros ((l & I & <-) & F). exists l. split; [reflexivity|]. apply filter_In. split; [exact I|]. rewrite !andb_true_iff, !fits_iff. tauto.
Qed.
Print Assumptions queries_list_what_agrees.
(** A single run audits the data of its row; there must be one. *)
Theorem single_runs_use_their_row :
  forall k t, unique_keys t ->
  (forall i, data_of k t = Ok i <-> exists l, In l t /\ l_key l = k /\ l_input l = i) /\
  (data_of k t = Err TypeErr <-> ~ exists l, In l t /\ l_key l = k).
Proof.
  intros k t U. unfold data_of.
  assert (F : forall l, In l (filter (fun r => tkey_eqb (l_key r) k) t) <-> In l t /\ l_key l = k) by (intro l; rewrite filter_In, tkey_eqb_iff; tauto).
  assert (ONE : forall a b, In a t -> In b t -> l_key a = l_key b -> a = b).
  { clear F. unfold unique_keys in U. induction t as [|x t IH]; [intros a b []|]. cbn [map] in U. inversion U as [|? ? N U']; subst. intros a b [<-|I] [<-|J] E; auto.
    - destruct N. rewrite E. apply in_map, J.
    - destruct N. rewrite <- E. apply in_map, I. }
  destruct (filter _ t) as [|l0 ls]; split.
  - intro i. split; [discriminate|]. intros (l & I & E & _). destruct (proj2 (F l) (conj I E)).
  - split; [intros _ (l & I & E); destruct (proj2 (F l) (conj I E))|reflexivity].
  - assert (A := proj1 (F l0) (or_introl eq_refl)). intro i. split; [intro H; injection H as <-; exists l0; tauto|]. intros (l & I & E & <-). f_equal. f_equal. apply ONE; [apply A|exact I|]. destruct A. congruence.
  - split; [discriminate|]. intro N. exfalso. apply N. exists l0. apply F. left. reflexivity.
Qed.
Print Assumptions single_runs_use_their_row.
(** Extracting writes the data of a row of the student and area: of which catalog is open. *)
Theorem extraction_ignores_the_catalog :
  forall order k t, (forall l, Permutation (order l) l) ->
  (forall i, extract order k t = Some i -> exists l, In l t /\ tk_stnum (l_key l) = tk_stnum k /\ tk_code (l_key l) = tk_code k /\ l_input l = i) /\
  (extract order k t = None <-> ~ exists l, In l t /\ tk_stnum (l_key l) = tk_stnum k /\ tk_code (l_key l) = tk_code k) /\
  forall catalog, extract order (mkTKey (tk_stnum k) catalog (tk_code k)) t = extract order k t.
Proof.
  intros order k t O. unfold extract. cbn [tk_stnum tk_code]. split; [|split; [|reflexivity]];
    (assert (F : forall l, In l (order (filter (fun r => (tk_stnum (l_key r) =? tk_stnum k) && (tk_code (l_key r) =? tk_code k)) t)) <-> In l t /\ tk_stnum (l_key l) = tk_stnum k /\ tk_code (l_key l) = tk_code k)
      by (intro l; transitivity (In l (filter (fun r => (tk_stnum (l_key r) =? tk_stnum k) && (tk_code (l_key r) =? tk_code k)) t));
          [split; apply Permutation_in; [apply O|symmetry; apply O]|rewrite filter_In, andb_true_iff, !String.eqb_eq; tauto]));
    destruct (order _) as [|l0 ls].
  - discriminate.
  - intros i H. injection H as <-. exists l0. assert (A := proj1 (F l0) (or_introl eq_refl)). tauto.
  - split; [intros _ (l & H); destruct (proj2 (F l) H)|reflexivity].
  - split; [discriminate|]. intro N. exfalso. apply N. exists l0. apply F. left. reflexivity.
Qed.
Print Assumptions extraction_ignores_the_catalog.
(** What was fetched with "--latest --clear" has one row of a student and area, and this is it. *)
Theorem extraction_after_latest_is_exact :
  forall d n es s inp rest run answer t t' order k r, sound_db d -> one_active d -> throughout apart (initial d n) es -> Server.run (initial d n) es = Some s -> unique_keys t ->
  (forall l, Permutation (order l) l) -> fetch true true run answer (published inp rest (db s)) t = (None, t') ->
  In r (results (db s)) -> r_active r = true -> r_student r = tk_stnum k -> r_code r = tk_code k ->
  extract order k t' = Some (inp r) /\ data_of (mkTKey (r_student r) (r_catalog r) (r_code r)) t' = Ok (inp r).
Proof.
  intros d n es s inp rest rn answer t t' order k r SD OA T R U O F I A E1 E2.
  destruct (the_active_results_can_be_fetched d n es s inp rest rn answer t SD OA T R U) as (t2 & F2 & K & M & ONE). rewrite F in F2. injection F2 as <-.
  assert (IR : In (copy_row inp rest r) t') by (apply M; eauto). split.
  - destruct (extraction_ignores_the_catalog order k t' O) as (X & Y & _). destruct (extract order k t') as [i|] eqn:EX.
    + destruct (X i eq_refl) as (l & J & L1 & L2 & <-). assert (l = copy_row inp rest r) by (apply ONE; [exact J|exact IR|cbn; congruence|cbn; congruence]). subst l. reflexivity.
    + exfalso. apply (proj1 Y eq_refl). exists (copy_row inp rest r). cbn. auto.
  - apply (single_runs_use_their_row _ _ K). exists (copy_row inp rest r). cbn. auto.
Qed.
Print Assumptions extraction_after_latest_is_exact.
(** In general the row of another catalog may be written. *)
Definition extraction_is_exact : Prop := forall order k t, (forall l, Permutation (order l) l) -> unique_keys t ->
  forall i, extract order k t = Some i -> data_of k t = Ok i.
Definition two_rows : list copied := [mkCopied (mkTKey "1" "2018-19" "130") 5 "r" "old data" some_out; mkCopied (mkTKey "1" "2019-20" "130") 5 "r" "new data" some_out].
Theorem extraction_is_exact_refuted : ~ extraction_is_exact.
Proof.
  intro H. specialize (H (fun l => l) (mkTKey "1" "2019-20" "130") two_rows ltac:(intro l; apply Permutation_refl)).
  assert (U : unique_keys two_rows) by (unfold unique_keys, two_rows; cbn; repeat constructor; cbn; intuition discriminate).
  assert (X := H U "old data" ltac:(vm_compute; reflexivity)). vm_compute in X. discriminate X.
Qed.
Print Assumptions extraction_is_exact_refuted.
Example looking_example :
  query (Some "1") None (Some "130") (two_rows +++ [mkCopied (mkTKey "2" "2019-20" "130") 5 "r" "x" some_out]) = [mkTKey "1" "2018-19" "130"; mkTKey "1" "2019-20" "130"] /\
  data_of (mkTKey "1" "2019-20" "130") two_rows = Ok "new data" /\ data_of (mkTKey "1" "2020-21" "130") two_rows = Err TypeErr /\
  extract (fun l => l) (mkTKey "1" "2020-21" "130") two_rows = Some "old data" /\ extract (fun l => l) (mkTKey "2" "2020-21" "130") two_rows = None.
Proof. vm_compute. repeat split. Qed.

(** The command printed names the file of the catalog of the row. The server uses the newest file
    at or before it, so the two agree only where the catalog has the file. *)
Definition area_path (root folder code : string) : string := root ++ "/" ++ folder ++ "/" ++ code ++ ".yaml".
Lemma no_dash s : forall a z, digits_val s a = Some z -> ~ In "-"%char (list_ascii_of_string s).
Proof.
  induction s as [|c s IH]; intros a z H J; [destruct J|]. cbn [digits_val] in H. destruct (digit_val c) as [k|] eqn:D; [|discriminate].
  destruct J as [->|J]; [vm_compute in D; discriminate|exact (IH _ _ H J)].
Qed.
Lemma first_part_dash s t : ~ In "-"%char (list_ascii_of_string s) -> first_part (s ++ "-" ++ t) = s.
Proof.
  induction s as [|c s IH]; intro N; [reflexivity|]. cbn [append first_part]. destruct (Ascii.eqb_spec c "-") as [->|NE]; [exfalso; apply N; left; reflexivity|].
  f_equal. apply IH. intro J. apply N. right. exact J.
Qed.
Lemma first_part_none s : ~ In "-"%char (list_ascii_of_string s) -> first_part s = s.
Proof.
  induction s as [|c s IH]; intro N; [reflexivity|]. cbn [first_part]. destruct (Ascii.eqb_spec c "-") as [->|NE]; [exfalso; apply N; left; reflexivity|].
  f_equal. apply IH. intro J. apply N. right. exact J.
Qed.
Lemma first_part_folder y : (0 <= y)%Z -> first_part (folder_of y) = str_of_Z y.
Proof. intro Y. unfold folder_of. apply first_part_dash. destruct (str_of_Z_digits y Y) as [V _]. exact (no_dash _ _ _ V). Qed.
Theorem invocations_name_the_file_of_the_server :
  forall l root k y, catalogs_only l -> (1000 <= y <= 9998)%Z -> tk_catalog k = folder_of y ->
  invocation root k = "python3 -m dp --student " ++ tk_stnum k ++ ".json --area " ++ area_path root (folder_of y) (tk_code k) /\
  (worker_area l (tk_catalog k) (tk_code k) = Ok (Some (tk_catalog k)) <-> transcribed l (tk_code k) y).
Proof.
  intros l root k y CO Y K. split; [unfold invocation, area_path; rewrite K; reflexivity|].
  unfold worker_area, worker_year. rewrite K, first_part_folder by lia. rewrite py_int_str by lia. cbn [bind].
  destruct (newest_applicable_area_is_found l y (tk_code k) CO Y) as [F _]. split.
  - intro H. injection H as H. apply F in H. destruct H as (y' & E & T & L & _).
    assert (y' = y); [|subst; exact T]. assert (Y' := proj1 T). assert (A := proj1 (folder_order y y' Y Y')). assert (B := proj1 (folder_order y' y Y' Y)). rewrite E in A, B.
    assert (R : forall s, str_le s s = true) by (intro s; unfold str_le; rewrite str_compare_refl; reflexivity). specialize (A (R _)). specialize (B (R _)). lia.
  - intro T. f_equal. apply F. exists y. repeat split; auto; try lia; apply T.
Qed.
Print Assumptions invocations_name_the_file_of_the_server.
Definition invocations_repeat_the_server : Prop :=
  forall l k y f, catalogs_only l -> (1000 <= y <= 9998)%Z -> tk_catalog k = folder_of y -> worker_area l (tk_catalog k) (tk_code k) = Ok (Some f) -> f = tk_catalog k.
Theorem invocations_repeat_the_server_refuted : ~ invocations_repeat_the_server.
Proof.
  intro H. specialize (H [("2018-19", ["130.yaml"])] (mkTKey "1" "2019-20" "130") 2019%Z "2018-19").
  assert (X : "2018-19" = "2019-20"); [|discriminate X]. apply H; [|lia|reflexivity|vm_compute; reflexivity].
  intros f files [E|[]] _. injection E as <- <-. exists 2018%Z. split; [lia|reflexivity].
Qed.
Print Assumptions invocations_repeat_the_server_refuted.
Example invocation_example :
  invocation "/areas" (mkTKey "1" "2019-20" "130") = "python3 -m dp --student 1.json --area /areas/2019-20/130.yaml" /\ extract_file (mkTKey "1" "2019-20" "130") = "./1.json" /\
  worker_area [("2018-19", ["130.yaml"]); ("2019-20", ["130.yaml"])] "2019-20" "130" = Ok (Some "2019-20").
Proof. vm_compute. repeat split. Qed.

(** ** C171 *)

(** A request is for the area as the catalog of that year has it: the worker reads the year back. *)
Theorem what_if_years_are_read_back :
  forall s s' ts ex link stnum code y l, (0 <= y)%Z -> step s (what_if ts ex link stnum code y) = Some s' ->
  exists q, queue (db s') = queue (db s) +++ [q] /\ q_student q = stnum /\ q_stnum q = stnum /\ q_expires q = ex /\ q_code q = code /\ q_run q = (-1)%Z /\ q_priority q = 100%Z /\ q_ts q = ts /\ q_link q = link /\
  results (db s') = results (db s) /\ worker_area l (q_catalog q) (q_code q) = Ok (find_area l y code).
Proof.
  intros s s' ts ex link stnum code y l Y ST. unfold what_if in ST. cbn [step] in ST. injection ST as <-. eexists. split; [reflexivity|]. cbn [q_student q_expires q_stnum q_code q_run q_priority q_ts q_link q_catalog db results].
  repeat split; auto. unfold worker_area, worker_year. rewrite first_part_folder, py_int_str by exact Y. reflexivity.
Qed.
Print Assumptions what_if_years_are_read_back.
(** The year of a catalog is what comes before the first hyphen, all of it if there is none. *)
Theorem the_worker_reads_the_year :
  forall y rest l code, (0 <= y)%Z ->
  worker_area l (str_of_Z y) code = Ok (find_area l y code) /\ worker_area l (str_of_Z y ++ "-" ++ rest) code = Ok (find_area l y code) /\
  worker_area l ("-" ++ rest) code = Err ValueErr.
Proof.
  intros y rest l code Y. destruct (str_of_Z_digits y Y) as [V _]. assert (N := no_dash _ _ _ V). unfold worker_area, worker_year. rewrite (first_part_dash _ _ N), (first_part_none _ N), py_int_str by exact Y. auto.
Qed.
Print Assumptions the_worker_reads_the_year.
Example worker_year_example : worker_year "2020" = Ok 2020%Z /\ worker_year "2020-21" = Ok 2020%Z /\ worker_year "2020-21-x" = Ok 2020%Z /\ worker_year "" = Err ValueErr.
Proof. vm_compute. repeat split. Qed.
(** While it waits, only rows of at least its priority are taken. *)
Theorem what_ifs_come_first :
  forall s w tie s' q r, step s (Take w tie) = Some s' -> pc (get s' w) = PItem q ->
  In r (queue (db s)) -> q_priority r = 100%Z -> (forall v, ~ holds s v (q_id r)) ->
  (100 < q_priority q)%Z \/ (q_priority q = 100%Z /\ (q_ts q <= q_ts r)%Z).
Proof.
  intros s w tie s' q r ST P I R F. destruct (the_first_item_is_taken s w tie s' q ST P) as (_ & _ & _ & H). specialize (H r I F). unfold precedes in H. rewrite R in H. lia.
Qed.
Print Assumptions what_ifs_come_first.
(** If rows are not "link only" unless they say so, a request replaces the result of record. *)
Definition what_ifs_are_not_for_the_record : Prop :=
  forall d n es s s1 es' s2 ts ex stnum code y, sound_db d -> one_active d -> throughout apart (initial d n) es -> Server.run (initial d n) es = Some s ->
  step s (what_if ts ex false stnum code y) = Some s1 -> throughout apart s1 es' -> Server.run s1 es' = Some s2 ->
  forall r, In r (results (db s2)) -> r_active r = true -> r_run r <> (-1)%Z \/ In r (results (db s)).
Definition recorded : database := mkDb [] [old_result] 3 2.
Definition asked_state : state := match step (initial recorded 1) (what_if 20 None false "123" "130" 2019) with Some s => s | None => initial recorded 1 end.
Theorem what_ifs_are_not_for_the_record_refuted : ~ what_ifs_are_not_for_the_record.
Proof.
  intro H.
  assert (E : exists s2, Server.run asked_state good_round = Some s2 /\ In (mkR 2 "123" "130" "2019-20" (-1) None false "new" 200 true 2) (results (db s2))) by (eexists; split; [vm_compute; reflexivity|vm_compute; auto]).
  destruct E as (s2 & R & I).
  assert (X := H recorded 1%nat [] (initial recorded 1) asked_state good_round s2 20%Z None "123" "130" 2019%Z).
  assert (S : sound_db recorded) by (unfold sound_db, recorded; cbn; repeat split; try (repeat constructor; cbn; intuition lia); intros ? [<-|[]]; cbn; lia).
  assert (T0 : throughout apart (initial recorded 1) []) by (apply (alone_apart [] 0); [intros e []|intros v N; destruct v as [|[|v]]; [congruence|reflexivity|reflexivity]]).
  assert (T1 : throughout apart asked_state good_round).
  { apply (alone_apart good_round 0).
    - intros e J. cbn in J. repeat (destruct J as [<-|J]; [right; reflexivity|]). destruct J.
    - intros v N. destruct v as [|[|v]]; [congruence|reflexivity|reflexivity]. }
  destruct (X S ltac:(intros r r' [<-|[]] [<-|[]] _ _ _; reflexivity) T0 eq_refl ltac:(vm_compute; reflexivity) T1 R _ I eq_refl) as [N|N]; [apply N; reflexivity|].
  cbn in N. destruct N as [N|[]]. discriminate N.
Qed.
Print Assumptions what_ifs_are_not_for_the_record_refuted.
Example what_if_example :
  let s := mkS (mkDb [item1; item2] [] 3 2) [dead] [] in
  match step s (what_if 20 None false "9" "130" 2019) with
  | Some s' => map q_catalog (queue (db s')) = ["2019-20"; "2019-20"; "2019-20"] /\
      match Server.run s' [Start 0; Take 0 no_tie] with Some s2 => pc (get s2 0) = PItem (mkQ 3 100 20 "9" "9" "2019-20" "130" (-1) None false) | None => False end
  | None => False
  end.
Proof. vm_compute. repeat split. Qed.
