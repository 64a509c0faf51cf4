(** Property theorems about the testbed (C142-C144). *)
From Coq Require Import List ZArith QArith Qround Bool String Lia.
From Verif Require Import Prelude Testbed.
Import ListNotations.
Local Open Scope string_scope.
Local Infix "+++" := (@app _) (at level 61, right associativity).

(** ** C142 *)
(** two results differ in what the view compares *)
Definition differs (a b : outcome) : Prop :=
  o_ok a <> o_ok b \/ ~ (o_gpa a == o_gpa b)%Q \/ ~ (o_rank a == o_rank b)%Q \/ ~ (o_max_rank a == o_max_rank b)%Q.
(** and in what the mode asks for *)
Definition differs_in (m : mode) (a b : outcome) : Prop :=
  match m with
  | ByData => differs a b
  | ByOk => o_ok a <> o_ok b
  | ByGpa => ~ (o_gpa a == o_gpa b)%Q
  end.
Lemma tkey_eqb_iff a b : tkey_eqb a b = true <-> a = b.
Proof.
  unfold tkey_eqb. rewrite !andb_true_iff, !String.eqb_eq. destruct a, b; cbn. split; [intros ((-> & ->) & ->); reflexivity|]. intro H. injection H as -> -> ->. auto.
Qed.
Lemma qneb a b : negb (Qeq_bool a b) = true <-> ~ (a == b)%Q.
Proof. rewrite negb_true_iff. split; [intros H E; apply Qeq_bool_iff in E; congruence|]. intro H. destruct (Qeq_bool a b) eqn:E; [|reflexivity]. apply Qeq_bool_iff in E. contradiction. Qed.
Lemma bneb a b : negb (Bool.eqb a b) = true <-> a <> b.
Proof. rewrite negb_true_iff, eqb_false_iff. reflexivity. Qed.
Lemma join_in d j : In j (left_join d) <-> exists k b, In (k, b) (d_baseline d) /\
  ((exists run r, In (run, (k, r)) (d_branch d) /\ j = mkJoined k b (Some (run, r))) \/
   ((forall run r, ~ In (run, (k, r)) (d_branch d)) /\ j = mkJoined k b None)).
Proof.
  unfold left_join. rewrite in_flat_map. split.
  - intros ((k, b) & B & J). exists k, b. split; [exact B|]. cbn [fst snd] in J. destruct (filter _ (d_branch d)) as [|x l] eqn:F.
    + right. destruct J as [<-|[]]. split; [|reflexivity]. intros run r I. assert (X : In (run, (k, r)) []); [rewrite <- F; apply filter_In; split; [exact I|apply tkey_eqb_iff; reflexivity]|destruct X].
    + left. rewrite <- F in J. change (In j (map (fun r => mkJoined k b (Some (fst r, snd (snd r)))) (filter (fun r => tkey_eqb k (fst (snd r))) (d_branch d)))) in J.
      apply in_map_iff in J as ((run & (k' & r)) & <- & I). apply filter_In in I as (I & E). apply tkey_eqb_iff in E. cbn in E. subst k'. exists run, r. split; [exact I|reflexivity].
  - intros (k & b & B & [(run & r & I & ->)|(N & ->)]); exists (k, b); (split; [exact B|]); cbn [fst snd].
    + assert (X : In (run, (k, r)) (filter (fun r => tkey_eqb k (fst (snd r))) (d_branch d))) by (apply filter_In; split; [exact I|apply tkey_eqb_iff; reflexivity]).
      destruct (filter _ (d_branch d)) as [|x l]; [destruct X|]. apply (in_map (fun r => mkJoined k b (Some (fst r, snd (snd r))))) in X. exact X.
    + destruct (filter _ (d_branch d)) as [|(run & (k', r)) l] eqn:F; [left; reflexivity|]. exfalso. assert (X : In (run, (k', r)) (filter (fun r => tkey_eqb k (fst (snd r))) (d_branch d))) by (rewrite F; left; reflexivity).
      apply filter_In in X as (X & E). apply tkey_eqb_iff in E. cbn in E. subst k'. exact (N run r X).
Qed.
(** C142. A comparison fails exactly if the branch has no results; otherwise it lists exactly the
    results of the branch that differ from those of the baseline. *)
Theorem comparison_exact :
  forall m run d,
  (compare m run d = Err AssertErr <-> forall k r, ~ In (run, (k, r)) (d_branch d)) /\
  forall l, compare m run d = Ok l ->
  forall j, In j l <-> exists k b r, In (k, b) (d_baseline d) /\ In (run, (k, r)) (d_branch d) /\ differs b r /\ differs_in m b r /\ j = mkJoined k b (Some (run, r)).
Proof.
  intros m run d. unfold compare.
  assert (R : forall k r, In (run, (k, r)) (results_of run d) <-> In (run, (k, r)) (d_branch d)).
  { intros k r. unfold results_of. rewrite filter_In, String.eqb_refl. cbn. tauto. }
  split.
  - destruct (results_of run d) as [|(x & (k & r)) l] eqn:E; (split; [|intro H]); try discriminate.
    + intros _ k r I. apply R in I. destruct I.
    + reflexivity.
    + exfalso. assert (I : In (x, (k, r)) (results_of run d)) by (rewrite E; left; reflexivity). assert (J := I). unfold results_of in J. apply filter_In in J as (J & X). apply String.eqb_eq in X. cbn in X. subst x. exact (H k r J).
  - intros l H j. assert (L : l = filter (fun j => holds3 (asked m run j)) (changes d)) by (destruct (results_of run d); [discriminate|congruence]). subst l. clear H.
    unfold changes. rewrite !filter_In, join_in. split.
    + intros ((( k & b & B & [(run' & r & I & ->)|(_ & ->)]) & C) & A).
      2: discriminate.
      cbn [asked changed left_of right_of j_branch j_base] in *. unfold asked, eq3 in A. cbn [j_branch] in A.
      destruct (run' =? run) eqn:E; [|destruct m; discriminate]. apply String.eqb_eq in E. subst run'. exists k, b, r. split; [exact B|]. split; [exact I|].
      assert (D : differs b r).
      { unfold changed, left_of, right_of in C. cbn [j_branch j_base ne3 or3] in C. unfold differs. rewrite <- !bneb, <- !qneb.
        destruct (negb (Bool.eqb (o_ok b) (o_ok r))); [auto|]. destruct (negb (Qeq_bool (o_gpa b) (o_gpa r))); [auto|]. destruct (negb (Qeq_bool (o_rank b) (o_rank r))); [auto|].
        destruct (negb (Qeq_bool (o_max_rank b) (o_max_rank r))); [auto|]. discriminate. }
      split; [exact D|]. split; [|reflexivity]. destruct m; [exact D| |]; cbn [left_of right_of j_branch j_base ne3 and3] in A; cbn [differs_in]; [rewrite <- bneb|rewrite <- qneb];
        match goal with |- ?x = true => destruct x; [reflexivity|discriminate] end.
    + intros (k & b & r & B & I & D & M & ->). split; [split|].
      * exists k, b. split; [exact B|]. left. exists run, r. auto.
      * unfold changed, left_of, right_of. cbn [j_branch j_base ne3 or3]. unfold differs in D. rewrite <- !bneb, <- !qneb in D.
        destruct (negb (Bool.eqb (o_ok b) (o_ok r))), (negb (Qeq_bool (o_gpa b) (o_gpa r))), (negb (Qeq_bool (o_rank b) (o_rank r))), (negb (Qeq_bool (o_max_rank b) (o_max_rank r))); try reflexivity.
        intuition discriminate.
      * unfold asked. cbn [j_branch eq3]. rewrite String.eqb_refl. destruct m; [reflexivity| |]; cbn [left_of right_of j_branch j_base ne3]; cbn [differs_in] in M; [rewrite <- bneb in M|rewrite <- qneb in M]; rewrite M; reflexivity.
Qed.
Print Assumptions comparison_exact.

(** ** C144 *)
Section Batches.
  Variables (known : string -> string -> bool) (audit : tkey -> ending).
  (** the audits a batch runs *)
  Definition due (min : Q) (code : option string) (rows : list (tkey * outcome)) (k : tkey) : Prop :=
    exists o, In (k, o) rows /\ (o_duration o < min)%Q /\ match code with Some c => tk_code k = c | None => True end.
  Lemma chosen_iff min code rows k : In k (chosen min code rows) <-> due min code rows k.
  Proof.
    unfold chosen, due. rewrite in_map_iff. split.
    - intros ((k' & o) & <- & I). apply filter_In in I as (I & E). cbn [fst snd] in *. apply andb_true_iff in E as (E & C). exists o. split; [exact I|]. split.
      + apply negb_true_iff in E. apply Qnot_le_lt. intro L. apply Qle_bool_iff in L. congruence.
      + destruct code; [apply String.eqb_eq; exact C|exact Logic.I].
    - intros (o & I & L & C). exists (k, o). split; [reflexivity|]. apply filter_In. split; [exact I|]. cbn [fst snd]. apply andb_true_iff. split.
      + apply negb_true_iff. destruct (Qle_bool min (o_duration o)) eqn:E; [|reflexivity]. apply Qle_bool_iff in E. apply Qlt_not_le in L. contradiction.
      + destruct code; [apply String.eqb_eq; exact C|reflexivity].
  Qed.
  Lemma store_exact ks :
    (forall rows, store known audit ks = Ok rows -> forall k o, In (k, o) rows <-> In k ks /\ known (tk_catalog k) (tk_code k) = true /\ audit k = Gave o) /\
    (store known audit ks = Err AssertErr <-> exists k, In k ks /\ known (tk_catalog k) (tk_code k) = true /\ audit k = NoResult) /\
    (forall e, store known audit ks = Err e -> e = AssertErr).
  Proof.
    induction ks as [|x ks (IH1 & IH2 & IH3)]; cbn [store].
    - split; [intros rows H; injection H as <-; cbn; tauto|]. split; [split; [discriminate|intros (? & [] & _)]|discriminate].
    - destruct (known (tk_catalog x) (tk_code x)) eqn:K.
      + destruct (audit x) as [| |o] eqn:A.
        * split; [|split]; [| |exact IH3].
          -- intros rows H k o. rewrite (IH1 rows H). cbn. split; [tauto|]. intros ([<-|I] & B & C); [congruence|auto].
          -- rewrite IH2. split; intros (k & I & B & C); exists k; [cbn; tauto|]. destruct I as [<-|I]; [congruence|auto].
        * split; [discriminate|]. split; [|intros e H; congruence]. split; [intros _; exists x; cbn; auto|reflexivity].
        * destruct (store known audit ks) as [r|e] eqn:S; cbn [bind].
          -- split; [|split]; [|split; [discriminate|]|discriminate].
             ++ intros rows H k p. injection H as <-. cbn [In]. rewrite (IH1 r eq_refl). split.
                ** intros [E|(I & B & C)]; [injection E as <- <-; auto|auto].
                ** intros ([<-|I] & B & C); [left; congruence|auto].
             ++ intros (k & [<-|I] & B & C); [congruence|]. assert (X : Ok r = Err AssertErr) by (apply IH2; eauto). discriminate.
          -- split; [discriminate|]. split.
             ++ split; [intro H; apply IH2 in H as (k & I & R); exists k; cbn; tauto|]. intros (k & [<-|I] & B & C); [congruence|]. rewrite (IH3 e eq_refl). reflexivity.
             ++ intros e' H. apply IH3. congruence.
      + split; [|split]; [| |exact IH3].
        * intros rows H k o. rewrite (IH1 rows H). cbn. split; [tauto|]. intros ([<-|I] & B & C); [congruence|auto].
        * rewrite IH2. split; intros (k & I & B & C); exists k; [cbn; tauto|]. destruct I as [<-|I]; [congruence|auto].
  Qed.
  (** C144. A batch for the baseline ends without failure exactly if there are audits to repeat,
      they are not to be copied, and none of those run ends without a result; the baseline then is exactly the
      results of the audits that gave one. The other tables stay as they are, and a batch that fails leaves an
      empty baseline. *)
  Theorem baseline_batch_exact :
    forall min code copy d e d', run_baseline known audit min code copy d = (e, d') ->
    d_server d' = d_server d /\ d_branch d' = d_branch d /\
    (e = None <-> d_server d <> [] /\ copy = false /\ ~ exists k, due min code (d_server d) k /\ known (tk_catalog k) (tk_code k) = true /\ audit k = NoResult) /\
    (e = None -> forall k o, In (k, o) (d_baseline d') <-> due min code (d_server d) k /\ known (tk_catalog k) (tk_code k) = true /\ audit k = Gave o) /\
    (e <> None -> d_baseline d' = if d_server d then d_baseline d else []).
  Proof.
    intros min code copy d e d' H. unfold run_baseline in H. destruct (d_server d) as [|s rest] eqn:S; [injection H as <- <-; rewrite S; repeat split; intros; try discriminate; try contradiction; intuition congruence|].
    set (rows := s :: rest) in *. destruct copy.
    { injection H as <- <-. cbn [d_server d_branch d_baseline]. repeat split; intros; try discriminate. intuition congruence. }
    destruct (store_exact (chosen min code rows)) as (A & B & C).
    assert (CH : forall k, In k (chosen min code rows) <-> due min code rows k) by (intro; apply chosen_iff).
    destruct (store known audit (chosen min code rows)) as [r|x] eqn:E; injection H as <- <-; cbn [d_server d_branch d_baseline].
    - repeat split; try discriminate; try congruence.
      + intros (k & I & K). apply CH in I. assert (Ok r = Err AssertErr) by (apply B; eauto). discriminate.
      + apply CH. apply (A r eq_refl k o). assumption.
      + apply (proj1 (A r eq_refl k o) H0).
      + apply (proj1 (A r eq_refl k o) H0).
      + intros (I & K). apply (A r eq_refl). rewrite CH. auto.
    - repeat split; try discriminate; try congruence.
      intros (_ & _ & N). destruct N. rewrite (C x eq_refl) in B. destruct (proj1 B eq_refl) as (k & I & K). exists k. rewrite <- CH. auto.
  Qed.
  (** A batch for a branch is exact in the same way, over the audits of the baseline; results of other
      branches stay as they are. *)
  Theorem branch_batch_exact :
    forall name min code d e d', run_branch known audit name min code d = (e, d') ->
    d_server d' = d_server d /\ d_baseline d' = d_baseline d /\
    (forall n k o, n <> name -> (In (n, (k, o)) (d_branch d') <-> In (n, (k, o)) (d_branch d))) /\
    (e = None <-> d_server d <> [] /\ ~ exists k, due min code (d_baseline d) k /\ known (tk_catalog k) (tk_code k) = true /\ audit k = NoResult) /\
    (e = None -> forall k o, In (name, (k, o)) (d_branch d') <-> due min code (d_baseline d) k /\ known (tk_catalog k) (tk_code k) = true /\ audit k = Gave o) /\
    (e <> None -> d_server d <> [] -> forall k o, ~ In (name, (k, o)) (d_branch d')).
  Proof.
    intros name min code d e d' H. unfold run_branch in H. destruct (d_server d) as [|s rest] eqn:S.
    { injection H as <- <-. rewrite S. split; [reflexivity|]. split; [reflexivity|]. split; [tauto|]. split; [intuition congruence|]. split; [discriminate|]. intros; contradiction. }
    set (rows := s :: rest) in *. set (others := filter (fun r => negb (fst r =? name)) (d_branch d)) in *.
    assert (O1 : forall n k o, n <> name -> (In (n, (k, o)) others <-> In (n, (k, o)) (d_branch d))).
    { intros n k o N. unfold others. rewrite filter_In. cbn [fst]. apply String.eqb_neq in N. rewrite N. cbn. tauto. }
    assert (O2 : forall k o, ~ In (name, (k, o)) others).
    { intros k o I. apply filter_In in I as (_ & I). cbn [fst] in I. rewrite String.eqb_refl in I. discriminate. }
    destruct (store_exact (chosen min code (d_baseline d))) as (A & B & C).
    assert (CH : forall k, In k (chosen min code (d_baseline d)) <-> due min code (d_baseline d) k) by (intro; apply chosen_iff).
    destruct (store known audit (chosen min code (d_baseline d))) as [r|x] eqn:E; injection H as <- <-; cbn [d_server d_branch d_baseline].
    - assert (M : forall n k o, In (n, (k, o)) (map (fun r => (name, r)) r) <-> n = name /\ In (k, o) r).
      { intros n k o. rewrite in_map_iff. split; [intros (y & Y & I); injection Y as <- ->; auto|intros (-> & I); eauto]. }
      split; [reflexivity|]. split; [reflexivity|]. split; [|split; [|split]].
      + intros n k o N. rewrite in_app_iff, M, O1 by exact N. tauto.
      + split; [intros _|reflexivity]. split; [discriminate|]. intros (k & I & K). apply CH in I. assert (Ok r = Err AssertErr) by (apply B; eauto). discriminate.
      + intros _ k o. rewrite in_app_iff, M, (A r eq_refl), CH. split; [intros [I|I]; [destruct (O2 _ _ I)|tauto]|tauto].
      + contradiction.
    - split; [reflexivity|]. split; [reflexivity|]. split; [exact O1|]. split; [|split].
      + split; [discriminate|]. intros (_ & N). destruct N. rewrite (C x eq_refl) in B. destruct (proj1 B eq_refl) as (k & I & K). exists k. rewrite <- CH. auto.
      + discriminate.
      + intros _ _. exact O2.
  Qed.
End Batches.
Print Assumptions baseline_batch_exact.
Print Assumptions branch_batch_exact.

Definition sample_key (n : string) : tkey := mkTKey n "2019-20" "150".
Definition sample (ok : bool) (dur : Q) : outcome := mkOut 1 dur 3 ok 2 4 "done".
Definition always (o : outcome) (k : tkey) : ending := Gave o.
Definition sample_db : db := mkDb [(sample_key "1", sample true 1); (sample_key "2", sample true 1); (sample_key "3", sample false 90)] [(sample_key "1", sample false 2)] [("old", (sample_key "1", sample true 1))].
Definition no_areas_missing (a b : string) : bool := true.
Example baseline_example :
  run_baseline no_areas_missing (always (sample true 2)) 30 None false sample_db =
  (None, mkDb (d_server sample_db) [(sample_key "1", sample true 2); (sample_key "2", sample true 2)] (d_branch sample_db)).
Proof. reflexivity. Qed.
Example branch_example :
  run_branch no_areas_missing (always (sample true 2)) "new" 30 None sample_db =
  (None, mkDb (d_server sample_db) (d_baseline sample_db) [("old", (sample_key "1", sample true 1)); ("new", (sample_key "1", sample true 2))]).
Proof. reflexivity. Qed.
Example comparison_example :
  compare ByOk "old" sample_db = Ok [mkJoined (sample_key "1") (sample false 2) (Some ("old", sample true 1))] /\ compare ByGpa "old" sample_db = Ok [] /\ compare ByData "new" sample_db = Err AssertErr.
Proof. repeat split. Qed.

(** Copying the results of the server fills the baseline. Refuted for every database with results:
    it fails after the old baseline has been deleted. *)
Definition copying_fills_the_baseline : Prop :=
  forall known audit min d, d_server d <> [] ->
  exists d', run_baseline known audit min None true d = (None, d') /\ forall k o, In (k, o) (d_baseline d') <-> In (k, o) (d_server d) /\ (o_duration o < min)%Q.
Theorem copying_fills_the_baseline_refuted : ~ copying_fills_the_baseline.
Proof. intro H. destruct (H no_areas_missing (always (sample true 1)) 30 sample_db) as (d' & E & _); discriminate. Qed.
Theorem copying_only_deletes :
  forall known audit min code d, d_server d <> [] ->
  exists e, run_baseline known audit min code true d = (Some e, mkDb (d_server d) [] (d_branch d)).
Proof. intros known audit min code d N. unfold run_baseline. destruct (d_server d); [contradiction|]. eexists. reflexivity. Qed.
(** A batch that fails leaves the results as they were. Refuted. *)
Definition failed_batches_change_nothing : Prop :=
  forall known audit min code d e d', run_baseline known audit min code false d = (Some e, d') -> d' = d.
Theorem failed_batches_change_nothing_refuted : ~ failed_batches_change_nothing.
Proof.
  intro H. specialize (H no_areas_missing (fun _ => NoResult) 30 None sample_db AssertErr _ eq_refl). discriminate.
Qed.

(** ** C143 *)
(** a baseline made with one version of the code, a branch with another, and their comparison *)
Definition tried (known : string -> string -> bool) (old new : tkey -> ending) (name : string) (min : Q) (d : db) : res (list joined) :=
  match run_baseline known old min None false d with
  | (None, d1) =>
    match run_branch known new name min None d1 with
    | (None, d2) => compare ByData name d2
    | (Some e, _) => Err e
    end
  | (Some e, _) => Err e
  end.
(** C143. An audit of the server's that both versions finish, with results that differ, is listed,
    provided that it was quick with the old version. *)
Theorem changed_results_are_listed_partial :
  forall known old new name min d l, tried known old new name min d = Ok l ->
  forall k a b, due min None (d_server d) k -> known (tk_catalog k) (tk_code k) = true ->
  old k = Gave a -> (o_duration a < min)%Q -> new k = Gave b ->
  (In (mkJoined k a (Some (name, b))) l <-> differs a b).
Proof.
  intros known old new name min d l T k a b D K A Q B. unfold tried in T. destruct (run_baseline known old min None false d) as (e1, d1) eqn:R1. destruct e1; [discriminate|].
  destruct (run_branch known new name min None d1) as (e2, d2) eqn:R2. destruct e2; [discriminate|].
  destruct (baseline_batch_exact _ _ _ _ _ _ _ _ R1) as (_ & _ & _ & E1 & _). destruct (branch_batch_exact _ _ _ _ _ _ _ _ R2) as (_ & B2 & _ & _ & E2 & _).
  specialize (E1 eq_refl). specialize (E2 eq_refl). destruct (comparison_exact ByData name d2) as (_ & C). specialize (C l T (mkJoined k a (Some (name, b)))). rewrite C.
  assert (I1 : In (k, a) (d_baseline d2)) by (rewrite B2; apply E1; auto).
  assert (I2 : In (name, (k, b)) (d_branch d2)) by (apply E2; split; [|auto]; exists a; rewrite <- B2; auto).
  split.
  - intros (k' & a' & b' & _ & _ & D' & _ & J). injection J as <- <- <-. exact D'.
  - intro D'. exists k, a, b. cbn [differs_in]. auto.
Qed.
Print Assumptions changed_results_are_listed_partial.
(** and nothing else is listed *)
Theorem listed_results_have_changed :
  forall known old new name min d l, tried known old new name min d = Ok l ->
  forall j, In j l -> exists a b, old (j_key j) = Gave a /\ new (j_key j) = Gave b /\ differs a b /\ j = mkJoined (j_key j) a (Some (name, b)).
Proof.
  intros known old new name min d l T j J. unfold tried in T. destruct (run_baseline known old min None false d) as (e1, d1) eqn:R1. destruct e1; [discriminate|].
  destruct (run_branch known new name min None d1) as (e2, d2) eqn:R2. destruct e2; [discriminate|].
  destruct (baseline_batch_exact _ _ _ _ _ _ _ _ R1) as (_ & _ & _ & E1 & _). destruct (branch_batch_exact _ _ _ _ _ _ _ _ R2) as (_ & B2 & _ & _ & E2 & _).
  specialize (E1 eq_refl). specialize (E2 eq_refl). destruct (comparison_exact ByData name d2) as (_ & C). apply (C l T j) in J as (k & a & b & Ia & Ib & D & _ & ->).
  rewrite B2 in Ia. apply E1 in Ia. apply E2 in Ib. exists a, b. cbn [j_key]. intuition.
Qed.
Print Assumptions listed_results_have_changed.
(** Every audit that ends otherwise with the new version is listed. Refuted: one that raises or runs
    out of time with the new version is not. *)
Definition ends_otherwise (a b : ending) : Prop :=
  match a, b with
  | Gave x, Gave y => differs x y
  | Gave _, _ | _, Gave _ => True
  | _, _ => False
  end.
Definition every_change_is_listed : Prop :=
  forall known old new name min d l k, tried known old new name min d = Ok l ->
  due min None (d_server d) k -> known (tk_catalog k) (tk_code k) = true -> ends_otherwise (old k) (new k) ->
  exists j, In j l /\ j_key j = k.
Definition fails_for (n : string) (o : outcome) (k : tkey) : ending := if tk_stnum k =? n then Raised else Gave o.
Theorem every_change_is_listed_refuted : ~ every_change_is_listed.
Proof.
  intro H. destruct (H no_areas_missing (always (sample true 2)) (fails_for "1" (sample true 2)) "new" 30 sample_db [] (sample_key "1") eq_refl) as (j & [] & _).
  - exists (sample true 1). split; [left; reflexivity|]. split; [reflexivity|exact Logic.I].
  - reflexivity.
  - exact Logic.I.
Qed.
(** Nor is one that was slow with the old version, whatever the new version gives. *)
Theorem slow_results_are_not_compared :
  forall known old new name min d l k a, tried known old new name min d = Ok l ->
  old k = Gave a -> (min <= o_duration a)%Q -> forall j, In j l -> j_key j <> k.
Proof.
  intros known old new name min d l k a T A S j J <-. unfold tried in T. destruct (run_baseline known old min None false d) as (e1, d1) eqn:R1. destruct e1; [discriminate|].
  destruct (run_branch known new name min None d1) as (e2, d2) eqn:R2. destruct e2; [discriminate|].
  destruct (baseline_batch_exact _ _ _ _ _ _ _ _ R1) as (_ & _ & _ & E1 & _). destruct (branch_batch_exact _ _ _ _ _ _ _ _ R2) as (_ & B2 & _ & _ & E2 & _).
  specialize (E1 eq_refl). specialize (E2 eq_refl). destruct (comparison_exact ByData name d2) as (_ & C). apply (C l T j) in J as (k & x & b & Ia & Ib & D & _ & ->). cbn [j_key] in *.
  apply E2 in Ib as ((o & I & L & _) & _). apply E1 in I as (_ & _ & I). assert (o = a) by congruence. subst o. apply Qlt_not_le in L. contradiction.
Qed.
Example slow_example : exists l, tried no_areas_missing (always (sample true 40)) (always (sample false 1)) "new" 30 sample_db = l /\ l = Err AssertErr.
Proof. eexists. split; reflexivity. Qed.
(** The last two lines. The nearest whole number towards zero: *)
Definition toward (q : Q) (z : Z) : Prop :=
  (0 <= q -> inject_Z z <= q /\ q < inject_Z (z + 1))%Q /\ (q < 0 -> inject_Z (z - 1) < q /\ q <= inject_Z z)%Q.
Lemma cut_toward q z : toward (q * 1000) z -> (cut q == inject_Z z / 1000)%Q.
Proof.
  intros [P N]. assert (S : (0 <= q * 1000 <-> 0 <= q)%Q).
  { split; intro H; [apply (Qmult_le_r _ _ 1000); [reflexivity|rewrite Qmult_0_l; exact H]|apply Qmult_le_0_compat; [exact H|discriminate]]. }
  unfold cut. destruct (Qle_bool 0 q) eqn:E.
  - apply Qle_bool_iff, S in E. destruct (P E) as [A B]. assert (F : Qfloor (q * 1000) = z).
    { apply Z.le_antisymm.
      - apply Z.lt_succ_r. rewrite Zlt_Qlt. eapply Qle_lt_trans; [apply Qfloor_le|exact B].
      - rewrite <- (Qfloor_Z z). apply Qfloor_resp_le, A. }
    rewrite F. reflexivity.
  - assert (L : (q * 1000 < 0)%Q). { apply Qnot_le_lt. intro H. apply S in H. apply Qle_bool_iff in H. congruence. }
    destruct (N L) as [A B]. assert (F : Qceiling (q * 1000) = z).
    { apply Z.le_antisymm.
      - rewrite <- (Qceiling_Z z). apply Qceiling_resp_le, B.
      - assert (H : (z - 1 < Qceiling (q * 1000))%Z); [|lia]. rewrite Zlt_Qlt. eapply Qlt_le_trans; [exact A|apply Qle_ceiling]. }
    rewrite F. reflexivity.
Qed.
Lemma toward_exists q : exists z, toward q z.
Proof.
  destruct (Qlt_le_dec q 0) as [L|L].
  - exists (Qceiling q). split; [intro H; exfalso; apply (Qlt_not_le _ _ L H)|]. intros _. split; [apply Qceiling_lt|apply Qle_ceiling].
  - exists (Qfloor q). split; [|intro H; exfalso; apply (Qlt_not_le _ _ H L)]. intros _. split; [apply Qfloor_le|apply Qlt_floor].
Qed.
Lemma toward_Z q z : (q == inject_Z z)%Q -> toward q z.
Proof.
  intro E. split; intros _; rewrite E; (split; [|try apply Qle_refl]); try apply Qle_refl; rewrite <- Zlt_Qlt; lia.
Qed.
(** the values there are *)
Definition values (f : joined -> option Q) (rows : list joined) : list Q := flat_map (fun j => match f j with Some v => [v] | None => [] end) rows.
(** Each value is cut to thousandths and the sum is of these; the average is the sum over the number
    of results of the branch, cut to thousandths. *)
Theorem totals_and_averages :
  forall f rows, exists zs, Forall2 (fun v z => toward (v * 1000) z) (values f rows) zs /\
    (total f rows == inject_Z (fold_right Z.add 0%Z zs) / 1000)%Q /\
    forall run d, results_of run d <> [] ->
      exists a, toward (inject_Z (fold_right Z.add 0%Z zs) / inject_Z (Z.of_nat (List.length (results_of run d)))) a /\
        (average f run rows d == inject_Z a / 1000)%Q.
Proof.
  intros f rows. assert (H : forall vs, exists zs, Forall2 (fun v z => toward (v * 1000) z) vs zs).
  { induction vs as [|v vs [zs F]]; [exists []; constructor|]. destruct (toward_exists (v * 1000)) as [z T]. exists (z :: zs). constructor; assumption. }
  destruct (H (values f rows)) as [zs F]. exists zs. split; [exact F|].
  assert (S : forall s0, (fold_left (fun s j => match f j with Some v => (s + cut v)%Q | None => s end) rows s0 == s0 + inject_Z (fold_right Z.add 0%Z zs) / 1000)%Q).
  { clear H. revert zs F. induction rows as [|j rows IH]; intros zs F s0; cbn [fold_left values flat_map] in *.
    - inversion F; subst. cbn [fold_right]. field.
    - destruct (f j) as [v|]; cbn [app] in F.
      + inversion F as [|? z ? zs' T F']; subst. rewrite (IH zs' F'), (cut_toward v z T). cbn [fold_right]. rewrite inject_Z_plus. field.
      + apply IH, F. }
  assert (T : (total f rows == inject_Z (fold_right Z.add 0%Z zs) / 1000)%Q).
  { unfold total. apply cut_toward, toward_Z. rewrite S. field. }
  split; [exact T|]. intros run d NE. set (n := Z.of_nat (List.length (results_of run d))). assert (P : (0 < n)%Z) by (unfold n; destruct (results_of run d); [congruence|cbn; lia]).
  destruct (toward_exists (inject_Z (fold_right Z.add 0%Z zs) / inject_Z n)) as [a A]. exists a. split; [exact A|]. unfold average. fold n.
  apply cut_toward. assert (E : (total f rows / inject_Z n * 1000 == inject_Z (fold_right Z.add 0%Z zs) / inject_Z n)%Q).
  { rewrite T. field. intro Z0. unfold Qeq in Z0. cbn in Z0. lia. }
  unfold toward in *. rewrite E. exact A.
Qed.
Print Assumptions totals_and_averages.
Example totals_example :
  let j v := mkJoined (sample_key "1") (sample true v) None in
  let rows := [j (12345 # 10000); j (-12345 # 10000); j (-6 # 10000); j (5 # 10000); j (10009 # 10000)]%Q in
  Qeq_bool (total (left_of o_duration) rows) 1 = true /\
  Qeq_bool (average (left_of o_duration) "new" rows (mkDb [] [] [("new", (sample_key "1", sample true 1)); ("new", (sample_key "2", sample true 1)); ("new", (sample_key "3", sample true 1))])) (333 # 1000) = true.
Proof. split; vm_compute; reflexivity. Qed.

(** The average is that of the rows listed. Refuted: the sum of the rows listed is divided by the
    number of all results of the branch. *)
Definition averages_are_those_of_the_rows : Prop :=
  forall name d l, compare ByData name d = Ok l -> l <> [] ->
  average (left_of o_gpa) name l d = cut (total (left_of o_gpa) l / inject_Z (Z.of_nat (List.length l))).
Theorem averages_are_those_of_the_rows_refuted : ~ averages_are_those_of_the_rows.
Proof.
  intro H. set (d := mkDb [] [(sample_key "1", sample true 1); (sample_key "2", sample true 1)] [("new", (sample_key "1", sample false 1)); ("new", (sample_key "2", sample true 1))]).
  specialize (H "new" d _ eq_refl). assert (E := H ltac:(discriminate)). vm_compute in E. discriminate.
Qed.
