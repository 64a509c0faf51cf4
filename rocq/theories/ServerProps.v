(** What the queue workers do with items and results, over all runs. *)
From Coq Require Import List ZArith Bool String Arith Lia Permutation.
From Verif Require Import Prelude Server ServerSpec ServerProofs ServerHist ServerActive.
Import ListNotations.
Local Open Scope Z_scope.

(** ** C52 *)
Theorem work_is_invisible_until_commit :
  forall s e s', step s e = Some s' ->
  match e with
  | Enqueue _ _ _ _ _ _ _ _ _ | Expire _ | Commit _ => True
  | _ => queue (db s') = queue (db s) /\ results (db s') = results (db s)
  end.
Proof.
  intros s e s' ST. destruct (step_effect s e s' ST) as [AC|w q0 E|w h0 AC G Q R]; [destruct e; try discriminate AC; exact I|subst e; exact I|].
  destruct e; auto.
Qed.
Print Assumptions work_is_invisible_until_commit.

(** COMMIT removes the rows the worker holds and stores its result, or, after a failed
    statement, changes nothing and gives the rows back. *)
Theorem commit_is_all_or_nothing :
  forall s w s', step s (Commit w) = Some s' ->
  let t := tx (get s w) in
  (t_bad t = true -> db s' = db s) /\
  (t_bad t = false ->
     (forall q, In q (queue (db s')) <-> In q (queue (db s)) /\ ~ holds s w (q_id q)) /\
     (forall r, In r (results (db s')) <->
        (exists r0, In r0 (results (db s)) /\ ~ In (r_id r0) (t_del t) /\
           ((~ In (r_id r0) (t_off t) /\ r = r0) \/
            (In (r_id r0) (t_off t) /\ r = mkR (r_id r0) (r_student r0) (r_code r0) (r_catalog r0) (r_run r0) (r_expires r0) (r_link r0) (r_result r0) (r_ts r0) false (r_revision r0)))) \/
        t_ins t = Some r)) /\
  (forall id, ~ holds s' w id) /\ forall v, v <> w -> get s' v = get s v.
Proof.
  intros s w s' ST t. destruct (step_effect s _ s' ST) as [AC|w' q0 [= <-] DB HH G P|w' h0 AC G Q R HH F U NC]; [discriminate| |destruct (NC w eq_refl)].
  fold t in DB. rewrite DB. split; [|split; [|split; [|exact G]]].
  - intro B. unfold commit. rewrite B. reflexivity.
  - intro B. split.
    + intro q. rewrite commit_queue. unfold holds. fold t. intuition congruence.
    + intro r. rewrite commit_results, in_seen. split.
      * intros [[B' _]|[_ [(r0 & J & N & ->)|E]]]; [congruence| |right; exact E]. left. exists r0. split; [exact J|]. split; [exact N|].
        destruct (memZ (r_id r0) (t_off t)) eqn:M; [right|left]; (split; [|reflexivity]); [apply memZ_in, M|apply memZ_out, M].
      * intro H. right. split; [exact B|]. destruct H as [(r0 & J & N & [[M ->]|[M ->]])|E]; [| |right; exact E]; left; exists r0; (split; [exact J|]); (split; [exact N|]).
        -- apply memZ_out in M. rewrite M. reflexivity.
        -- apply memZ_in in M. rewrite M. reflexivity.
  - cbn [step] in ST. intros id H. unfold holds in H.
    destruct (pc (get s w)) eqn:PC; try discriminate ST; alive PC; injection ST as <-; rewrite get_put in H by exact L; rewrite Nat.eqb_refl in H; exact H.
Qed.
Print Assumptions commit_is_all_or_nothing.

(** A worker that stops gives everything back. *)
Theorem a_stopped_worker_leaves_no_trace :
  forall d n s w s', sound_db d -> reachable d n s -> step s (Crash w) = Some s' ->
  queue (db s') = queue (db s) /\ results (db s') = results (db s) /\
  (forall v, v <> w -> get s' v = get s v) /\
  (forall id, holds s w id -> (forall v, ~ holds s' v id) /\ In id (map q_id (queue (db s')))).
Proof.
  intros d n s w s' SD RE ST. destruct (reachable_inv d n s SD RE) as (_ & _ & C & D).
  destruct (work_is_invisible_until_commit _ _ _ ST) as [Q R]. split; [exact Q|]. split; [exact R|].
  destruct (step_effect s _ s' ST) as [AC|? ? E|w' h0 [= <-] G Q' R' HH F U NC]; [discriminate|discriminate|]. split; [exact G|].
  intros id H. split.
  - intros v K. destruct (Nat.eq_dec v w) as [->|N].
    + cbn [step] in ST. destruct (pc (get s w)) eqn:PC; try discriminate ST; alive PC; injection ST as <-; unfold holds in K; rewrite get_move in K by exact L; rewrite Nat.eqb_refl in K; exact K.
    + unfold holds in K. rewrite G in K by exact N. exact (D v w id N K H).
  - rewrite Q. apply (C w). exact H.
Qed.
Print Assumptions a_stopped_worker_leaves_no_trace.

(** An item stays in the queue as it is until its removal is committed, and it is removed
    only with its result, or with a log entry; unless a worker is stopped between the COMMIT
    and the log entry. *)
Theorem items_are_settled :
  forall d n s es s' q, sound_db d -> reachable d n s -> run s es = Some s' -> In q (queue (db s)) ->
  In q (queue (db s')) \/
  removed s' (q_id q) /\
  ((exists r, In (HSaved (q_id q) r) (hist s') /\ result_of q r) \/ logged s' (q_id q) \/
   (exists w q', pc (get s' w) = PUnlogged q' /\ q_id q' = q_id q) \/ stopped_before_logging s es (q_id q)).
Proof.
  intros d n s es s' q SD RE R Q. destruct (reachable_hinv d n s SD RE) as [I H].
  destruct (settle_run es s s' q (fun _ => False) I H R (or_introl Q)) as [X|[X Y]]; [left; exact X|right]. split; [exact X|].
  unfold settled_or in Y. tauto.
Qed.
Print Assumptions items_are_settled.

(** No item is removed twice, none has two results, and none comes back. *)
Theorem items_are_settled_once :
  forall d n s, sound_db d -> reachable d n s ->
  NoDup (removed_ids (hist s)) /\ NoDup (saved_ids (hist s)) /\
  (forall id, removed s id -> ~ In id (map q_id (queue (db s)))) /\
  (forall id, saved s id -> removed s id) /\
  (forall v w id, holds s v id -> holds s w id -> v = w).
Proof.
  intros d n s SD RE. destruct (reachable_rinv d n s SD RE) as (A & B & C & D). destruct (reachable_inv d n s SD RE) as (_ & _ & _ & E).
  assert (RI : forall id, removed s id <-> In id (removed_ids (hist s))).
  { intro id. unfold removed, removed_ids. rewrite in_flat_map. split; [intro J; exists (HRemoved id); split; [exact J|left; reflexivity]|].
    intros (f & J & K). destruct f; try (destruct K; fail). destruct K as [<-|[]]. exact J. }
  split; [exact A|]. split; [exact C|]. split; [intros id J; apply RI in J; apply B, J|]. split.
  - intros id (r & J). apply RI. apply D. unfold saved_ids. rewrite in_flat_map. exists (HSaved id r). split; [exact J|left; reflexivity].
  - intros v w id H K. destruct (Nat.eq_dec v w) as [X|X]; [exact X|]. destruct (E v w id X H K).
Qed.
Print Assumptions items_are_settled_once.

(** *** Witnesses *)
Definition item1 : qrow := mkQ 1 5 10 "jo" "123" "2019-20" "130" 7 None false.
Definition item2 : qrow := mkQ 2 1 11 "jo" "123" "2019-20" "130" 7 None false.
Definition old_result : rrow := mkR 1 "123" "130" "2019-20" 6 None false "old" 100 true 1.
Definition db1 : database := mkDb [item1] [] 3 2.
Definition db2 : database := mkDb [item1; item2] [old_result] 3 2.
Definition no_tie (_ : Z) : Z := 0.

Lemma sound_db1 : sound_db db1.
Proof. unfold sound_db, db1. cbn. repeat split; try (repeat constructor; cbn; intuition lia); intros ? [<-|[]]; cbn; lia. Qed.
Lemma sound_db2 : sound_db db2.
Proof. unfold sound_db, db2. cbn. repeat split; try (repeat constructor; cbn; intuition lia). - intros ? [<-|[<-|[]]]; cbn; lia. - intros ? [<-|[]]; cbn; lia. Qed.

(** The failure is committed, the worker is stopped, and nothing tells that the item failed. *)
Theorem failures_are_logged_refuted :
  exists es s', run (initial db1 1) es = Some s' /\ queue (db s') = [] /\ results (db s') = [] /\
    removed s' 1 /\ ~ saved s' 1 /\ ~ logged s' 1 /\ pc (get s' 0) = PDead.
Proof.
  exists [Start 0; Take 0 no_tie; Fail 0 false; Commit 0; Crash 0]. eexists. split; [vm_compute; reflexivity|].
  unfold removed, saved, logged. cbn. repeat split; auto.
  - intros (r & [H|[H|[]]]); discriminate.
  - intros [H|[H|[]]]; discriminate.
Qed.
Print Assumptions failures_are_logged_refuted.

(** The parameters of the INSERT are made after the old results were deleted and deactivated;
    if that raises, the student is left without an active result (or without any). *)
Theorem failures_keep_the_old_result_refuted :
  exists es s', run (initial db2 1) es = Some s' /\ logged s' 1 /\ ~ saved s' 1 /\
    In old_result (results db2) /\ r_active old_result = true /\ (forall r, In r (results (db s')) -> r_active r = false) /\
  exists es2 s2, run (initial db2 1) es2 = Some s2 /\ logged s2 1 /\ ~ saved s2 1 /\ results (db s2) = [].
Proof.
  exists [Start 0; Take 0 no_tie; Computed 0 "new"; Delete1 0; Delete2 0; Update1 0; Update2 0; Raise 0; Commit 0]. eexists. split; [vm_compute; reflexivity|].
  unfold logged, saved. cbn. repeat split; auto.
  - intros (r & [H|[H|[H|[]]]]); discriminate.
  - intros r [<-|[]]. reflexivity.
  - exists [Start 0; Take 0 no_tie; Computed 0 "old"; Delete1 0; Delete2 0; Update1 0; Update2 0; Raise 0; Commit 0]. eexists. split; [vm_compute; reflexivity|].
    cbn. repeat split; auto. intros (r & [H|[H|[H|[]]]]); discriminate.
Qed.
Print Assumptions failures_keep_the_old_result_refuted.

(** After a failed statement COMMIT is a ROLLBACK: the item is logged as failed and stays, and
    it is taken again at once, for ever, before items of lower priority. *)
Definition failing_round : list event := [Take 0 no_tie; Computed 0 "new"; SqlError 0; Commit 0].
Lemma failing_round_returns h :
  run (mkS db2 [mkW PTop false 0 no_txn] h) failing_round = Some (mkS db2 [mkW PTop false 0 no_txn] (HLogged 1 :: HTook 1 :: h)).
Proof. reflexivity. Qed.
Theorem failed_items_leave_the_queue_refuted :
  forall n, exists es s', run (initial db2 1) es = Some s' /\ (4 * n <= List.length es)%nat /\ db s' = db2 /\
    taken_ids (hist s') = repeat 1 n /\ ~ removed s' 1 /\ ~ removed s' 2.
Proof.
  assert (G : forall n h, exists es, run (mkS db2 [mkW PTop false 0 no_txn] h) es = Some (mkS db2 [mkW PTop false 0 no_txn] (List.concat (repeat [HLogged 1; HTook 1] n) ++ h)) /\ List.length es = (4 * n)%nat).
  { induction n as [|n IH]; intro h; [exists []; split; reflexivity|]. destruct (IH h) as (es & R & LE).
    exists (es ++ failing_round). rewrite run_app, R, failing_round_returns. split; [reflexivity|]. rewrite app_length, LE. cbn [List.length failing_round]. lia. }
  intro n. destruct (G n []) as (es & R & LE). exists (Start 0 :: es). eexists. split; [exact R|]. split; [cbn [List.length]; lia|]. split; [reflexivity|].
  cbn [hist]. rewrite app_nil_r. assert (T : taken_ids (List.concat (repeat [HLogged 1; HTook 1] n)) = repeat 1 n).
  { clear. induction n as [|n IH]; [reflexivity|]. cbn [repeat List.concat app taken_ids flat_map]. f_equal. exact IH. }
  split; [exact T|]. unfold removed. cbn [hist].
  assert (N : forall id, ~ In (HRemoved id) (List.concat (repeat [HLogged 1; HTook 1] n))).
  { clear. intros id. induction n as [|n IH]; [intros []|]. cbn [repeat List.concat app]. intros [H|[H|H]]; [discriminate|discriminate|exact (IH H)]. }
  rewrite ?app_nil_r. split; apply N.
Qed.
Print Assumptions failed_items_leave_the_queue_refuted.

(** An item of an unknown area is removed together with the next one: if the result of that
    one cannot be stored, the removal is undone too. *)
Theorem items_of_unknown_areas_are_removed_refuted :
  exists s', run (initial db2 1) [Start 0; Take 0 no_tie; NoArea 0; Take 0 no_tie; Computed 0 "new"; SqlError 0; Commit 0] = Some s' /\
    db s' = db2 /\ logged s' 1 /\ logged s' 2.
Proof. eexists. split; [vm_compute; reflexivity|]. unfold logged. cbn. repeat split; tauto. Qed.
Print Assumptions items_of_unknown_areas_are_removed_refuted.

Definition good_round : list event :=
  [Start 0; Take 0 no_tie; Computed 0 "new"; Delete1 0; Delete2 0; Update1 0; Update2 0; Insert 0 200; Commit 0].
Example saved_example :
  match run (initial db2 1) good_round with
  | Some s => queue (db s) = [item2] /\
      results (db s) = [mkR 1 "123" "130" "2019-20" 6 None false "old" 100 false 1; mkR 2 "123" "130" "2019-20" 7 None false "new" 200 true 2] /\
      hist s = [HSaved 1 (mkR 2 "123" "130" "2019-20" 7 None false "new" 200 true 2); HRemoved 1; HTook 1]
  | None => False
  end.
Proof. vm_compute. repeat split. Qed.
Lemma no_stop es : forallb (fun e => match e with Crash _ => false | _ => true end) es = true -> forall s id, ~ stopped_before_logging s es id.
Proof.
  induction es as [|e es IH]; intros F s id; cbn [stopped_before_logging]; [intros []|]. cbn [forallb] in F. apply andb_prop in F as [F1 F2].
  intros [(w & q & -> & _)|H]; [discriminate|]. destruct (step s e); [exact (IH F2 _ _ H)|exact H].
Qed.
Example settled_example :
  sound_db db2 /\ reachable db2 1 (initial db2 1) /\ In item1 (queue (db (initial db2 1))) /\ ~ stopped_before_logging (initial db2 1) good_round 1.
Proof.
  split; [exact sound_db2|]. split; [exists []; reflexivity|]. split; [left; reflexivity|].
  apply no_stop. reflexivity.
Qed.

(** ** C51 *)
Theorem one_active_result :
  forall d n es s, sound_db d -> throughout apart (initial d n) es -> run (initial d n) es = Some s ->
  (one_active d -> one_active (db s)) /\
  forall r, In r (results (db s)) -> r_active r = true ->
    last_saved (hist s) (r_student r, r_code r) = Some r \/
    last_saved (hist s) (r_student r, r_code r) = None /\ In r (results d).
Proof.
  intros d n es s SD T R. destruct (ainv_run d es _ _ (inv_initial d n SD) (ainv_initial d n SD) T R) as (_ & A & _).
  split; [apply (a_active d s A)|apply (a_last d s A)].
Qed.
Print Assumptions one_active_result.

(** What is stored becomes the active result at once. *)
Theorem a_saved_result_is_active :
  forall d n es s w s' id r, sound_db d -> throughout apart (initial d n) es -> run (initial d n) es = Some s ->
  step s (Commit w) = Some s' -> In (HSaved id r) (hist s') -> ~ In (HSaved id r) (hist s) ->
  In r (results (db s')) /\ (r_link r = false -> r_active r = true) /\ (r_link r = true -> r_active r = false) /\
  (exists q, In q (queue (db s)) /\ q_id q = id /\ result_of q r) /\
  (forall r', In r' (results (db s')) -> of_key (r_student r, r_code r) r' -> r' <> r -> r_revision r' < r_revision r /\ (r_link r = false -> r_active r' = false)).
Proof.
  intros d n es s w s' id r SD T R ST HS HN. destruct (ainv_run d es _ _ (inv_initial d n SD) (ainv_initial d n SD) T R) as (I & A & AP).
  destruct (step_effect s _ s' ST) as [AC|w' q0 [= <-] DB HH G P|w' h0 AC G Q R' HH F U NC]; [discriminate| |destruct (NC w eq_refl)].
  set (t := tx (get s w)) in *. rewrite HH in HS. apply in_app_iff in HS as [HS|HS]; [|contradiction].
  apply facts_in in HS as (TB & [(q & r1 & -> & TI & E)|(i & _ & E)]); [|discriminate]. injection E as -> <-.
  destruct I as (_ & _ & C & _). pose proof (C w) as (_ & _ & W).
  assert (PE : pc (get s w) = PEnd q).
  { destruct P as [[_ P]|(q2 & [= <-] & [P|[P _]])]; [discriminate|exact P|]. rewrite P in W. destruct W as ((_ & _ & _ & W) & _). fold t in W. congruence. }
  rewrite PE in W. destruct W as [(W & _)|(_ & [W0 W1] & W2 & _)]; [fold t in W; congruence|]. fold t in W1, W2. rewrite TI in W2.
  pose proof (a_work d s A w) as AW. unfold work in AW. rewrite PE in AW. fold t in AW. rewrite TI in AW.
  assert (RO := made_result q r W2). destruct RO as (K1 & K2 & K3 & K4 & K5 & K6 & K7).
  rewrite DB. split; [apply commit_results; right; split; [exact TB|]; apply in_seen; right; exact TI|].
  rewrite K7, K6. split; [intros ->; reflexivity|]. split; [intros ->; reflexivity|]. split; [exists q; split; [exact W0|split; [reflexivity|repeat split; auto]]|].
  intros r' J K N. apply commit_results in J as [[B _]|[_ J]]; [congruence|]. apply in_seen in J as [(r0 & J & ND & E)|J]; [|congruence].
  assert (KR : of_key (key_of q) r0).
  { destruct (off_keeps (memZ (r_id r0) (t_off t)) r0) as (_ & E2 & E3 & _). fold t in E. rewrite <- E in E2, E3. unfold of_key, key_of in *. congruence. }
  destruct (AW r0 J KR ND) as [X Y]. split.
  - rewrite E. destruct (off_keeps (memZ (r_id r0) (t_off t)) r0) as (_ & _ & _ & ->). exact X.
  - intro QL. destruct (memZ (r_id r0) (t_off t)) eqn:M; rewrite E; [reflexivity|]. destruct (r_active r0) eqn:RA; [|reflexivity].
    exfalso. apply memZ_out in M. exact (M (Y QL eq_refl)).
Qed.
Print Assumptions a_saved_result_is_active.

Definition db3 : database := mkDb [item1; item2] [] 3 2.
(** Two workers store results of the same student and area at the same time. *)
Theorem one_active_result_with_workers_refuted :
  exists es s, run (initial db3 2) es = Some s /\ forallb orderly es = true /\
    exists r r', In r (results (db s)) /\ In r' (results (db s)) /\ r <> r' /\ of_key (r_student r, r_code r) r' /\
      r_active r = true /\ r_active r' = true /\ r_revision r = r_revision r'.
Proof.
  exists [Start 0; Start 1; Take 0 no_tie; Take 1 no_tie; Computed 0 "a"; Computed 1 "b"; Delete1 0; Delete2 0; Delete1 1; Delete2 1;
          Update1 0; Update2 0; Update1 1; Update2 1; Insert 0 200; Insert 1 201; Commit 0; Commit 1].
  eexists. split; [vm_compute; reflexivity|]. split; [reflexivity|]. do 2 eexists. split; [left; reflexivity|]. split; [right; left; reflexivity|].
  repeat split; discriminate.
Qed.
Print Assumptions one_active_result_with_workers_refuted.
(** Not even an earlier active result makes the second worker wait for the first. *)
Theorem one_active_result_with_waiting_refuted :
  exists es s, run (initial db2 2) es = Some s /\ forallb orderly es = true /\ one_active db2 /\ ~ one_active (db s).
Proof.
  exists [Start 0; Start 1; Take 0 no_tie; Take 1 no_tie; Computed 0 "a"; Computed 1 "b"; Delete1 0; Delete2 0; Delete1 1; Delete2 1;
          Update1 0; Update2 0; Update1 1; Insert 0 200; Commit 0; Update2 1; Insert 1 201; Commit 1].
  eexists. split; [vm_compute; reflexivity|]. split; [reflexivity|]. split.
  - intros r r' [<-|[]] [<-|[]] _ _ _. reflexivity.
  - intro O. specialize (O _ _ (or_intror (or_introl eq_refl)) (or_intror (or_intror (or_introl eq_refl))) eq_refl eq_refl eq_refl). discriminate.
Qed.
Print Assumptions one_active_result_with_waiting_refuted.

Lemma alone_apart es w : (forall e, In e es -> actor e = None \/ actor e = Some w) ->
  forall s, (forall v, v <> w -> pc (get s v) = PDead) -> throughout apart s es.
Proof.
  assert (A : forall s, (forall v, v <> w -> pc (get s v) = PDead) -> apart s).
  { intros s H u v q q' N S S'. destruct (Nat.eq_dec u w) as [->|X].
    - rewrite (H v) in S' by congruence. discriminate.
    - rewrite (H u X) in S. discriminate. }
  induction es as [|e es IH]; intros H s D; cbn [throughout]; (split; [apply A, D|]); [exact I|].
  destruct (step s e) as [s'|] eqn:ST; [|exact I]. apply IH; [intros e' J; apply H; right; exact J|].
  intros v N. destruct (step_effect s e s' ST) as [AC HH Q P|w' q0 -> DB HH G P|w' h0 AC G Q R HH F U NC].
  - rewrite P. apply D, N.
  - destruct (H _ (or_introl eq_refl)) as [E|[= ->]]; [discriminate|]. rewrite G by exact N. apply D, N.
  - destruct (H e (or_introl eq_refl)) as [E|E]; [congruence|]. assert (w' = w) by congruence. subst w'. rewrite G by exact N. apply D, N.
Qed.
Example one_active_example :
  sound_db db2 /\ one_active db2 /\ throughout apart (initial db2 1) good_round.
Proof.
  split; [exact sound_db2|]. split; [intros r r' [<-|[]] [<-|[]] _ _ _; reflexivity|].
  apply (alone_apart good_round 0).
  - intros e J. cbn in J. repeat (destruct J as [<-|J]; [right; reflexivity|]). destruct J.
  - intros v N. destruct v as [|[|v]]; [congruence|reflexivity|reflexivity].
Qed.

(** ** C55 *)
Theorem stored_revisions_are_distinct :
  forall d n es s, sound_db d -> distinct_revisions d -> throughout apart (initial d n) es -> run (initial d n) es = Some s ->
  distinct_revisions (db s).
Proof.
  intros d n es s SD DR T R. destruct (ainv_run d es _ _ (inv_initial d n SD) (ainv_initial d n SD) T R) as (_ & A & _). exact (a_rev d s A DR).
Qed.
Print Assumptions stored_revisions_are_distinct.

(** A new result gets the number after the largest of the results that its transaction has left
    for the student and area, 1 if there is none. *)
Theorem revisions_follow_the_largest :
  forall s w ts s' r, step s (Insert w ts) = Some s' -> t_ins (tx (get s' w)) = Some r ->
  t_ins (tx (get s w)) = None ->
  let left r' := In r' (results (db s)) /\ ~ In (r_id r') (t_del (tx (get s w))) /\ of_key (r_student r, r_code r) r' in
  (forall r', left r' -> r_revision r' < r_revision r) /\
  ((exists r', left r' /\ r_revision r = r_revision r' + 1) \/ (forall r', ~ left r') /\ r_revision r = 1).
Proof.
  intros s w ts s' r ST TI TN. cbn [step] in ST. destruct (pc (get s w)) eqn:PC; try discriminate ST. alive PC. injection ST as <-.
  rewrite get_put in TI by exact L. rewrite Nat.eqb_refl in TI. cbn [tx with_tx t_ins] in TI. injection TI as <-.
  cbn [new_result r_student r_code r_revision]. cbv zeta. set (t := tx (get s w)) in *.
  assert (SE : forall r', (In r' (results (db s)) /\ ~ In (r_id r') (t_del t) /\ of_key (q_stnum q, q_code q) r') <->
                (In r' (results (db s)) /\ ~ In (r_id r') (t_del t)) /\ of_key (key_of q) r') by (intro r'; unfold key_of; tauto).
  assert (IN : forall r', (In r' (results (db s)) /\ ~ In (r_id r') (t_del t)) -> exists x, In x (seen (db s) t) /\ r_revision x = r_revision r' /\ (of_key (key_of q) r' <-> of_key (key_of q) x)).
  { intros r' [A B]. exists (if memZ (r_id r') (t_off t) then off r' else r'). destruct (off_keeps (memZ (r_id r') (t_off t)) r') as (_ & K1 & K2 & K3).
    split; [apply in_seen; left; exists r'; auto|]. split; [exact K3|]. unfold of_key, key_of. rewrite K1, K2. tauto. }
  assert (OUT : forall x, In x (seen (db s) t) -> exists r', (In r' (results (db s)) /\ ~ In (r_id r') (t_del t)) /\ r_revision x = r_revision r' /\ (of_key (key_of q) r' <-> of_key (key_of q) x)).
  { intros x J. apply in_seen in J as [(r1 & J & ND & E)|J]; [|congruence]. exists r1. destruct (off_keeps (memZ (r_id r1) (t_off t)) r1) as (_ & K1 & K2 & K3).
    rewrite <- E in K1, K2, K3. split; [auto|]. split; [exact K3|]. unfold of_key, key_of. rewrite K1, K2. tauto. }
  split.
  - intros r' H. apply SE in H. destruct H as [H K]. destruct (IN r' H) as (x & J & E & KK). rewrite <- E. apply next_revision_greater; tauto.
  - destruct (next_revision_from q (seen (db s) t)) as [(x & J & K & E)|[NO E]].
    + left. destruct (OUT x J) as (r' & H & E' & KK). exists r'. split; [apply SE; tauto|]. rewrite E, E'. reflexivity.
    + right. split; [|exact E]. intros r' H. apply SE in H. destruct H as [H K]. destruct (IN r' H) as (x & J & _ & KK). apply (NO x J). tauto.
Qed.
Print Assumptions revisions_follow_the_largest.

(** A result equal to the newest one replaces it under the same number; and after the results
    between them have expired, numbers go down. *)
Definition again (q : qrow) (res : string) (ts : Z) : list event :=
  [Enqueue (q_priority q) (q_ts q) (q_student q) (q_stnum q) (q_catalog q) (q_code q) (q_run q) (q_expires q) (q_link q);
   Take 0 no_tie; Computed 0 res; Delete1 0; Delete2 0; Update1 0; Update2 0; Insert 0 ts; Commit 0].
Definition brief (e : Z) : qrow := mkQ 0 5 10 "jo" "123" "2019-20" "130" 7 (Some e) false.
Example revisions_example :
  exists s, run (initial (mkDb [] [] 1 1) 1) (Start 0 :: again item1 "a" 1 ++ again item1 "b" 2 ++ again item1 "c" 3) = Some s /\
    map r_revision (results (db s)) = [1; 2; 3].
Proof. eexists. split; [vm_compute; reflexivity|]. reflexivity. Qed.
Theorem revisions_increase_refuted :
  exists es s r r', run (initial (mkDb [] [] 1 1) 1) (Start 0 :: es) = Some s /\ forallb orderly es = true /\
    hist s = [HSaved 4 r'; HRemoved 4; HTook 4; HSaved 3 r; HRemoved 3; HTook 3] ++ skipn 6 (hist s) /\
    of_key (r_student r, r_code r) r' /\ r_revision r' < r_revision r.
Proof.
  exists (again item1 "a" 1 ++ again (brief 5) "b" 2 ++ again item1 "c" 3 ++ [Expire 10] ++ again item1 "c" 4).
  do 3 eexists. split; [vm_compute; reflexivity|]. repeat split.
Qed.
Print Assumptions revisions_increase_refuted.

(** ** C53 *)
Theorem the_first_item_is_taken :
  forall s w tie s' q, step s (Take w tie) = Some s' -> pc (get s' w) = PItem q ->
  In q (queue (db s)) /\ (forall v, ~ holds s v (q_id q)) /\ holds s' w (q_id q) /\
  forall q', In q' (queue (db s)) -> (forall v, ~ holds s v (q_id q')) -> ~ precedes q' q.
Proof.
  intros s w tie s' q ST P. cbn [step] in ST. destruct (pc (get s w)) eqn:PC; try discriminate ST. alive PC.
  destruct (next_row s tie) as [q1|] eqn:E; injection ST as <-; rewrite get_move in P by exact L; rewrite Nat.eqb_refl in P; [|discriminate].
  injection P as ->. destruct (next_row_some s tie q E) as (A & B & C). repeat split; auto.
  unfold holds. rewrite get_move by exact L. rewrite Nat.eqb_refl. left. reflexivity.
Qed.
Print Assumptions the_first_item_is_taken.
Theorem nothing_is_left_when_a_worker_finds_nothing :
  forall s w tie s', step s (Take w tie) = Some s' ->
  (pc (get s' w) = PClose <-> forall q, In q (queue (db s)) -> exists v, holds s v (q_id q)) /\
  (pc (get s' w) = PClose \/ exists q, pc (get s' w) = PItem q).
Proof.
  intros s w tie s' ST. cbn [step] in ST. destruct (pc (get s w)) eqn:PC; try discriminate ST. alive PC.
  destruct (next_row s tie) as [q1|] eqn:E; injection ST as <-; rewrite get_move by exact L; rewrite Nat.eqb_refl; cbn [with_tx at_pc pc].
  - split; [|right; eauto]. split; [discriminate|]. intro H. destruct (next_row_some s tie q1 E) as (A & B & _). destruct (H q1 A) as (v & K). destruct (B v K).
  - split; [|left; reflexivity]. split; [|reflexivity]. intros _. apply (next_row_none s tie E).
Qed.
Print Assumptions nothing_is_left_when_a_worker_finds_nothing.
