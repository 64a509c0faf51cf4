(** What clearing expired results keeps and removes. *)
From Coq Require Import List ZArith Bool String Arith Lia.
From Verif Require Import Prelude Server ServerSpec ServerProofs ServerProps.
Import ListNotations.
Local Open Scope string_scope.
Local Open Scope list_scope.
Local Open Scope Z_scope.

(** two results of the same student, catalog and area *)
Definition alike (a b : rrow) : Prop := r_student a = r_student b /\ r_catalog a = r_catalog b /\ r_code a = r_code b.
Definition over (now : Z) (r : rrow) : Prop := exists t, r_expires r = Some t /\ t <= now.
(** no result like it is more recent *)
Definition newest (l : list rrow) (r : rrow) : Prop := forall i, In i l -> alike i r -> r_ts i <= r_ts r.

Lemma over_spec now r : expired now r = true <-> over now r.
Proof.
  unfold expired, over. destruct (r_expires r) as [e|]; [rewrite Z.leb_le|]; split.
  - intro H. exists e. auto.
  - intros (t & E & H). injection E as ->. exact H.
  - discriminate.
  - intros (t & E & _). discriminate.
Qed.
Lemma alike_spec i r : String.eqb (r_student i) (r_student r) && String.eqb (r_catalog i) (r_catalog r) && String.eqb (r_code i) (r_code r) = true <-> alike i r.
Proof. unfold alike. rewrite !andb_true_iff, !String.eqb_eq. tauto. Qed.
Lemma cleared l now r : In r (clear_expired now l) <-> In r l /\ (over now r -> newest l r).
Proof.
  unfold clear_expired. rewrite filter_In, negb_true_iff, andb_false_iff. split; intros [A B]; (split; [exact A|]).
  - intros O i J K. destruct B as [B|B]; [apply over_spec in O; congruence|]. destruct (Z.le_gt_cases (r_ts i) (r_ts r)) as [L|L]; [exact L|]. exfalso.
    assert (X : existsb (fun i => String.eqb (r_student i) (r_student r) && String.eqb (r_catalog i) (r_catalog r) && String.eqb (r_code i) (r_code r) && (r_ts r <? r_ts i)) l = true).
    { apply existsb_exists. exists i. split; [exact J|]. apply andb_true_intro. split; [apply alike_spec, K|apply Z.ltb_lt, L]. }
    congruence.
  - destruct (expired now r) eqn:E; [|left; reflexivity]. right. apply over_spec in E. destruct (existsb _ l) eqn:X; [|reflexivity]. exfalso.
    apply existsb_exists in X as (i & J & X). apply andb_prop in X as [X1 X2]. apply alike_spec in X1. apply Z.ltb_lt in X2. specialize (B E i J X1). lia.
Qed.

(** What is left after [clear_expired] is what was there, less the expired results that are not the
    most recent of their kind; the queue and the work in hand are left alone. *)
Theorem expiry_removes_superseded_results_only :
  forall s now s', step s (Expire now) = Some s' ->
  (forall r, In r (results (db s')) <-> In r (results (db s)) /\ (over now r -> newest (results (db s)) r)) /\
  (exists keep, results (db s') = filter keep (results (db s))) /\
  queue (db s') = queue (db s) /\ workers s' = workers s /\ hist s' = hist s.
Proof.
  intros s now s' ST. cbn [step] in ST. destruct (forallb _ _); [|discriminate]. injection ST as <-. cbn [db results queue workers hist].
  split; [intro r; apply cleared|]. split; [eexists; reflexivity|auto].
Qed.
Print Assumptions expiry_removes_superseded_results_only.

Lemma alike_trans a b c : alike a b -> alike b c -> alike a c.
Proof. intros (? & ? & ?) (? & ? & ?). repeat split; congruence. Qed.
Lemma alike_sym a b : alike a b -> alike b a.
Proof. intros (? & ? & ?). repeat split; congruence. Qed.
Lemma newest_of l : forall r, In r l -> exists m, In m l /\ alike m r /\ newest l m.
Proof.
  assert (G : forall k l0 r, incl l0 l -> In r l -> (List.length l0 <= k)%nat -> (forall i, In i l -> alike i r -> r_ts r < r_ts i -> In i l0) ->
    exists m, In m l /\ alike m r /\ newest l m).
  { induction k as [|k IH]; intros l0 r IN J LE H.
    - exists r. split; [exact J|]. split; [repeat split|]. intros i Ji A. destruct (Z.le_gt_cases (r_ts i) (r_ts r)) as [L|L]; [exact L|]. destruct l0; [destruct (H i Ji A L)|cbn in LE; lia].
    - destruct (existsb (fun i => String.eqb (r_student i) (r_student r) && String.eqb (r_catalog i) (r_catalog r) && String.eqb (r_code i) (r_code r) && (r_ts r <? r_ts i)) l) eqn:E.
      + apply existsb_exists in E as (i & Ji & E). apply andb_prop in E as [E1 E2]. apply alike_spec in E1. apply Z.ltb_lt in E2.
        destruct (IH (filter (fun x => r_ts i <? r_ts x) l0) i) as (m & M1 & M2 & M3).
        * intros x X. apply filter_In in X as [X _]. apply IN, X.
        * exact Ji.
        * assert (Ki := H i Ji E1 E2). clear - Ki LE. 
          assert (X : forall l0, In i l0 -> (List.length (filter (fun x => (r_ts i <? r_ts x)%Z) l0) < List.length l0)%nat).
          { assert (Y : forall l0, (List.length (filter (fun x => (r_ts i <? r_ts x)%Z) l0) <= List.length l0)%nat) by (induction l1 as [|x t IHt]; cbn; [lia|destruct (_ <? _); cbn; lia]).
            induction l1 as [|x t IHt]; [intros []|]. intros [->|K]; cbn [filter List.length].
            - rewrite Z.ltb_irrefl. specialize (Y t). lia.
            - specialize (IHt K). destruct (_ <? _); cbn [List.length]; lia. }
          specialize (X l0 Ki). lia.
        * intros x Jx A L. apply filter_In. split; [|apply Z.ltb_lt, L]. apply H; [exact Jx|exact (alike_trans _ _ _ A E1)|lia].
        * exists m. split; [exact M1|]. split; [exact (alike_trans _ _ _ M2 E1)|exact M3].
      + exists r. split; [exact J|]. split; [repeat split|]. intros i Ji A. destruct (Z.le_gt_cases (r_ts i) (r_ts r)) as [L|L]; [exact L|]. exfalso.
        assert (X : existsb (fun i => String.eqb (r_student i) (r_student r) && String.eqb (r_catalog i) (r_catalog r) && String.eqb (r_code i) (r_code r) && (r_ts r <? r_ts i)) l = true).
        { apply existsb_exists. exists i. split; [exact Ji|]. apply andb_true_intro. split; [apply alike_spec, A|apply Z.ltb_lt, L]. }
        congruence. }
  intros r J. apply (G (List.length l) l r); auto. intros x X; exact X.
Qed.

(** Whoever had a result for a catalog and an area still has one, and the most recent one. *)
Theorem expiry_keeps_the_newest_result :
  forall s now s' r, step s (Expire now) = Some s' -> In r (results (db s)) ->
  (newest (results (db s)) r -> In r (results (db s'))) /\
  exists m, In m (results (db s')) /\ alike m r /\ r_ts r <= r_ts m /\ newest (results (db s)) m.
Proof.
  intros s now s' r ST J. destruct (expiry_removes_superseded_results_only s now s' ST) as (H & _).
  split; [intro N; apply H; auto|]. destruct (newest_of _ r J) as (m & M1 & M2 & M3). exists m. split; [apply H; auto|]. split; [exact M2|]. split; [|exact M3]. exact (M3 r J (alike_sym _ _ M2)).
Qed.
Print Assumptions expiry_keeps_the_newest_result.

(** But the result it keeps need not be the active one: a later result that is only linked to
    stands in for it, and then no active result is left. *)
Definition lasting : qrow := mkQ 1 5 10 "jo" "123" "2019-20" "130" 7 (Some 50) false.
Definition linked : qrow := mkQ 2 1 11 "jo" "123" "2019-20" "130" 7 None true.
Theorem expiry_keeps_the_active_result_refuted :
  exists es now s s', run (initial (mkDb [lasting; linked] [] 3 1) 1) es = Some s /\ step s (Expire now) = Some s' /\
  (exists r, In r (results (db s)) /\ r_active r = true) /\ (exists r, In r (results (db s'))) /\ forall r, In r (results (db s')) -> r_active r = false.
Proof.
  exists [Start 0; Take 0 no_tie; Computed 0 "a"; Delete1 0; Delete2 0; Update1 0; Update2 0; Insert 0 20; Commit 0;
          Take 0 no_tie; Computed 0 "b"; Insert 0 30; Commit 0], 60.
  eexists. eexists. split; [vm_compute; reflexivity|]. split; [vm_compute; reflexivity|].
  split; [eexists; split; [left; reflexivity|reflexivity]|]. split; [eexists; left; reflexivity|].
  intros r [<-|[]]. reflexivity.
Qed.
Print Assumptions expiry_keeps_the_active_result_refuted.
Example expiry_example :
  let r ts ex := mkR ts "123" "130" "2019-20" 7 ex false "x" ts false ts in
  exists s', step (initial (mkDb [] [r 1 (Some 5); r 2 None; r 3 (Some 9); r 4 (Some 5)] 1 5) 0) (Expire 6) = Some s' /\
    results (db s') = [r 2 None; r 3 (Some 9); r 4 (Some 5)].
Proof. cbv zeta. eexists. split; vm_compute; reflexivity. Qed.
