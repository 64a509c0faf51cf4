From Coq Require Import List ZArith Bool String Arith Lia.
From Verif Require Import Prelude Server ServerSpec ServerProofs ServerHist.
Import ListNotations.
Local Open Scope Z_scope.

Definition key_of (q : qrow) : string * string := (q_stnum q, q_code q).
Definition off (r : rrow) : rrow :=
  mkR (r_id r) (r_student r) (r_code r) (r_catalog r) (r_run r) (r_expires r) (r_link r) (r_result r) (r_ts r) false (r_revision r).

Lemma in_seen d t r : In r (seen d t) <->
  (exists r0, In r0 (results d) /\ ~ In (r_id r0) (t_del t) /\ r = if memZ (r_id r0) (t_off t) then off r0 else r0) \/ t_ins t = Some r.
Proof.
  unfold seen. rewrite in_app_iff, in_map_iff. split.
  - intros [(r0 & E & I)|I].
    + left. apply filter_In in I as [I N]. apply negb_true_iff, memZ_out in N. exists r0. auto.
    + right. destruct (t_ins t); [|destruct I]. destruct I as [->|[]]. reflexivity.
  - intros [(r0 & I & N & E)|I].
    + left. exists r0. split; [symmetry; exact E|]. apply filter_In. split; [exact I|]. apply negb_true_iff, memZ_out. exact N.
    + right. rewrite I. left. reflexivity.
Qed.
Lemma seen_idle d t : idle_txn t -> seen d t = results d.
Proof.
  intros (_ & A & B & C). unfold seen. rewrite A, B, C, app_nil_r.
  induction (results d) as [|r l IH]; [reflexivity|]. cbn [filter memZ existsb negb map]. f_equal. exact IH.
Qed.
Lemma off_keeps b r : r_id (if b : bool then off r else r) = r_id r /\ r_student (if b then off r else r) = r_student r /\
  r_code (if b then off r else r) = r_code r /\ r_revision (if b then off r else r) = r_revision r.
Proof. destruct b; repeat split. Qed.

Lemma fold_max l : forall x, x <= fold_left Z.max l x /\ forall y, In y l -> y <= fold_left Z.max l x.
Proof.
  induction l as [|z l IH]; intro x; cbn [fold_left]; [split; [lia|intros y []]|].
  destruct (IH (Z.max x z)) as [A B]. split; [lia|]. intros y [<-|I]; [lia|exact (B y I)].
Qed.
Lemma next_revision_greater q l r : In r l -> of_key (key_of q) r -> r_revision r < next_revision q l.
Proof.
  intros I K. unfold of_key, key_of in K. injection K as K1 K2. unfold next_revision.
  assert (J : In (r_revision r) (map r_revision (filter (fun r => String.eqb (r_student r) (q_stnum q) && String.eqb (r_code r) (q_code q)) l))).
  { apply in_map. apply filter_In. split; [exact I|]. rewrite K1, K2, !String.eqb_refl. reflexivity. }
  destruct (map r_revision _) as [|x t]; [destruct J|]. destruct (fold_max t x) as [A B]. destruct J as [<-|J]; [lia|apply B in J; lia].
Qed.

Lemma fold_max_in l : forall x, fold_left Z.max l x = x \/ In (fold_left Z.max l x) l.
Proof.
  induction l as [|z l IH]; intro x; cbn [fold_left]; [auto|]. destruct (IH (Z.max x z)) as [->|I]; [|right; right; exact I].
  destruct (Z.max_spec x z) as [[_ ->]|[_ ->]]; [right; left; reflexivity|auto].
Qed.
Lemma next_revision_from q l :
  (exists r, In r l /\ of_key (key_of q) r /\ next_revision q l = r_revision r + 1) \/
  (forall r, In r l -> ~ of_key (key_of q) r) /\ next_revision q l = 1.
Proof.
  unfold next_revision. set (f := fun r => String.eqb (r_student r) (q_stnum q) && String.eqb (r_code r) (q_code q)).
  assert (F : forall r, f r = true <-> of_key (key_of q) r).
  { intro r. unfold f, of_key, key_of. rewrite andb_true_iff, !String.eqb_eq. split; [intros [-> ->]; reflexivity|intro E; injection E; auto]. }
  destruct (map r_revision (filter f l)) as [|x t] eqn:E.
  - right. split; [|reflexivity]. intros r I K. apply F in K. assert (J : In (r_revision r) (map r_revision (filter f l))) by (apply in_map, filter_In; auto). rewrite E in J. destruct J.
  - left. assert (J : In (fold_left Z.max t x) (map r_revision (filter f l))) by (rewrite E; destruct (fold_max_in t x) as [->|J]; [left; reflexivity|right; exact J]).
    apply in_map_iff in J as (r & K & J). apply filter_In in J as [J K']. exists r. rewrite K. split; [exact J|]. split; [apply F, K'|reflexivity].
Qed.

(** ** The state of stored results, when no two workers store for the same student and area *)
Definition work (d : database) (x : worker) : Prop :=
  match pc x with
  | POffWait q _ ids => forall r, In r (results d) -> of_key (key_of q) r -> ~ In (r_id r) (t_del (tx x)) -> r_active r = true -> In (r_id r) ids
  | PIns q _ => q_link q = false -> forall r, In r (results d) -> of_key (key_of q) r -> ~ In (r_id r) (t_del (tx x)) -> r_active r = true -> In (r_id r) (t_off (tx x))
  | PEnd q => match t_ins (tx x) with
              | None => True
              | Some r' => forall r, In r (results d) -> of_key (key_of q) r -> ~ In (r_id r) (t_del (tx x)) ->
                  r_revision r < r_revision r' /\ (q_link q = false -> r_active r = true -> In (r_id r) (t_off (tx x)))
              end
  | _ => True
  end.
Definition touched (t : txn) (id : Z) : Prop := In id (t_del t) \/ In id (t_off t).

Record ainv (d0 : database) (s : state) : Prop := {
  a_ids : NoDup (map r_id (results (db s)));
  a_next : forall r, In r (results (db s)) -> r_id r < next_r (db s);
  a_new : forall w r, t_ins (tx (get s w)) = Some r -> r_id r < next_r (db s) /\ ~ In (r_id r) (map r_id (results (db s)));
  a_new2 : forall v w r r', v <> w -> t_ins (tx (get s v)) = Some r -> t_ins (tx (get s w)) = Some r' -> r_id r <> r_id r';
  a_locks : forall w id, touched (tx (get s w)) id -> exists q r, saving (pc (get s w)) = Some q /\ In r (results (db s)) /\ r_id r = id /\ of_key (key_of q) r;
  a_work : forall w, work (db s) (get s w);
  a_active : one_active d0 -> one_active (db s);
  a_rev : distinct_revisions d0 -> distinct_revisions (db s);
  a_last : forall r, In r (results (db s)) -> r_active r = true ->
    last_saved (hist s) (r_student r, r_code r) = Some r \/ last_saved (hist s) (r_student r, r_code r) = None /\ In r (results d0) }.

Lemma last_saved_quiet h0 h k : (forall f, In f h0 -> match f with HTook _ | HLogged _ | HRemoved _ => True | _ => False end) -> last_saved (h0 ++ h) k = last_saved h k.
Proof.
  induction h0 as [|f h0 IH]; [reflexivity|]. intro F. cbn [app]. pose proof (F f (or_introl eq_refl)) as Ff.
  rewrite <- IH by (intros g J; apply F; right; exact J). destruct f; try contradiction; reflexivity.
Qed.

Lemma ainv_initial d n : sound_db d -> ainv d (initial d n).
Proof.
  intros (_ & _ & A & B).
  assert (G : forall w, get (initial d n) w = dead).
  { intro w. unfold get, initial. cbn [workers]. destruct (Nat.lt_ge_cases w n) as [L|L]; [apply nth_repeat|apply nth_overflow; rewrite repeat_length; exact L]. }
  constructor; try exact A; try exact B; auto.
  - intros w r. rewrite G. discriminate.
  - intros v w r r' _. rewrite G. discriminate.
  - intros w id. rewrite G. intros [[]|[]].
  - intro w. rewrite G. exact I.
Qed.

(** a worker moves on *)
Lemma ainv_change d0 s w x d h0 :
  ainv d0 s -> (w < List.length (workers s))%nat -> results d = results (db s) -> next_r (db s) <= next_r d ->
  (forall f, In f h0 -> match f with HTook _ | HLogged _ => True | _ => False end) ->
  (forall r, t_ins (tx x) = Some r -> t_ins (tx (get s w)) = Some r \/ next_r (db s) <= r_id r < next_r d) ->
  (forall id, touched (tx x) id -> exists q r, saving (pc x) = Some q /\ In r (results (db s)) /\ r_id r = id /\ of_key (key_of q) r) ->
  work (db s) x ->
  ainv d0 (mkS d (put (workers s) w x) (h0 ++ hist s)).
Proof.
  intros [A1 A2 A3 A4 A5 A6 A7 A8 A9] L R NR F T K W.
  assert (RB : forall r, t_ins (tx x) = Some r -> r_id r < next_r d /\ ~ In (r_id r) (map r_id (results (db s)))).
  { intros r E. destruct (T r E) as [E1|E1].
    - destruct (A3 w r E1). split; [lia|assumption].
    - split; [lia|]. intro J. apply in_map_iff in J as (r1 & E2 & J). apply A2 in J. lia. }
  constructor; cbn [db hist]; rewrite ?R.
  - exact A1.
  - intros r J. apply A2 in J. lia.
  - intros v r. rewrite get_put by exact L. destruct (Nat.eqb v w); [apply RB|]. intro E. destruct (A3 v r E). split; [lia|assumption].
  - intros u v r r' N. rewrite !get_put by exact L. destruct (Nat.eqb u w) eqn:Eu, (Nat.eqb v w) eqn:Ev; intros E1 E2.
    + apply Nat.eqb_eq in Eu, Ev. congruence.
    + apply Nat.eqb_eq in Eu. subst u. destruct (T r E1) as [E3|E3]; [exact (A4 w v r r' N E3 E2)|]. destruct (A3 v r' E2). lia.
    + apply Nat.eqb_eq in Ev. subst v. destruct (T r' E2) as [E3|E3]; [exact (A4 u w r r' N E1 E3)|]. destruct (A3 u r E1). lia.
    + exact (A4 u v r r' N E1 E2).
  - intros v id. rewrite get_put by exact L. destruct (Nat.eqb v w); [apply K|apply A5].
  - intro v. rewrite get_put by exact L. unfold work in *. rewrite R. destruct (Nat.eqb v w); [exact W|apply A6].
  - intro O. specialize (A7 O). unfold one_active. rewrite R. exact A7.
  - intro O. specialize (A8 O). unfold distinct_revisions. rewrite R. exact A8.
  - intros r J E. rewrite last_saved_quiet; [exact (A9 r J E)|]. intros f Jf. specialize (F f Jf). destruct f; auto.
Qed.

Lemma commit_results d t r : In r (results (commit d t)) <-> (t_bad t = true /\ In r (results d)) \/ (t_bad t = false /\ In r (seen d t)).
Proof. unfold commit. destruct (t_bad t); cbn [results]; intuition congruence. Qed.

(** rows of other students and areas are not touched by a commit *)
Lemma ids_inj s d0 r r' : ainv d0 s -> In r (results (db s)) -> In r' (results (db s)) -> r_id r = r_id r' -> r = r'.
Proof. intros A. apply NoDup_in_inj. apply (a_ids _ _ A). Qed.

Lemma ainv_commit d0 s w q0 p :
  inv s -> ainv d0 s -> apart s -> (w < List.length (workers s))%nat ->
  (pc (get s w) = PClose /\ q0 = None \/ exists q, q0 = Some q /\ (pc (get s w) = PEnd q \/ pc (get s w) = PBroken q)) ->
  (match p with PDead | PFresh | PIdle | PUnlogged _ | PTop | PClose => True | _ => False end) ->
  ainv d0 (mkS (commit (db s) (tx (get s w))) (put (workers s) w (with_tx (get s w) p no_txn)) (facts_of q0 (tx (get s w)) ++ hist s)).
Proof.
  intros (_ & _ & C & _) A AP L PP PF. pose proof A as [A1 A2 A3 A4 A5 A6 A7 A8 A9]. pose proof (C w) as (_ & _ & W).
  set (t := tx (get s w)) in *.
  destruct (commit_next (db s) t) as [_ NR].
  (* the new row, if any *)
  assert (INS : forall r, t_bad t = false -> t_ins t = Some r -> exists q, q0 = Some q /\ pc (get s w) = PEnd q /\ made_from q r /\
     forall r1, In r1 (results (db s)) -> of_key (key_of q) r1 -> ~ In (r_id r1) (t_del t) -> r_revision r1 < r_revision r /\ (q_link q = false -> r_active r1 = true -> In (r_id r1) (t_off t))).
  { intros r TB E. destruct PP as [[PP _]|(q & -> & [PP|PP])]; rewrite PP in W.
    - destruct W as (_ & _ & _ & W). congruence.
    - destruct W as [(W & _)|(_ & _ & W & _)]; [congruence|]. rewrite E in W. exists q. repeat split; auto; pose proof (A6 w) as AW; unfold work in AW; rewrite PP in AW; fold t in AW; rewrite E in AW; apply (AW r1); auto.
    - destruct W as ((_ & _ & _ & W) & _). congruence. }
  assert (OLD : forall r, In r (results (commit (db s) t)) -> (exists r0, In r0 (results (db s)) /\ r_id r = r_id r0 /\ r_student r = r_student r0 /\ r_code r = r_code r0 /\ r_revision r = r_revision r0 /\
      (r_active r = true -> r = r0) /\ (t_bad t = false -> ~ In (r_id r0) (t_del t) /\ (r_active r = true -> ~ In (r_id r0) (t_off t))) /\ (r = r0 \/ touched t (r_id r0)))
      \/ t_bad t = false /\ t_ins t = Some r).
  { intros r J. apply commit_results in J as [[TB J]|[TB J]].
    - left. exists r. repeat split; auto; intros; congruence.
    - apply in_seen in J as [(r0 & J & N & E)|J]; [|auto]. left. exists r0. destruct (memZ (r_id r0) (t_off t)) eqn:M; subst r.
      + apply memZ_in in M. repeat split; auto; try discriminate. right. right. exact M.
      + apply memZ_out in M. repeat split; auto. }
  constructor; cbn [db hist]; rewrite ?NR.
  - unfold commit. destruct (t_bad t) eqn:TB; [exact A1|]. cbn [results]. unfold seen. rewrite map_app, map_map.
    rewrite (map_ext _ r_id) by (intro r; apply (off_keeps (memZ (r_id r) (t_off t)) r)).
    apply NoDup_app_intro; [apply NoDup_map_filter, A1| |].
    + destruct (t_ins t); cbn; repeat constructor; intros [].
    + intros id J K. destruct (t_ins t) as [r|] eqn:E; [|destruct K]. destruct K as [<-|[]]. destruct (A3 w r E) as [_ N]. apply N.
      apply in_map_iff in J as (r1 & E1 & J). apply filter_In in J as [J _]. rewrite <- E1. apply in_map, J.
  - intros r J. destruct (OLD r J) as [(r0 & J0 & E & _)|[_ E]]; [rewrite E; apply A2, J0|apply (A3 w r E)].
  - intros v r. rewrite get_put by exact L. destruct (Nat.eqb v w) eqn:EV; [discriminate|]. apply Nat.eqb_neq in EV. intro E. destruct (A3 v r E) as [B1 B2]. split; [exact B1|].
    intro J. apply in_map_iff in J as (r1 & E1 & J). destruct (OLD r1 J) as [(r0 & J0 & E2 & _)|[_ E2]].
    + apply B2. rewrite <- E1, E2. apply in_map, J0.
    + apply (A4 v w r r1 EV E E2). congruence.
  - intros u v r r' N. rewrite !get_put by exact L. destruct (Nat.eqb u w); [discriminate|]. destruct (Nat.eqb v w); [discriminate|]. apply A4, N.
  - intros v id. rewrite get_put by exact L. destruct (Nat.eqb v w) eqn:EV; [intros [[]|[]]|]. apply Nat.eqb_neq in EV. intro T.
    destruct (A5 v id T) as (q & r & S & J & E & K).
    destruct (t_bad t) eqn:TB.
    { exists q, r. repeat split; auto. apply commit_results. left. auto. }
    assert (NT : ~ touched t (r_id r)).
    { intro T2. destruct (A5 w (r_id r) T2) as (q2 & r2 & S2 & J2 & E2 & K2). assert (r2 = r) by (eapply ids_inj; eassumption). subst r2.
      apply (AP v w q q2 EV S S2). unfold of_key, key_of in K, K2. congruence. }
    exists q, r. repeat split; auto. apply commit_results. right. split; [exact TB|]. apply in_seen. left. exists r. split; [exact J|]. split; [intro X; apply NT; left; exact X|].
    replace (memZ (r_id r) (t_off t)) with false; [reflexivity|]. symmetry. apply memZ_out. intro X. apply NT. right. exact X.
  - intro v. rewrite get_put by exact L. destruct (Nat.eqb v w) eqn:EV.
    { unfold work. cbn [with_tx pc tx]. destruct p; try contradiction; exact Logic.I. }
    apply Nat.eqb_neq in EV.
    (* rows of the key of another worker are as before *)
    assert (SAME : forall q r, saving (pc (get s v)) = Some q -> In r (results (commit (db s) t)) -> of_key (key_of q) r -> In r (results (db s))).
    { intros q r S J K. destruct (OLD r J) as [(r0 & J0 & E1 & E2 & E3 & _ & _ & _ & [->|T])|[TB E]]; [exact J0| |].
      - exfalso. destruct (A5 w (r_id r0) T) as (q2 & r2 & S2 & J2 & F2 & K2). assert (r2 = r0) by (eapply ids_inj; eassumption). subst r2.
        apply (AP v w q q2 EV S S2). unfold of_key, key_of in K, K2. congruence.
      - exfalso. destruct (INS r TB E) as (q2 & _ & P2 & M & _). apply (AP v w q q2 EV S); [rewrite P2; reflexivity|].
        destruct M as (? & ? & ? & ? & ->). unfold of_key, key_of in K. cbn in K. congruence. }
    pose proof (A6 v) as AV. unfold work in AV |- *. destruct (pc (get s v)) eqn:PV; auto.
    + intros x J K. apply AV; [|exact K]. apply (SAME q); auto.
    + intros QL x J K. apply AV; [exact QL| |exact K]. apply (SAME q); auto.
    + destruct (t_ins (tx (get s v))); [|exact Logic.I]. intros x J K. apply AV; [|exact K]. apply (SAME q); auto.
  - intro O. specialize (A7 O).
    assert (G : forall r r', In r (results (commit (db s) t)) -> t_bad t = false -> t_ins t = Some r' -> of_key (r_student r, r_code r) r' -> r_active r = true -> r_active r' = true -> r = r').
    { intros r r' J TB E K X X'. destruct (OLD r J) as [(r0 & J0 & E1 & E2 & E3 & E4 & E5 & E6 & _)|[_ E1]]; [|congruence]. exfalso.
      destruct (INS r' TB E) as (q & _ & _ & M & H). destruct (E6 TB) as [N1 N2].
      destruct M as (? & ? & ? & ? & ->). unfold of_key in K. cbn in K, X'.
      destruct (H r0 J0) as [_ H2]; [unfold of_key, key_of; congruence|exact N1|]. apply (N2 X). apply H2; [destruct (q_link q); [discriminate|reflexivity]|]. rewrite <- (E5 X). exact X. }
    intros r r' J J' K X X'. pose proof J as J1. pose proof J' as J1'.
    destruct (OLD r J) as [(r0 & J0 & E1 & E2 & E3 & E4 & E5 & E6 & _)|[TB E]]; destruct (OLD r' J') as [(r0' & J0' & E1' & E2' & E3' & E4' & E5' & E6' & _)|[TB' E']].
    + pose proof (E5 X) as Z1. pose proof (E5' X') as Z2. rewrite Z1, Z2. apply A7; auto; congruence.
    + apply (G r r'); auto.
    + symmetry. apply (G r' r); auto. unfold of_key in *. congruence.
    + congruence.
  - intro O. specialize (A8 O).
    assert (G : forall r r', In r (results (commit (db s) t)) -> t_bad t = false -> t_ins t = Some r' -> of_key (r_student r, r_code r) r' -> r_revision r = r_revision r' -> r = r').
    { intros r r' J TB E K X. destruct (OLD r J) as [(r0 & J0 & E1 & E2 & E3 & E4 & E5 & E6 & _)|[_ E1]]; [|congruence]. exfalso.
      destruct (INS r' TB E) as (q & _ & _ & M & H). destruct (E6 TB) as [N1 N2].
      destruct (H r0 J0) as [H2 _]; [|exact N1|lia]. destruct M as (? & ? & ? & ? & ->). unfold of_key in K |- *. unfold key_of. cbn in K. congruence. }
    intros r r' J J' K X. pose proof J as J1. pose proof J' as J1'.
    destruct (OLD r J) as [(r0 & J0 & E1 & E2 & E3 & E4 & _)|[TB E]]; destruct (OLD r' J') as [(r0' & J0' & E1' & E2' & E3' & E4' & _)|[TB' E']].
    + assert (r0 = r0') by (apply A8; auto; [unfold of_key in *; congruence|congruence]). subst r0'.
      apply commit_results in J1, J1'. destruct J1 as [[B1 J1]|[B1 J1]], J1' as [[B1' J1']|[B1' J1']]; try congruence.
      * eapply ids_inj; try eassumption. congruence.
      * apply in_seen in J1 as [(x & X1 & X2 & X3)|X1]; apply in_seen in J1' as [(y & Y1 & Y2 & Y3)|Y1].
        { assert (r_id r = r_id x) by (rewrite X3; apply off_keeps). assert (r_id r' = r_id y) by (rewrite Y3; apply off_keeps).
          assert (x = y) by (eapply ids_inj; try eassumption; congruence). subst. reflexivity. }
        { apply (G r r'); auto. }
        { symmetry. apply (G r' r); auto. unfold of_key in *. congruence. }
        { congruence. }
    + apply (G r r'); auto.
    + symmetry. apply (G r' r); auto. unfold of_key in *. congruence.
    + congruence.
  - assert (HF : t_bad t = true \/ t_ins t = None \/ t_bad t = false /\ exists q r, q0 = Some q /\ t_ins t = Some r /\ made_from q r /\ pc (get s w) = PEnd q).
    { destruct (t_bad t) eqn:TB; [auto|]. destruct (t_ins t) as [r|] eqn:E; [|auto]. destruct (INS r eq_refl eq_refl) as (q & F1 & F2 & F3 & _). right. right. split; [reflexivity|]. exists q, r. auto. }
    assert (HM : forall k, last_saved (map HRemoved (t_take t) ++ hist s) k = last_saved (hist s) k).
    { intro k. apply last_saved_quiet. intros f J. apply in_map_iff in J as (id & <- & _). exact Logic.I. }
    intros r J X. destruct HF as [TB|[TI|(TB & q & r' & -> & TI & M & PE)]].
    + unfold facts_of. rewrite TB. cbn [app]. destruct (OLD r J) as [(r0 & J0 & _ & _ & _ & _ & E5 & _)|[TB' _]]; [|congruence]. pose proof (E5 X) as Z1. rewrite Z1. apply A9; auto; congruence.
    + assert (FQ : last_saved (facts_of q0 t ++ hist s) (r_student r, r_code r) = last_saved (hist s) (r_student r, r_code r)).
      { unfold facts_of. rewrite TI. destruct (t_bad t); [reflexivity|]. destruct q0; cbn [app]; apply HM. }
      rewrite FQ. destruct (OLD r J) as [(r0 & J0 & _ & _ & _ & _ & E5 & _)|[_ E]]; [|congruence]. pose proof (E5 X) as Z1. rewrite Z1. apply A9; auto; congruence.
    + unfold facts_of. rewrite TB, TI. cbn [app last_saved fst snd].
      destruct (OLD r J) as [(r0 & J0 & F1 & F2 & F3 & F4 & E5 & E6 & _)|[_ E]].
      * pose proof (E5 X) as Z1. subst r0. clear E5.
        destruct (negb (r_link r') && String.eqb (r_student r') (r_student r) && String.eqb (r_code r') (r_code r)) eqn:B.
        { exfalso. apply andb_prop in B as [B B3]. apply andb_prop in B as [B1 B2]. apply String.eqb_eq in B2, B3. apply negb_true_iff in B1.
          destruct (INS r' TB TI) as (q' & _ & PE' & _ & H). assert (q' = q) by congruence. subst q'.
          destruct (E6 TB) as [N1 N2]. destruct M as (? & ? & ? & ? & ->). cbn in B1, B2, B3.
          destruct (H r J0) as [_ H2]; [unfold of_key, key_of; congruence|exact N1|]. exact (N2 X (H2 B1 X)). }
        rewrite HM. apply A9; auto.
      * assert (r = r') by congruence. subst r'. destruct M as (? & ? & ? & ? & ->). cbn in X |- *. rewrite !String.eqb_refl, X. cbn [andb]. left. reflexivity.
Qed.

Lemma locked_all s id : locked_by_other s (List.length (workers s)) id = true <-> exists w, touched (tx (get s w)) id.
Proof.
  unfold locked_by_other. rewrite existsb_exists. split.
  - intros (i & J & B). apply andb_prop in B as [_ B]. exists i. apply orb_prop in B as [B|B]; apply memZ_in in B; [left|right]; exact B.
  - intros (w & T). destruct (Nat.lt_ge_cases w (List.length (workers s))) as [L|G].
    + exists w. split; [apply in_seq; lia|]. apply andb_true_intro. split.
      * apply negb_true_iff, Nat.eqb_neq. lia.
      * apply orb_true_intro. destruct T as [T|T]; apply memZ_in in T; auto.
    + rewrite get_out in T by exact G. destruct T as [[]|[]].
Qed.
Lemma ids_of_in p l id : In id (ids_of p l) <-> exists r, In r l /\ p r = true /\ r_id r = id.
Proof. unfold ids_of. rewrite in_map_iff. split; [intros (r & E & J); apply filter_In in J as [J K]; eauto|intros (r & J & K & E); exists r; split; [exact E|apply filter_In; auto]]. Qed.

Lemma ainv_step d0 s e s' : inv s -> ainv d0 s -> apart s -> step s e = Some s' -> ainv d0 s'.
Proof.
  intros IV A AP. pose proof IV as (_ & _ & C & _). pose proof A as [A1 A2 A3 A4 A5 A6 A7 A8 A9].
  assert (NF : forall f : fact, In f [] -> match f with HTook _ | HLogged _ => True | _ => False end) by (intros f []).
  assert (TF : forall id f, In f [HTook id] -> match f with HTook _ | HLogged _ => True | _ => False end) by (intros id f [<-|[]]; exact I).
  assert (LF : forall id f, In f [HLogged id] -> match f with HTook _ | HLogged _ => True | _ => False end) by (intros id f [<-|[]]; exact I).
  destruct e; cbn [step].
  - intros [= <-].
    assert (G : forall i, get (mkS (mkDb (queue (db s) ++ [mkQ (next_q (db s)) priority ts student stnum catalog code run expires link]) (results (db s)) (next_q (db s) + 1) (next_r (db s)))
                (map (fun x => if listening x then mkW (pc x) true (S (pending x)) (tx x) else x) (workers s)) (hist s)) i
             = (fun x => if listening x then mkW (pc x) true (S (pending x)) (tx x) else x) (get s i)) by (apply notified; reflexivity).
    cbv beta in G.
    assert (GT : forall x, tx (if listening x then mkW (pc x) true (S (pending x)) (tx x) else x) = tx x) by (intro x; destruct (listening x); reflexivity).
    assert (GP : forall x, pc (if listening x then mkW (pc x) true (S (pending x)) (tx x) else x) = pc x) by (intro x; destruct (listening x); reflexivity).
    constructor; auto.
    + intros w r. rewrite G, GT. apply A3.
    + intros v w r r'. rewrite !G, !GT. apply A4.
    + intros w id. rewrite G, GT, GP. apply A5.
    + intro w. rewrite G. unfold work. rewrite GT, GP. apply A6.
  - destruct (forallb _ _) eqn:FB; [|discriminate]. intros [= <-]. rewrite forallb_forall in FB.
    assert (SUB : forall r, In r (clear_expired now (results (db s))) -> In r (results (db s))) by (intros r J; apply filter_In in J as [J _]; exact J).
    constructor; cbn [db results hist next_r]; auto.
    + apply NoDup_map_filter, A1.
    + intros w r E. destruct (A3 w r E) as [B1 B2]. split; [exact B1|]. intro J. apply B2. apply in_map_iff in J as (x & <- & J). apply in_map, SUB, J.
    + intros w id T. destruct (A5 w id T) as (q & r & S & J & E & K). exists q, r. repeat split; auto.
      specialize (FB r J). apply orb_prop in FB as [FB|FB].
      * apply existsb_exists in FB as (r' & J' & E'). apply Z.eqb_eq in E'. assert (r' = r) by (apply (ids_inj s d0); auto). subst r'. exact J'.
      * apply negb_true_iff in FB. assert (locked_by_other s (List.length (workers s)) (r_id r) = true) by (apply locked_all; exists w; rewrite E; exact T). congruence.
    + intro w. specialize (A6 w). unfold work in A6 |- *. cbn [results]. change (get (mkS (mkDb (queue (db s)) (clear_expired now (results (db s))) (next_q (db s)) (next_r (db s))) (workers s) (hist s)) w) with (get s w).
      destruct (pc (get s w)); auto. destruct (t_ins (tx (get s w))); auto.
    + intros O r r' J J'. apply (A7 O); apply SUB; assumption.
    + intros O r r' J J'. apply (A8 O); apply SUB; assumption.
  - destruct (pc (get s w)) eqn:P; try discriminate. destruct (Nat.ltb _ _) eqn:L; [|discriminate]. apply Nat.ltb_lt in L. intros [= <-].
    apply ainv_change; auto; try lia; try discriminate; [intros id [[]|[]]|exact I].
  - destruct (pc (get s w)) eqn:P; try discriminate. alive P. pose proof (C w) as (_ & _ & W). rewrite P in W. destruct W as (_ & W2 & W3 & W4).
    destruct (next_row s tie); intros [= <-]; apply ainv_change; auto; try apply TF; try apply LF; try lia; cbn [with_tx at_pc tx t_del t_off touched]; try exact I; intros id [T|T]; cbn [t_del t_off] in T; rewrite ?W2, ?W3 in T; destruct T.
  - destruct (pc (get s w)) eqn:P; try discriminate. alive P. pose proof (C w) as (_ & _ & W). rewrite P in W. destruct W as ((_ & W2 & W3 & W4) & _).
    intros [= <-]; apply ainv_change; auto; try apply TF; try apply LF; try lia; cbn [with_tx at_pc tx t_del t_off touched]; try exact I; intros id [T|T]; rewrite ?W2, ?W3 in T; destruct T.
  - destruct (pc (get s w)) eqn:P; try discriminate. alive P. pose proof (C w) as (_ & _ & W). rewrite P in W. destruct W as ((_ & W2 & W3 & W4) & _).
    destruct inside; intros [= <-]; apply ainv_change; auto; try apply TF; try apply LF; try lia; cbn [with_tx at_pc tx t_del t_off touched]; try (intros id [T|T]; rewrite ?W2, ?W3 in T; destruct T).
    + unfold work. cbn [at_pc pc tx]. rewrite W4. exact I.
    + exact I.
  - destruct (pc (get s w)) eqn:P; try discriminate. alive P. pose proof (C w) as (_ & _ & W). rewrite P in W. destruct W as ((_ & W2 & W3 & W4) & _).
    intros [= <-]; apply ainv_change; auto; try apply TF; try apply LF; try lia; cbn [with_tx at_pc tx t_del t_off touched]; try (intros id [T|T]; rewrite ?W2, ?W3 in T; destruct T).
    unfold work. cbn [at_pc pc]. destruct (q_link q) eqn:QL; [congruence|exact I].
  - destruct (pc (get s w)) eqn:P; try discriminate. alive P. pose proof (C w) as (_ & _ & W). rewrite P in W. destruct W as ((_ & W2 & W3 & W4) & _).
    intros [= <-]; apply ainv_change; auto; try apply TF; try apply LF; try lia; cbn [with_tx at_pc tx t_del t_off touched]; try (intros id [T|T]; rewrite ?W2, ?W3 in T; destruct T). exact I.
  - destruct (pc (get s w)) eqn:P; try discriminate. alive P. pose proof (C w) as (_ & _ & W). rewrite P in W. destruct W as (W1 & _). pose proof W1 as (_ & W2 & W3 & W4).
    destruct (existsb _ _); [discriminate|]. intros [= <-]; apply ainv_change; auto; try apply TF; try apply LF; try lia; [|exact I].
    intros id [T|T]; cbn [with_tx tx t_del t_off] in T; [|rewrite W3 in T; destruct T]. rewrite W2, app_nil_r in T. apply filter_In in T as [_ T]. apply memZ_in in T.
    apply ids_of_in in T as (r1 & J & E1 & E2). rewrite seen_idle in J by exact W1. exists q, r1. repeat split; auto.
    unfold same_result in E1. apply andb_prop in E1 as [E1 _]. apply andb_prop in E1 as [E1 E3]. apply andb_prop in E1 as [E1 _]. apply String.eqb_eq in E1, E3. unfold of_key, key_of. congruence.
  - destruct (pc (get s w)) eqn:P; try discriminate. alive P. pose proof (C w) as (_ & _ & W). rewrite P in W. destruct W as (W1 & W2 & W3 & _).
    intros [= <-]; apply ainv_change; auto; try apply TF; try apply LF; try lia.
    + intros id T. destruct (A5 w id T) as (q1 & r1 & S & J). rewrite P in S. exists q1, r1. split; [exact S|exact J].
    + unfold work. cbn [at_pc pc tx]. intros r1 J K N X. apply ids_of_in. exists r1. split; [|split; [|reflexivity]].
      * apply in_seen. left. exists r1. rewrite W2. auto.
      * unfold active_of. unfold of_key, key_of in K. injection K as -> ->. rewrite !String.eqb_refl, X. reflexivity.
  - destruct (pc (get s w)) eqn:P; try discriminate. alive P. pose proof (C w) as (_ & _ & W). rewrite P in W. destruct W as (W1 & W2 & W3 & _).
    destruct (existsb _ _); [discriminate|]. intros [= <-]; apply ainv_change; auto; try apply TF; try apply LF; try lia.
    + intros id [T|T]; cbn [with_tx tx t_del t_off] in T.
      * destruct (A5 w id (or_introl T)) as (q1 & r1 & S & J). rewrite P in S. exists q1, r1. split; [exact S|exact J].
      * rewrite W2, app_nil_r in T. apply filter_In in T as [_ T]. apply memZ_in in T. apply ids_of_in in T as (r1 & J & E1 & E2).
        apply in_seen in J as [(r0 & J & N & E3)|J]; [|congruence]. rewrite W2 in E3. cbn in E3. subst r1. exists q, r0. repeat split; auto.
        unfold active_of in E1. apply andb_prop in E1 as [E1 _]. apply andb_prop in E1 as [E1 E3]. apply String.eqb_eq in E1, E3. unfold of_key, key_of. congruence.
    + unfold work. cbn [with_tx pc tx t_del t_off]. intros _ r1 J K N X. apply in_app_iff. left. apply filter_In.
      pose proof (A6 w) as AW. unfold work in AW. rewrite P in AW. split; [apply AW; auto|]. apply memZ_in. apply ids_of_in. exists r1. split; [|split; [|reflexivity]].
      * apply in_seen. left. exists r1. rewrite W2. auto.
      * unfold active_of. unfold of_key, key_of in K. injection K as -> ->. rewrite !String.eqb_refl, X. reflexivity.
  - destruct (pc (get s w)) eqn:P; try discriminate. alive P. pose proof (C w) as (_ & _ & W). rewrite P in W. destruct W as (W1 & W2 & W3 & _).
    intros [= <-]; apply (ainv_change d0 s w _ _ []); auto; cbn [next_r]; try lia.
    + intros r1. cbn [with_tx tx t_ins]. intros [= <-]. right. cbn. lia.
    + intros id T. destruct (A5 w id T) as (q1 & r1 & S & J). rewrite P in S. exists q1, r1. split; [exact S|exact J].
    + unfold work. cbn [with_tx pc tx t_del t_off t_ins]. intros r1 J K N. split.
      * cbn [new_result r_revision]. destruct (off_keeps (memZ (r_id r1) (t_off (tx (get s w)))) r1) as (_ & E2 & E3 & <-). apply next_revision_greater.
        -- apply in_seen. left. exists r1. auto.
        -- unfold of_key in *. congruence.
      * intros QL X. pose proof (A6 w) as AW. unfold work in AW. rewrite P in AW. apply AW; auto.
  - destruct (pc (get s w)) eqn:P; try discriminate. alive P. pose proof (C w) as (_ & _ & W). rewrite P in W. destruct W as (W1 & W2 & W3 & _).
    intros [= <-]; apply ainv_change; auto; try apply TF; try apply LF; try lia.
    + intros id T. destruct (A5 w id T) as (q1 & r1 & S & J). rewrite P in S. exists q1, r1. split; [exact S|exact J].
    + unfold work. cbn [at_pc pc tx]. rewrite W2. exact I.
  - assert (G : forall q, (w < List.length (workers s))%nat -> ainv d0 (move s w (with_tx (get s w) (PEnd q) (mkT true [] [] [] None)) [HLogged (q_id q)])).
    { intros q L. apply ainv_change; auto; try apply TF; try apply LF; try lia; try discriminate; [intros id [[]|[]]|exact I]. }
    destruct (pc (get s w)) eqn:P; try discriminate; alive P; intros [= <-]; apply G; exact L.
  - destruct (pc (get s w)) eqn:P; try discriminate; alive P; intros [= <-]; (apply ainv_commit; [exact IV|exact A|exact AP|exact L| |]); eauto; try exact I.
    destruct (listening (get s w)); exact I.
  - destruct (pc (get s w)) eqn:P; try discriminate. alive P. pose proof (C w) as (_ & _ & W). rewrite P in W.
    intros [= <-]; apply ainv_change; auto; try apply TF; try apply LF; try lia; [|exact I]. cbn [at_pc tx]. rewrite W. intros id [[]|[]].
  - destruct (pc (get s w)) eqn:P; try discriminate. alive P. pose proof (C w) as (_ & _ & W). rewrite P in W.
    intros [= <-]; apply ainv_change; auto; try apply TF; try apply LF; try lia; [|exact I]. cbn [tx]. rewrite W. intros id [[]|[]].
  - destruct (pc (get s w)) eqn:P; try discriminate. alive P. destruct (pending _); try discriminate. pose proof (C w) as (_ & _ & W). rewrite P in W.
    intros [= <-]; apply ainv_change; auto; try apply TF; try apply LF; try lia; [|exact I]. cbn [tx]. rewrite W. intros id [[]|[]].
  - assert (G : (w < List.length (workers s))%nat -> ainv d0 (move s w dead [])).
    { intro L. apply ainv_change; auto; try apply TF; try apply LF; try lia; try discriminate; [intros id [[]|[]]|exact I]. }
    destruct (pc (get s w)) eqn:P; try discriminate; alive P; intros [= <-]; apply G; exact L.
Qed.

Lemma ainv_run d0 es : forall s s', inv s -> ainv d0 s -> throughout apart s es -> run s es = Some s' -> inv s' /\ ainv d0 s' /\ apart s'.
Proof.
  induction es as [|e es IH]; intros s s' I A; cbn [throughout run].
  - intros [AP _] [= <-]. auto.
  - intros [AP T] R. destruct (step s e) as [s1|] eqn:E; [|discriminate]. apply (IH s1 s'); auto; [eapply inv_step; eassumption|eapply ainv_step; eassumption].
Qed.
