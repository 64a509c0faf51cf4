(** Property theorems about the audit driver (C08, C09, C86). *)
From Coq Require Import List ZArith QArith Bool String Lia Sorted.
From Verif Require Import Prelude Status ListFacts QuerySpec Driver DriverSpec SolveProofs DriverProofs.
Import ListNotations.
Local Open Scope list_scope.

(** ** the whole trace *)

(** What the driver does, exactly: the estimate is said first; of the generated solutions the
    chosen ones are audited up to the first finished one or the last one allowed; after each
    unfinished one progress and result are said if due; in the end the best result is said,
    unless results have been printed, or that there was none. An exception of the generator
    or of an audit ends everything at that point; solutions that are not audited cannot
    raise. *)
Theorem driver_trace_exact :
  forall R args n (l : list (res (outcome R))) e, ar_audit_each args <> 0%Z -> ar_progress_every args <> 0%Z ->
  ar_estimate_only args = false ->
  exists ns ps done stopped tr, numbered 0 l ns /\ picks args ns ps /\ worked args ends 0 ps done stopped /\
    runs args [] e (List.length l) done stopped tr /\ audit_driver args (Ok n) l e = (ESay (MEstimate n) :: fst tr, snd tr).
Proof.
  intros R args n l e AE PE EO. destruct (drive_ok args AE PE l (mkState 0 0 None false) [] e (List.length l)) as [ns [ps [done [b [N [P [W RU]]]]]]].
  - split; [reflexivity|]. split; [intros x []|]. split; [reflexivity|]. cbn. split; [discriminate|]. intros [i [o [[] _]]].
  - reflexivity.
  - exists ns, ps, done, b, (drive args (mkState 0 0 None false) l e). split; auto. split; auto. split; auto. split; auto.
    unfold audit_driver. rewrite EO. reflexivity.
Qed.
Print Assumptions driver_trace_exact.
(** Only the estimate is said if nothing else is wanted; its exception is passed on. *)
Theorem estimate_only_audits_nothing :
  forall R args n (l : list (res (outcome R))) e, (ar_estimate_only args = true -> audit_driver args (Ok n) l e = ([ESay (MEstimate n)], None)) /\
  (forall x, audit_driver args (Err x) l e = ([], Some x)).
Proof. intros. split; [|reflexivity]. intro H. unfold audit_driver. rewrite H. reflexivity. Qed.
Print Assumptions estimate_only_audits_nothing.
(** A zero option raises ZeroDivisionError. *)
Theorem zero_options_raise :
  forall R args n (l : list (res (outcome R))) e, ar_estimate_only args = false -> l <> [] -> ar_print_only args = [] ->
  (ar_audit_each args = 0%Z -> audit_driver args (Ok n) l e = ([ESay (MEstimate n)], Some ZeroDivErr)) /\
  (ar_audit_each args = 1%Z -> ar_progress_every args = 0%Z -> forall o rest, l = Ok o :: rest -> ~ finished o ->
     audit_driver args (Ok n) l e = ([ESay (MEstimate n); EAudit 1], Some ZeroDivErr)).
Proof.
  intros R args n l e EO NE PO. unfold audit_driver. rewrite EO. split.
  - intro Z0. destruct l as [|x l]; [congruence|]. cbn [drive]. rewrite PO, Z0. reflexivity.
  - intros Z1 Z0 o rest -> NF. cbn [drive]. rewrite PO, Z1, Z0. cbn [zmod Z.eqb Z.add st_total st_audits st_best]. change (1 mod 1)%Z with 0%Z. cbv iota.
    destruct (inS (o_status o) WAIVED_AND_DONE) eqn:D; [exfalso; apply NF, complete_iff, D|]. unfold better. cbn. reflexivity.
Qed.
Print Assumptions zero_options_raise.

(** ** Sample streams: the result is a number *)
Definition out (n : nat) (rank : Z) (s : status) : res (outcome nat) := Ok (mkOut n (inject_Z rank) s).
Definition stream : list (res (outcome nat)) :=
  [out 11 1 NeedsMoreItems; out 12 3 PendingCurrent; out 13 3 NeedsMoreItems; out 14 2 Empty; out 15 2 Done; Err OtherErr].
Definition with_print (all : bool) (only : list Z) : arguments := mkArgs false all only None 1000 1.
Definition with_stop (k : Z) : arguments := mkArgs false false [] (Some k) 1000 1.
Definition each_of (k : Z) : arguments := mkArgs false false [] None 1 k.

(** ** C08 *)
Fixpoint says {R} (l : list (event R)) : list (message R) :=
  match l with
  | [] => []
  | ESay m :: t => m :: says t
  | EAudit _ :: t => says t
  end.
Fixpoint audits {R} (l : list (event R)) : list Z :=
  match l with
  | [] => []
  | ESay _ :: t => audits t
  | EAudit i :: t => i :: audits t
  end.
Lemma says_app {R} (a b : list (event R)) : says (a ++ b) = says a ++ says b.
Proof. induction a as [|[i|m] a IH]; cbn; rewrite ?IH; reflexivity. Qed.
Lemma audits_app {R} (a b : list (event R)) : audits (a ++ b) = audits a ++ audits b.
Proof. induction a as [|[i|m] a IH]; cbn; rewrite ?IH; reflexivity. Qed.
Definition is_progress {R} (m : message R) : Prop := exists q j n i, m = MProgress q j n i.
Lemma say_if_says {R} P (m : message R) l : say_if P m l -> audits l = [] /\ (says l = [] \/ (says l = [m] /\ P)).
Proof. intros [[H ->]|[_ ->]]; cbn; auto. Qed.
Lemma told_audits {R} args (seen l : list (Z * outcome R)) evs : told args seen l evs -> audits evs = map fst l.
Proof.
  induction 1 as [|seen i o F|seen i o rest evs j b pr re NF L n SP SR T IH]; [reflexivity|reflexivity|].
  destruct (say_if_says _ _ _ SP) as [A _], (say_if_says _ _ _ SR) as [B _]. cbn. rewrite !audits_app, A, B, IH. reflexivity.
Qed.
Lemma told_progress {R} args (seen l : list (Z * outcome R)) evs : told args seen l evs ->
  ar_print_all args = false -> ar_print_only args = [] -> Forall is_progress (says evs).
Proof.
  intros T PA PO. induction T as [|seen i o F|seen i o rest evs j b pr re NF L n SP SR T IH]; [constructor|constructor|].
  destruct (say_if_says _ _ _ SP) as [_ A], (say_if_says _ _ _ SR) as [_ B]. cbn. rewrite !says_app.
  destruct B as [B|[_ [B|B]]]; [|congruence|rewrite PO in B; destruct B]. rewrite B. cbn. apply Forall_app. split; auto.
  destruct A as [A|[A _]]; rewrite A; repeat constructor. unfold is_progress. eauto.
Qed.
Lemma went_inj {R} (a b : list (Z * outcome R)) : map went a = map went b -> a = b.
Proof.
  revert b. induction a as [|[i o] a IH]; intros [|[j p] b] E; try discriminate; [reflexivity|]. cbn in E. injection E as -> -> E. f_equal. auto.
Qed.
Lemma numbered_nth {A} (l : list A) ns from : numbered from l ns -> forall i x, In (i, x) ns -> (from < i)%Z /\ nth_error l (Z.to_nat (i - from - 1)) = Some x.
Proof.
  induction 1 as [|from y l ns N IH]; intros i x I; [destruct I|]. destruct I as [E|I].
  - injection E as <- <-. split; [lia|]. replace (from + 1 - from - 1)%Z with 0%Z by lia. reflexivity.
  - destruct (IH _ _ I) as [L E]. split; [lia|]. replace (Z.to_nat (i - from - 1)) with (S (Z.to_nat (i - (from + 1) - 1))) by lia. exact E.
Qed.
Lemma picks_in {A} args (l ps : list (Z * A)) : picks args l ps -> forall i x, In (i, x) ps -> In (i, x) l /\ chosen args i.
Proof.
  induction 1 as [|i x l ps C P IH|i x l ps C P IH]; intros j y I; [destruct I| |].
  - destruct I as [E|I]; [injection E as <- <-; simpl; auto|]. destruct (IH _ _ I). simpl. auto.
  - destruct (IH _ _ I). simpl. auto.
Qed.
Lemma worked_in {A} args fin n (ps done : list A) b : worked args fin n ps done b -> exists rest, ps = done ++ rest.
Proof. induction 1 as [n|n x rest|n x rest|n x rest d b NF NL W [r ->]]; [exists []|exists rest|exists rest|exists r]; reflexivity. Qed.

(** Without printing options: one estimate, progress messages, exactly one closing message;
    this is the result that wins, under its index in the stream, or there was no audit. *)
Theorem driver_reports_best :
  forall R args n (outs : list (outcome R)), ar_audit_each args <> 0%Z -> ar_progress_every args <> 0%Z ->
  ar_estimate_only args = false -> ar_print_all args = false -> ar_print_only args = [] ->
  exists evs mid last ns ps done stopped, audit_driver args (Ok n) (map Ok outs) None = (evs, None) /\
    says evs = MEstimate n :: mid ++ [last] /\ Forall is_progress mid /\
    numbered 0 outs ns /\ picks args ns ps /\ worked args (fun p => finished (snd p)) 0 ps done stopped /\
    ((done = [] /\ last = MNoAudits) \/
     exists i o total, wins done (i, o) /\ nth_error outs (Z.to_nat (i - 1)) = Some o /\ generated done stopped (List.length outs) total /\
       last = MResult (o_result o) i (Z.of_nat (List.length done)) total).
Proof.
  intros R args n outs AE PE EO PA PO.
  destruct (driver_trace_exact R args n (map Ok outs) None AE PE EO) as [ns [ps [done [b [tr [N [P [W [RU E]]]]]]]]].
  assert (NN : exists ns0, numbered 0 outs ns0 /\ ns = map went ns0).
  { clear - N. remember (map Ok outs) as l eqn:EL. revert outs EL. induction N as [from|from x l ns N IH]; intros [|o outs] EL; try discriminate; [exists []; split; constructor|].
    cbn in EL. injection EL as -> ->. destruct (IH _ eq_refl) as [ns0 [N0 ->]]. eexists. split; [constructor; exact N0|reflexivity]. }
  destruct NN as [ns0 [N0 ->]].
  assert (PP : exists ps0, picks args ns0 ps0 /\ ps = map went ps0).
  { clear - P. remember (map went ns0) as l eqn:EL. revert ns0 EL. induction P as [|i x l ps C P IH|i x l ps C P IH]; intros [|[j o] ns0] EL; try discriminate.
    - exists []. split; [constructor|reflexivity].
    - cbn in EL. injection EL as -> -> ->. destruct (IH _ eq_refl) as [ps0 [P0 ->]]. eexists. split; [apply pk_take; [exact C|exact P0]|reflexivity].
    - cbn in EL. injection EL as -> -> ->. destruct (IH _ eq_refl) as [ps0 [P0 ->]]. exists ps0. split; [apply pk_skip; auto|reflexivity]. }
  destruct PP as [ps0 [P0 ->]].
  assert (WW : exists done0, worked args (fun p => finished (snd p)) 0 ps0 done0 b /\ done = map went done0).
  { clear - W. remember (map went ps0) as l eqn:EL. revert ps0 EL. induction W as [k|k x rest F|k x rest F A|k x rest d bb F A W IH]; intros [|[j o] ps0] EL; try discriminate.
    - exists []. split; [constructor|reflexivity].
    - cbn in EL. injection EL as -> ->. exists [(j, o)]. split; [apply wk_done; exact F|reflexivity].
    - cbn in EL. injection EL as -> ->. exists [(j, o)]. split; [apply wk_stop; auto|reflexivity].
    - cbn in EL. injection EL as -> ->. destruct (IH _ eq_refl) as [d0 [W0 ->]]. exists ((j, o) :: d0). split; [apply wk_more; auto|reflexivity]. }
  destruct WW as [done0 [W0 ->]].
  remember (map went done0) as dd eqn:ED. destruct RU as [done b' evs total fin T G NB C|done evs x T X|done evs k x b' T]; [|discriminate|].
  2: { exfalso. assert (X : In (k, Err x) (map went done0)) by (rewrite <- ED; apply in_or_app; simpl; auto). apply in_map_iff in X. destruct X as [[j o] [X _]]. discriminate X. }
  apply went_inj in ED. subst done0. cbn [fst snd app] in E, C. 
  assert (L : exists last, says fin = [last] /\ ((done = [] /\ last = MNoAudits) \/ exists i o, wins done (i, o) /\ last = MResult (o_result o) i (Z.of_nat (List.length done)) total)).
  { destruct C as [->|NE [H|[i [o [_ [_ H]]]]]|i o _ _ WI]; [| congruence|rewrite PO in H; destruct H|]; eexists; (split; [reflexivity|]); [left; auto|right; eauto]. }
  destruct L as [last [SF L]].
  exists (ESay (MEstimate n) :: evs ++ fin), (says evs), last, ns0, ps0, done, b'. split; auto.
  split; [cbn; rewrite says_app, SF; reflexivity|]. split; [eapply told_progress; eauto|]. split; auto. split; auto. split; auto.
  destruct L as [L|[i [o [WI ->]]]]; [left; exact L|right]. exists i, o, total. split; auto. split; [|rewrite map_length in G; auto].
  assert (I : In (i, o) done) by (destruct WI as [[pre [-> _]]|[_ [pre [post [-> _]]]]]; apply in_or_app; simpl; auto).
  destruct (worked_in _ _ _ _ _ _ W0) as [rest ->]. assert (J := proj1 (picks_in _ _ _ P0 i o (in_or_app _ _ _ (or_introl I)))).
  destruct (numbered_nth _ _ _ N0 _ _ J) as [LT E']. rewrite Z.sub_0_r in E'. exact E'.
Qed.
Print Assumptions driver_reports_best.
Example driver_example :
  audit_driver default_args (Ok 6%Z) stream None =
    ([ESay (MEstimate 6); EAudit 1; EAudit 2; EAudit 3; EAudit 4; EAudit 5; ESay (MResult 15%nat 5 5 5)], None) /\
  audit_driver (with_stop 4) (Ok 6%Z) stream None =
    ([ESay (MEstimate 6); EAudit 1; EAudit 2; EAudit 3; EAudit 4; ESay (MResult 12%nat 2 4 4)], None) /\
  audit_driver (each_of 2) (Ok 6%Z) (firstn 5 stream) None =
    ([ESay (MEstimate 6); EAudit 2; ESay (MProgress 3 2 1 2); EAudit 4; ESay (MProgress 3 2 2 4); ESay (MResult 12%nat 2 2 5)], None) /\
  audit_driver (each_of 2) (Ok 6%Z) stream None =
    ([ESay (MEstimate 6); EAudit 2; ESay (MProgress 3 2 1 2); EAudit 4; ESay (MProgress 3 2 2 4); EAudit 6], Some OtherErr) /\
  audit_driver (each_of 9) (Ok 6%Z) stream None = ([ESay (MEstimate 6); ESay MNoAudits], None) /\
  audit_driver default_args (Ok 6%Z) (firstn 2 stream) (Some KeyErr) = ([ESay (MEstimate 6); EAudit 1; EAudit 2], Some KeyErr).
Proof. vm_compute. auto 10. Qed.

(** ** C09 *)
Lemma worked_shape {A} args fin n (ps done : list A) b : worked args fin n ps done b ->
  (forall pre x post, done = pre ++ x :: post -> post <> [] -> ~ fin x) /\
  (forall k, ar_stop_after args = Some k -> done = [] \/ (Z.of_nat (n + List.length done) <= Z.max k (Z.of_nat n + 1))%Z).
Proof.
  induction 1 as [n|n x rest F|n x rest F A0|n x rest d b F A0 W IH].
  - split; [intros [|] ? ? E; discriminate|auto].
  - split; [|intros; right; cbn; lia]. intros [|y pre] z post E N; cbn in E; injection E as E1 E2; [congruence|]. destruct pre; discriminate.
  - split; [|intros; right; cbn; lia]. intros [|y pre] z post E N; cbn in E; injection E as E1 E2; [congruence|]. destruct pre; discriminate.
  - destruct IH as [IH1 IH2]. split.
    + intros [|y pre] z post E N; cbn in E; injection E as E1 E2; [subst; auto|]. eapply IH1; eauto.
    + intros k K. right. cbn [List.length]. assert (L : ~ (k <= Z.of_nat (S n))%Z) by (intro L; apply A0; exists k; auto).
      destruct (IH2 k K) as [->|B]; cbn [List.length] in *; lia.
Qed.
Lemma numbered_sorted {A} (l : list A) ns from : numbered from l ns -> StronglySorted (fun a b => (fst a < fst b)%Z) ns.
Proof.
  induction 1 as [|from x l ns N IH]; [constructor|]. constructor; auto. apply Forall_forall. intros [i y] I. destruct (numbered_nth _ _ _ N _ _ I). cbn. lia.
Qed.
Lemma picks_subseq {A} args (l ps : list (Z * A)) : picks args l ps -> subseq ps l.
Proof. induction 1; constructor; auto. Qed.
Lemma sorted_subseq {A} (R : A -> A -> Prop) l' l : subseq l' l -> StronglySorted R l -> StronglySorted R l'.
Proof.
  induction 1 as [|x l' l S IH|x l' l S IH]; intro H; [constructor| |]; inversion H as [|? ? H1 H2]; subst; auto.
  constructor; auto. rewrite Forall_forall in *. intros y I. apply H2. eapply subseq_in; eauto.
Qed.
Lemma sorted_prefix {A} (R : A -> A -> Prop) a b : StronglySorted R (a ++ b) -> StronglySorted R a.
Proof. induction a as [|x a IH]; intro H; [constructor|]. cbn in H. inversion H as [|? ? H1 H2]; subst. constructor; auto. rewrite Forall_forall in *. intros y I. apply H2. apply in_or_app. auto. Qed.

(** Whatever the options: only generated solutions that are chosen are audited, in order and
    each at most once; nothing is audited after a finished one; with [stop_after] at most
    max(1, n) are audited. *)
Theorem driver_work_is_bounded :
  forall R args n (l : list (res (outcome R))) e, ar_audit_each args <> 0%Z -> ar_progress_every args <> 0%Z ->
  let tr := audits (fst (audit_driver args (Ok n) l e)) in
  StronglySorted Z.lt tr /\
  (forall i, In i tr -> chosen args i /\ (0 < i)%Z /\ exists x, nth_error l (Z.to_nat (i - 1)) = Some x) /\
  (forall i j o, In i tr -> In j tr -> nth_error l (Z.to_nat (i - 1)) = Some (Ok o) -> finished o -> (j <= i)%Z) /\
  (forall k, ar_stop_after args = Some k -> (Z.of_nat (List.length tr) <= Z.max k 1)%Z).
Proof.
  intros R args n l e AE PE tr. destruct (ar_estimate_only args) eqn:EO.
  { assert (X : tr = []) by (unfold tr, audit_driver; rewrite EO; reflexivity). rewrite X. split; [constructor|]. split; [intros ? []|]. split; [intros ? ? ? []|]. intros. cbn. lia. }
  destruct (driver_trace_exact R args n l e AE PE EO) as [ns [ps [done [b [t [N [P [W [RU E]]]]]]]]].
  assert (X : tr = map fst done).
  { unfold tr. rewrite E. cbn [fst audits]. clear - RU. destruct RU as [done b' evs total fin T G NB C|done evs x T X|done evs k x b' T]; cbn [fst].
    - rewrite audits_app, (told_audits _ _ _ _ T). assert (F : audits fin = []) by (destruct C; reflexivity). rewrite F, app_nil_r, map_map. reflexivity.
    - rewrite (told_audits _ _ _ _ T), map_map. reflexivity.
    - rewrite audits_app, (told_audits _ _ _ _ T), map_app, map_map. reflexivity. }
  rewrite X. clear tr X. destruct (worked_in _ _ _ _ _ _ W) as [rest EP]. destruct (worked_shape _ _ _ _ _ _ W) as [SH ST].
  assert (SD : StronglySorted (fun a b => (fst a < fst b)%Z) done).
  { apply (sorted_prefix _ done rest). rewrite <- EP. eapply sorted_subseq; [eapply picks_subseq; exact P|eapply numbered_sorted; exact N]. }
  assert (IND : forall i x, In (i, x) done -> chosen args i /\ (0 < i)%Z /\ nth_error l (Z.to_nat (i - 1)) = Some x).
  { intros i x I. assert (J : In (i, x) ps) by (rewrite EP; apply in_or_app; auto). destruct (picks_in _ _ _ P _ _ J) as [K C]. destruct (numbered_nth _ _ _ N _ _ K) as [LT NE]. rewrite Z.sub_0_r in NE. auto. }
  split; [|split; [|split]].
  - clear - SD. induction SD as [|[i x] d SD IH F]; cbn; constructor; auto. rewrite Forall_forall in *. intros j I. apply in_map_iff in I. destruct I as [y [<- I]]. apply (F y I).
  - intros i I. apply in_map_iff in I. destruct I as [[k x] [<- I]]. destruct (IND _ _ I) as [A [B C]]. eauto.
  - intros i j o I J NE F. apply in_map_iff in I, J. destruct I as [[i' x] [Ei I]], J as [[j' y] [Ej J]]. cbn in Ei, Ej. subst i' j'.
    destruct (IND _ _ I) as [_ [_ NI]]. rewrite NE in NI. injection NI as <-. apply in_split in I. destruct I as [pre [post ED]].
    destruct post as [|z post].
    + rewrite ED in J, SD. apply in_app_iff in J. destruct J as [J|[J|[]]]; [|injection J as <-; lia].
      clear - SD J. induction pre as [|w pre IH]; [destruct J|]. cbn in SD. inversion SD as [|? ? S1 S2]; subst. destruct J as [->|J]; [|auto].
      rewrite Forall_forall in S2. specialize (S2 (i, Ok o)). cbn in S2. assert (j < i)%Z by (apply S2; apply in_or_app; simpl; auto). lia.
    + exfalso. apply (SH pre (i, Ok o) (z :: post) ED); [discriminate|]. exact F.
  - intros k K. rewrite map_length. destruct (ST k K) as [->|B]; cbn in *; lia.
Qed.
Print Assumptions driver_work_is_bounded.
Example bounded_example :
  audits (fst (audit_driver (mkArgs false false [2; 4; 5; 6]%Z (Some 2%Z) 1000 2) (Ok 6%Z) stream None)) = [2; 4]%Z /\
  audits (fst (audit_driver (with_stop 0) (Ok 6%Z) stream None)) = [1]%Z.
Proof. vm_compute. auto. Qed.

(** ** C86: printing *)

(** With [print_all] every audited result is said. *)
Definition print_all_says_every_result : Prop :=
  forall R args n (l : list (res (outcome R))) e, ar_print_all args = true -> ar_audit_each args <> 0%Z -> ar_progress_every args <> 0%Z ->
  forall i o, In i (audits (fst (audit_driver args (Ok n) l e))) -> nth_error l (Z.to_nat (i - 1)) = Some (Ok o) ->
  exists j k t, In (ESay (MResult (o_result o) j k t)) (fst (audit_driver args (Ok n) l e)).
(** Not the result that is finished: the loop is left before it is said, and nothing is said
    afterwards because results have been printed. If the first solution is finished, no
    result is said at all; with [print_only] likewise after an unfinished one. *)
Theorem print_all_says_every_result_refuted :
  ~ print_all_says_every_result /\
  audit_driver (with_print true []) (Ok 1%Z) [out 7 1 Done] None = ([ESay (MEstimate 1); EAudit 1], None) /\
  audit_driver (with_print false [1; 2]%Z) (Ok 2%Z) [out 7 1 Empty; out 8 2 Done] None =
    ([ESay (MEstimate 2); EAudit 1; ESay (MResult 7%nat 1 1 1); EAudit 2], None).
Proof.
  split; [|split; reflexivity]. intro H.
  destruct (H nat (with_print true []) 1%Z [out 7 1 Done] None eq_refl ltac:(discriminate) ltac:(discriminate) 1%Z (mkOut (7%nat) 1 Done)) as [j [k [t X]]]; [vm_compute; auto|reflexivity|].
  vm_compute in X. destruct X as [X|[X|[]]]; discriminate.
Qed.
Print Assumptions print_all_says_every_result_refuted.
(** Every unfinished result that was audited without exception is said. *)
Theorem print_all_says_every_result_partial :
  forall R args n (l : list (res (outcome R))) e, ar_print_all args = true -> ar_audit_each args <> 0%Z -> ar_progress_every args <> 0%Z ->
  forall i o, In i (audits (fst (audit_driver args (Ok n) l e))) -> nth_error l (Z.to_nat (i - 1)) = Some (Ok o) -> ~ finished o ->
  exists j k, In (ESay (MResult (o_result o) j k i)) (fst (audit_driver args (Ok n) l e)).
Proof.
  intros R args n l e PA AE PE i o IA NE NF. destruct (ar_estimate_only args) eqn:EO; [unfold audit_driver in IA; rewrite EO in IA; destruct IA|].
  destruct (driver_trace_exact R args n l e AE PE EO) as [ns [ps [done [b [t [N [P [W [RU E]]]]]]]]]. rewrite E in *. cbn [fst audits] in *.
  destruct (worked_in _ _ _ _ _ _ W) as [rest EP].
  assert (IND : forall i x, In (i, x) done -> nth_error l (Z.to_nat (i - 1)) = Some x).
  { intros k x I. assert (J : In (k, x) ps) by (rewrite EP; apply in_or_app; auto). destruct (picks_in _ _ _ P _ _ J) as [K C]. destruct (numbered_nth _ _ _ N _ _ K) as [LT Q]. rewrite Z.sub_0_r in Q. auto. }
  assert (G : forall seen d evs, told args seen d evs -> In (i, o) d -> exists j k, In (ESay (MResult (o_result o) j k i)) evs).
  { clear - PA NF. intros seen d evs T. induction T as [|seen k p F|seen k p rest evs j b pr re NF' L m SP SR T IH]; intro I; [destruct I| |].
    - destruct I as [I|[]]. injection I as -> ->. contradiction.
    - destruct I as [I|I].
      + injection I as -> ->. exists j, m. destruct SR as [[_ ->]|[X _]]; [|exfalso; apply X; left; exact PA]. right. apply in_or_app. right. simpl. auto.
      + destruct (IH I) as [j' [k' J]]. exists j', k'. right. apply in_or_app. right. apply in_or_app. auto. }
  assert (D : forall d : list (Z * outcome R), In i (map fst d) -> (forall k x, In (k, x) d -> In (k, Ok x) done) -> In (i, o) d).
  { intros d I S. apply in_map_iff in I. destruct I as [[k x] [<- I]]. assert (X := IND _ _ (S _ _ I)). cbn in NE. rewrite NE in X. injection X as <-. exact I. }
  assert (M : forall (d : list (Z * outcome R)) k x, In (k, x) d -> In (k, Ok x) (map went d)) by (intros d k x I; apply in_map_iff; exists (k, x); auto).
  destruct RU as [d b' evs total fin T G' NB C|d evs x T X|d evs k x b' T]; cbn [fst] in *.
  - rewrite audits_app, (told_audits _ _ _ _ T) in IA. assert (F : audits fin = []) by (destruct C; reflexivity). rewrite F, app_nil_r in IA.
    destruct (G _ _ _ T (D d IA (M d))) as [j [k J]]. exists j, k. right. apply in_or_app. auto.
  - rewrite (told_audits _ _ _ _ T) in IA. destruct (G _ _ _ T (D d IA (M d))) as [j [k J]]. exists j, k. right. auto.
  - rewrite audits_app, (told_audits _ _ _ _ T) in IA. apply in_app_iff in IA. destruct IA as [IA|[<-|[]]].
    + destruct (G _ _ _ T (D d IA (fun k x I => in_or_app _ _ _ (or_introl (M d k x I))))) as [j [k' J]]. exists j, k'. right. apply in_or_app. auto.
    + exfalso. assert (Y := IND k (Err x)). rewrite NE in Y. assert (Z0 : In (k, @Err (outcome R) x) (map went d ++ [(k, Err x)])) by (apply in_or_app; simpl; auto). specialize (Y Z0). discriminate Y.
Qed.
Print Assumptions print_all_says_every_result_partial.
Example print_all_example :
  audit_driver (with_print true []) (Ok 2%Z) [out 7 1 Empty; out 8 2 Empty] None =
    ([ESay (MEstimate 2); EAudit 1; ESay (MResult 7%nat 1 1 1); EAudit 2; ESay (MResult 8%nat 2 2 2)], None).
Proof. reflexivity. Qed.
