(** Property theorems about the server, the testbed and the command line (C161-C164). *)
From Coq Require Import List ZArith QArith Bool String Sorted Permutation Lia Arith.
From Verif Require Import Transcript Prelude Dec Status Course Exceptions Paths Context Predicate Tree Loader Driver Area AreaLoad Label StudentLoad Estimate Run Json Report Claimed Client ListFacts RunProps DriverProps QuerySpec JsonSpec JsonProofs JsonProps ReportSpec ReportProofs ClientSpec ClientProofs.
Import ListNotations.
Local Open Scope string_scope.
Local Open Scope list_scope.

(** ** C161: one verdict *)

(** what the server logs and stores *)
Definition server_says (p : person) (b : job) (vd : verdict) (notes : list note) (row : option server_row) : Prop :=
  match vd with
  | Broke x => notes = [Failed x] /\ row = None
  | NoWay => notes = [NothingDone] /\ row = None
  | Best v n =>
    (exists j r, area_json v = Ok j /\ known p /\ notes = [] /\ row = Some r /\ server_stores p b v n j r) \/
    (exists j, area_json v = Ok j /\ ~ known p /\ notes = [Failed KeyErr] /\ row = None) \/
    (exists x, area_json v = Err x /\ notes = [Failed x] /\ row = None)
  end.
(** what the testbed returns in time *)
Definition testbed_says (run_id stnum catalog code : string) (vd : verdict) (out : testbed_end) : Prop :=
  match vd with
  | Broke x => out = TbRaised x
  | NoWay => out = TbNone
  | Best v n =>
    (exists j r, area_json v = Ok j /\ out = TbRow r /\ testbed_stores run_id stnum catalog code v n j r) \/
    (exists x, area_json v = Err x /\ out = TbRaised x)
  end.
(** what the command line prints with --json, and its exit code *)
Definition chatter (p : printed) : Prop := (exists n, p = PEstimate n) \/ exists q j n i, p = PProgress q j n i.
Definition cli_says (vd : verdict) (out : list printed) (code : res Z) : Prop :=
  exists before, Forall chatter before /\
  match vd with
  | Broke x => out = before /\ code = Err x
  | NoWay => out = before /\ code = Ok 2%Z
  | Best v n =>
    (exists j, area_json v = Ok j /\ out = before ++ [PJson j] /\ code = Ok 0%Z) \/
    (exists x, area_json v = Err x /\ out = before /\ code = Err x)
  end.
Definition json_only (o : cli_options) : Prop := co_quiet o = false /\ co_json o = true /\ co_gpa o = false /\ co_claimed o = false.

Lemma known_dec p : known p \/ ~ known p.
Proof. unfold known. destruct p as [[a|] [b|] [c|] [e|]]; cbn; (left; repeat split; discriminate) || (right; intros (A & B & C & D); congruence). Qed.
Lemma cli_skips repr quote g4 dtext o cs l e mid : co_quiet o = false -> Forall progress mid ->
  exists ps, Forall chatter ps /\ cli_listens repr quote g4 dtext o cs (mid ++ l) e = (ps ++ fst (cli_listens repr quote g4 dtext o cs l e), snd (cli_listens repr quote g4 dtext o cs l e)).
Proof.
  intros QU. induction 1 as [|m mid (q & j & n & i & ->) H IH]; [exists []; split; [constructor|apply surjective_pairing]|]. destruct IH as (ps & F & E). exists (PProgress q j n i :: ps). split; [constructor; [right; repeat eexists|exact F]|].
  cbn [app cli_listens]. rewrite E, QU. reflexivity.
Qed.
(** The student is audited against the area with one outcome, and the three programs say the
    same of it. *)
Theorem an_audit_is_told_alike :
  forall tord ord nord d xs s,
  (exists an vd u, comes_to tord ord nord d xs s an vd u) /\
  (forall an vd u, comes_to tord ord nord d xs s an vd u ->
   (forall p b, server_says p b vd (fst (server_audit tord ord nord p b d xs s)) (snd (server_audit tord ord nord p b d xs s))) /\
   (forall run_id stnum catalog code timeout clock, (forall k, (k < looks an vd u)%nat -> ~ overdue timeout clock k) ->
      testbed_says run_id stnum catalog code vd (testbed_audit tord ord nord run_id stnum catalog code timeout clock d xs s)) /\
   (forall repr quote g4 dtext o, json_only o ->
      cli_says vd (fst (cli_main tord ord nord repr quote g4 dtext o false default_args d xs s)) (snd (cli_main tord ord nord repr quote g4 dtext o false default_args d xs s)))).
Proof.
  intros tord ord nord d xs s. split.
  { destruct (heard_default tord ord nord d xs s) as (an & vd & u & mid & cl & C & _). eauto. }
  intros an vd u C. destruct (heard_comes_to _ _ _ _ _ _ _ _ _ C) as (mid & cl & CL & PR & LE & H1 & H2 & NN). split; [|split].
  - intros p b. unfold server_audit. rewrite H1.
    assert (E : server_listens p b (opening an ++ mid ++ cl) (raised vd) = server_listens p b cl (raised vd)) by (destruct an; cbn [opening app server_listens]; apply server_skips; exact PR).
    rewrite E. destruct vd as [x| |v n]; cbn [closes raised] in *; [subst cl; cbn; auto|subst cl; cbn; auto|]. destruct CL as (j & t & ->). cbn [server_listens server_says].
    destruct (area_json v) as [y|x] eqn:J.
    + destruct (known_dec p) as [K|K].
      * destruct (server_row_ok p b v n y J K) as (r & R & S). rewrite R. left. exists y, r. auto.
      * rewrite (server_row_unknown p b v _ y J K). right. left. exists y. auto.
    + rewrite (server_row_unwritten p b v _ x J). right. right. exists x. auto.
  - intros run_id stnum catalog code timeout clock ND. unfold testbed_audit. rewrite H2. destruct an as [n0|]; cbn [opening testbed_estimate].
    2:{ destruct (NN eq_refl) as (_ & x & ->). cbn. reflexivity. }
    rewrite H1. cbn [opening app testbed_listens]. unfold looks in ND. assert (L0 : late timeout (clock 0%nat) = false).
    { destruct (late timeout (clock 0%nat)) eqn:E; [|reflexivity]. apply late_iff in E. exfalso. apply (ND 0%nat); [lia|exact E]. }
    rewrite L0, (testbed_waits _ _ _ _ _ _ _ _ _ PR).
    assert (NL : existsb (fun k => late timeout (clock k)) (seq 1 (List.length mid)) = false) by (apply none_late; intros k K; apply ND; lia).
    rewrite NL. destruct vd as [x| |v n]; cbn [closes raised] in *.
    + subst cl. reflexivity.
    + subst cl. cbn [testbed_listens]. assert (L1 : late timeout (clock (1 + List.length mid)%nat) = false).
      { destruct (late timeout (clock (1 + List.length mid)%nat)) eqn:E; [|reflexivity]. apply late_iff in E. exfalso. apply (ND (1 + List.length mid)%nat); [lia|exact E]. }
      rewrite L1. reflexivity.
    + destruct CL as (j & t & ->). cbn [testbed_listens testbed_says]. destruct (area_json v) as [y|x] eqn:J.
      * destruct (testbed_row_ok run_id stnum catalog code v n y J) as (r & R & S). rewrite R. left. exists y, r. auto.
      * right. exists x. split; [reflexivity|]. unfold testbed_row_of. rewrite J. reflexivity.
  - intros repr quote g4 dtext o (Q & JS & G & CM). unfold cli_main. rewrite G. fold no_switches. rewrite H1. set (cs := match run_student tord d xs s with Ok (_, st) => t_failed (sl_student st) | Err _ => [] end). clearbody cs.
    destruct (cli_skips repr quote g4 dtext o cs cl (raised vd) mid Q PR) as (ps & F & E).
    assert (OP : exists ps', Forall chatter ps' /\ cli_listens repr quote g4 dtext o cs (opening an ++ mid ++ cl) (raised vd) = (ps' ++ fst (cli_listens repr quote g4 dtext o cs cl (raised vd)), snd (cli_listens repr quote g4 dtext o cs cl (raised vd)))).
    { destruct an as [n|]; cbn [opening app cli_listens]; [|exists ps; auto]. exists (PEstimate n :: ps). split; [constructor; [left; eauto|exact F]|]. rewrite E, Q. reflexivity. }
    destruct OP as (ps' & F' & E'). rewrite E'. exists ps'. split; [exact F'|]. cbn [fst snd]. destruct vd as [x| |v n]; cbn [closes raised] in *.
    + subst cl. cbn. rewrite app_nil_r. auto.
    + subst cl. cbn. rewrite app_nil_r. auto.
    + destruct CL as (j & t & ->). cbn [cli_listens]. rewrite Q. unfold result_str. rewrite G, CM, JS. destruct (area_json v) as [y|x]; cbn [bind fst snd]; [left; exists y; auto|right; exists x; rewrite app_nil_r; auto].
Qed.
Print Assumptions an_audit_is_told_alike.

(** What the server and the testbed store of one student and one area is the same. *)
Theorem server_and_testbed_store_the_same :
  forall tord ord nord p b run_id stnum catalog code clock d xs s, known p ->
  (forall r, snd (server_audit tord ord nord p b d xs s) = Some r ->
     exists t, testbed_audit tord ord nord run_id stnum catalog code None clock d xs s = TbRow t /\
       sv_iterations r = tb_iterations t /\ sv_rank r = tb_rank t /\ sv_max_rank r = tb_max_rank t /\ sv_gpa r = tb_gpa t /\ sv_ok r = tb_ok t /\ sv_status r = tb_status t /\
       sv_version r = JInt (tb_version t) /\ same_json (sv_result r) (tb_result t)) /\
  (forall t, testbed_audit tord ord nord run_id stnum catalog code None clock d xs s = TbRow t -> exists r, snd (server_audit tord ord nord p b d xs s) = Some r).
Proof.
  intros tord ord nord p b run_id stnum catalog code clock d xs s K. destruct (an_audit_is_told_alike tord ord nord d xs s) as ((an & vd & u & C) & ALL). destruct (ALL an vd u C) as (SV & TB & _).
  specialize (SV p b). specialize (TB run_id stnum catalog code None clock ltac:(intros k _ (t & X & _); discriminate)). destruct vd as [x| |v n]; cbn [server_says testbed_says] in *.
  - destruct SV as [_ ->]. rewrite TB. split; intros; discriminate.
  - destruct SV as [_ ->]. rewrite TB. split; intros; discriminate.
  - destruct SV as [(j & r & J & _ & _ & R & S)|[(j & J & N & _)|(x & J & _ & R)]]; [|contradiction|].
    + destruct TB as [(j' & t & J' & T & S')|(x & J' & _)]; [|congruence]. rewrite J in J'. injection J' as <-. split; [|intros; eauto].
      intros r' E. rewrite R in E. injection E as <-. exists t. split; [exact T|]. destruct S as [[A1 (q & m & A2 & A3 & A4) A5 (bo & A6 & A7) (tx & A8 & A9)] A10 A11 _ _ _ _], S' as [[B1 (q' & m' & B2 & B3 & B4) B5 (bo' & B6 & B7) (tx' & B8 & B9)] [B10 _] B11 _].
      rewrite A2 in B2. injection B2 as <- <-. split; [congruence|]. split; [congruence|]. split; [congruence|]. split; [congruence|]. split; [rewrite A6, B6; f_equal; destruct bo, bo'; intuition congruence|].
      split; [rewrite A9, B9; f_equal; destruct (area_status v); inversion A8; inversion B8; reflexivity|]. split; [rewrite A11, B11; reflexivity|]. rewrite A10. exact B10.
    + destruct TB as [(j' & t & J' & _)|(x' & J' & T)]; [congruence|]. rewrite R, T. split; intros; discriminate.
Qed.
Print Assumptions server_and_testbed_store_the_same.

(** the sample of RunProps: one class is missing, so that nothing is complete *)
Definition here : person := mkPerson (Some "A") (Some "") (Some "JR") (Some "None").
Definition asked : job := mkJob "123" "140" "2016-17" 5 None false.
Definition sample_server (p : person) (b : job) (xs : list raw_entry) : list note * option server_row :=
  server_audit (fun l => l) (fun l => l) (fun l => l) p b (run_data run_rows) xs (run_spec "concentration").
Definition sample_testbed (timeout : option Q) (clock : nat -> Q) (xs : list raw_entry) : testbed_end :=
  testbed_audit (fun l => l) (fun l => l) (fun l => l) "base" "123" "2016-17" "140" timeout clock (run_data run_rows) xs (run_spec "concentration").
Definition jsons (l : list printed) : nat := List.length (filter (fun p => match p with PJson _ => true | _ => false end) l).
Definition sample_cli (o : cli_options) (args : arguments) (xs : list raw_entry) : list printed * res Z :=
  cli_main (fun l => l) (fun l => l) (fun l => l) (fun x => x) (fun x => x) (fun _ => "") (fun _ => "") o false args (run_data run_rows) xs (run_spec "concentration").
Definition as_json : cli_options := mkCli false true false false false true true None.
Example told_alike_example :
  (exists r t, sample_server here asked run_exceptions = ([], Some r) /\ sample_testbed None (fun _ => 0%Q) run_exceptions = TbRow t /\
     sv_status r = JStr "done" /\ tb_status t = JStr "done" /\ sv_iterations r = 2%Z /\ tb_iterations t = 2%Z /\ sv_active r = true /\ sv_class r = None /\ sv_name_sort r = None) /\
  (exists r, sample_server here asked [] = ([], Some r) /\ sv_status r = JStr "needs-more-items") /\
  sample_server (mkPerson None None None None) asked [] = ([Failed KeyErr], None) /\
  (jsons (fst (sample_cli as_json default_args run_exceptions)) = 1%nat /\ snd (sample_cli as_json default_args run_exceptions) = Ok 0%Z).
Proof.
  split; [|split; [|split]].
  - eexists. eexists. split; [vm_compute; reflexivity|]. split; [vm_compute; reflexivity|]. repeat split.
  - eexists. split; [vm_compute; reflexivity|]. reflexivity.
  - vm_compute. reflexivity.
  - split; vm_compute; reflexivity.
Qed.

(** ** C162: the time limit of the testbed *)

(** The testbed gives up exactly if one of its looks at the clock finds the time run out. It looks
    after the number was announced and after every 1000 audits that were not complete. *)
Theorem timeout_exactly_when_a_look_is_late :
  forall tord ord nord run_id stnum catalog code timeout clock d xs s an vd u, comes_to tord ord nord d xs s an vd u ->
  (testbed_audit tord ord nord run_id stnum catalog code timeout clock d xs s = TbLate <-> exists k, (k < looks an vd u)%nat /\ overdue timeout clock k).
Proof.
  intros tord ord nord run_id stnum catalog code timeout clock d xs s an vd u C. destruct (an_audit_is_told_alike tord ord nord d xs s) as (_ & ALL). destruct (ALL _ _ _ C) as (_ & TB & _). clear ALL. split.
  - intro H. destruct (existsb (fun k => late timeout (clock k)) (seq 0 (looks an vd u))) eqn:E.
    + apply existsb_exists in E. destruct E as (k & I & L). apply in_seq in I. apply late_iff in L. exists k. split; [lia|exact L].
    + rewrite none_late in E. specialize (TB run_id stnum catalog code timeout clock (fun k L => E k (conj (Nat.le_0_l k) L))). rewrite H in TB. exfalso.
      destruct vd; cbn [testbed_says] in TB; [discriminate|discriminate|]. destruct TB as [(j & r & _ & X & _)|(x & _ & X)]; discriminate.
  - intros (k & K & OV). clear TB. destruct (heard_comes_to _ _ _ _ _ _ _ _ _ C) as (mid & cl & CL & PR & LE & H1 & H2 & NN). unfold testbed_audit. rewrite H2. unfold looks in K. destruct an as [n0|]; [|lia]. cbn [opening testbed_estimate].
    rewrite H1. cbn [opening app testbed_listens]. apply late_iff in OV. destruct k as [|k]; [rewrite OV; reflexivity|]. destruct (late timeout (clock 0%nat)); [reflexivity|].
    rewrite (testbed_waits _ _ _ _ _ _ _ _ _ PR). destruct (existsb (fun k => late timeout (clock k)) (seq 1 (List.length mid))) eqn:E; [reflexivity|].
    assert (k >= List.length mid)%nat.
    { destruct (Nat.le_gt_cases (List.length mid) k) as [L|L]; [exact L|]. exfalso. rewrite none_late in E. apply (E (S k)); [lia|]. apply late_iff. exact OV. }
    destruct vd as [x| |v n]; [lia| |lia]. cbn [closes] in CL. subst cl. cbn [testbed_listens]. replace (1 + List.length mid)%nat with (S k) by lia. rewrite OV. reflexivity.
Qed.
Print Assumptions timeout_exactly_when_a_look_is_late.

(** The testbed gives up on an audit that takes longer than the limit. *)
Definition the_limit_is_kept : Prop :=
  forall tord ord nord run_id stnum catalog code timeout clock d xs s,
  (exists k, forall m, (k <= m)%nat -> overdue timeout clock m) -> (forall k m, (k <= m)%nat -> (clock k <= clock m)%Q) ->
  testbed_audit tord ord nord run_id stnum catalog code timeout clock d xs s = TbLate.
(** It does not: with fewer than 1000 solutions the clock is looked at once, before the first
    audit, however long the audits take. *)
Theorem the_limit_is_kept_refuted : ~ the_limit_is_kept.
Proof.
  intro H. specialize (H (fun l => l) (fun l => l) (fun l => l) "base" "123" "2016-17" "140" (Some 5%Q) (fun k => match k with O => 0%Q | _ => 86400%Q end) (run_data run_rows) [] (run_spec "concentration")).
  match type of H with _ -> _ -> ?x = _ => assert (E : exists r, x = TbRow r) by (eexists; vm_compute; reflexivity) end. destruct E as (r & E). rewrite E in H. discriminate H.
  - exists 1%nat. intros m L. destruct m; [lia|]. exists 5%Q. split; [reflexivity|]. split; [discriminate|]. unfold Qle. cbn. lia.
  - intros [|k] [|m] L; try lia; unfold Qle; cbn; lia.
Qed.
Print Assumptions the_limit_is_kept_refuted.
(** With fewer than 1000 audits that are not complete, a limit has no effect once the audits have begun. *)
Theorem short_audits_are_never_cut_short :
  forall tord ord nord run_id stnum catalog code timeout clock d xs s n vd u, comes_to tord ord nord d xs s (Some n) vd u ->
  (u < 1000)%nat -> vd <> NoWay -> ~ overdue timeout clock 0 ->
  testbed_audit tord ord nord run_id stnum catalog code timeout clock d xs s = testbed_audit tord ord nord run_id stnum catalog code None clock d xs s.
Proof.
  intros tord ord nord run_id stnum catalog code timeout clock d xs s n vd u C U NW OV. destruct (heard_comes_to _ _ _ _ _ _ _ _ _ C) as (mid & cl & CL & PR & LE & H1 & H2 & NN). unfold testbed_audit. rewrite H2. cbn [opening testbed_estimate]. rewrite H1. cbn [opening app testbed_listens].
  rewrite Nat.div_small in LE by lia. destruct mid; [|discriminate]. cbn [app]. assert (L : late timeout (clock 0%nat) = false) by (destruct (late timeout (clock 0%nat)) eqn:E; [|reflexivity]; apply late_iff in E; contradiction). rewrite L. cbn [late].
  destruct vd as [x| |v k]; [|contradiction|]; cbn [closes] in CL; [subst cl; reflexivity|]. destruct CL as (j & t & ->). reflexivity.
Qed.
Print Assumptions short_audits_are_never_cut_short.
Example late_example :
  sample_testbed (Some 5%Q) (fun _ => 6%Q) [] = TbLate /\ (exists r, sample_testbed (Some 5%Q) (fun k => inject_Z (Z.of_nat k) * 6)%Q [] = TbRow r) /\
  (exists r, sample_testbed (Some 0%Q) (fun _ => 6%Q) [] = TbRow r).
Proof. split; [vm_compute; reflexivity|]. split; eexists; vm_compute; reflexivity. Qed.

(** ** C163: exit codes *)

(** Whatever the options, the exit code is 0 or 2; other exceptions than those of the audit come
    only from printing a result. *)
Theorem exit_code_is_0_or_2 :
  forall tord ord nord repr quote g4 dtext o tr args d xs s c, snd (cli_main tord ord nord repr quote g4 dtext o tr args d xs s) = Ok c -> c = 0%Z \/ c = 2%Z.
Proof.
  intros tord ord nord repr quote g4 dtext o tr args d xs s c. unfold cli_main. destruct (heard tord ord nord _ args d xs s) as [l e]. generalize (match run_student tord d xs s with Ok (_, st) => t_failed (sl_student st) | Err _ => [] end). intro cs.
  induction l as [|m l IH]; cbn [cli_listens snd]; [destruct e; intro H; [discriminate|injection H as <-; auto]|].
  destruct m as [n| |q j n i|v j n i]; cbn [cli_listens] in *.
  - destruct (cli_listens repr quote g4 dtext o cs l e). exact IH.
  - intro H. injection H as <-. auto.
  - destruct (cli_listens repr quote g4 dtext o cs l e). exact IH.
  - destruct (co_quiet o); [exact IH|]. destruct (result_str repr quote g4 dtext o cs v); [|discriminate]. destruct (cli_listens repr quote g4 dtext o cs l e). exact IH.
Qed.
Print Assumptions exit_code_is_0_or_2.
(** With the default arguments: 2 exactly if there was nothing to audit, and otherwise 0, whether or
    not the area is complete, unless an exception was raised by the audit or by printing. *)
Theorem exit_codes_tell_whether_anything_was_audited :
  forall tord ord nord repr quote g4 dtext o d xs s an vd u, co_gpa o = false -> comes_to tord ord nord d xs s an vd u ->
  let code := snd (cli_main tord ord nord repr quote g4 dtext o false default_args d xs s) in
  (code = Ok 2%Z <-> vd = NoWay) /\
  (code = Ok 0%Z <-> exists v n, vd = Best v n /\ (co_quiet o = true \/ exists es st p, run_student tord d xs s = Ok (es, st) /\ result_str repr quote g4 dtext o (t_failed (sl_student st)) v = Ok p)) /\
  (forall x, code = Err x <-> vd = Broke x \/ (exists v n es st, vd = Best v n /\ co_quiet o = false /\ run_student tord d xs s = Ok (es, st) /\ result_str repr quote g4 dtext o (t_failed (sl_student st)) v = Err x)).
Proof.
  intros tord ord nord repr quote g4 dtext o d xs s an vd u G C. destruct (heard_comes_to _ _ _ _ _ _ _ _ _ C) as (mid & cl & CL & PR & LE & H1 & H2 & NN). cbv zeta. unfold cli_main. rewrite G. fold no_switches. rewrite H1.
  assert (RS : match vd with Best _ _ => exists es st, run_student tord d xs s = Ok (es, st) | _ => True end).
  { destruct vd; auto. unfold comes_to in C. destruct (run_student tord d xs s) as [(es & st)|x]; [eauto|]. destruct C as (_ & X & _). discriminate. }
  set (cs := match run_student tord d xs s with Ok (_, st) => t_failed (sl_student st) | Err _ => [] end).
  assert (SK : snd (cli_listens repr quote g4 dtext o cs (opening an ++ mid ++ cl) (raised vd)) = snd (cli_listens repr quote g4 dtext o cs cl (raised vd))).
  { assert (M : snd (cli_listens repr quote g4 dtext o cs (mid ++ cl) (raised vd)) = snd (cli_listens repr quote g4 dtext o cs cl (raised vd))).
    { clear LE H1 NN. induction PR as [|m mid (q & j & n & i & ->) H IH]; [reflexivity|]. cbn [app cli_listens]. destruct (cli_listens repr quote g4 dtext o cs (mid ++ cl) (raised vd)). exact IH. }
    destruct an; cbn [opening app cli_listens]; [|exact M]. destruct (cli_listens repr quote g4 dtext o cs (mid ++ cl) (raised vd)). exact M. }
  rewrite SK. destruct vd as [x| |v n]; cbn [closes raised] in *.
  - subst cl. cbn [cli_listens snd]. split; [split; discriminate|]. split; [split; [discriminate|intros (v & n & X & _); discriminate]|]. intro y. split; [intro H; injection H as <-; auto|intros [H|(v & n & es & st & H & _)]; [injection H as <-; reflexivity|discriminate]].
  - subst cl. cbn [cli_listens snd]. split; [split; reflexivity|]. split; [split; [discriminate|intros (v & n & X & _); discriminate]|]. intro y. split; [discriminate|intros [H|(v & n & es & st & H & _)]; discriminate].
  - destruct CL as (j & t & ->). destruct RS as (es & st & RS). subst cs. rewrite RS. cbn [cli_listens]. destruct (co_quiet o) eqn:QU; [|destruct (result_str repr quote g4 dtext o (t_failed (sl_student st)) v) as [p|x] eqn:P]; cbn [snd].
    + split; [split; discriminate|]. split; [split; [eauto 10|reflexivity]|]. intro y. split; [discriminate|]. intros [H|(v' & n' & es' & st' & _ & H & _)]; discriminate.
    + split; [split; discriminate|]. split; [split; [intros _; exists v, n; split; [reflexivity|right; exists es, st, p; auto]|reflexivity]|]. intro y. split; [discriminate|]. intros [H|(v' & n' & es' & st' & E & _ & R & H)]; [discriminate|]. injection E as <- <-. injection R as <- <-. congruence.
    + split; [split; discriminate|]. split; [split; [discriminate|]|].
      * intros (v' & n' & E & [H|(es' & st' & p & R & H)]); [discriminate|]. injection E as <- <-. injection R as <- <-. congruence.
      * intro y. split; [intro H; injection H as <-; right; exists v, n, es, st; auto|]. intros [H|(v' & n' & es' & st' & E & _ & R & H)]; [discriminate|]. injection E as <- <-. injection R as <- <-. congruence.
Qed.
Print Assumptions exit_codes_tell_whether_anything_was_audited.
(** Exit code 0 means that a result was printed. *)
Definition a_good_exit_means_a_result : Prop :=
  forall tord ord nord repr quote g4 dtext o tr args d xs s, json_only o -> ar_estimate_only args = false -> tr = false ->
  snd (cli_main tord ord nord repr quote g4 dtext o tr args d xs s) = Ok 0%Z ->
  exists j, In (PJson j) (fst (cli_main tord ord nord repr quote g4 dtext o tr args d xs s)).
(** Not with --print-all: if the first solution is complete, nothing is printed. *)
Definition two_taken : sdata := run_data [taken_in "7" "3.00" true 2019].
Definition one_course : spec :=
  mkSpec (mkAspec (Some "Sample") (Some "concentration") (Some "B.A.") (Some "140") [] (Some (LoaderProps.d_all [LoaderProps.d_course "CSCI 121"])) None None [] false) [] [].
Theorem a_good_exit_means_a_result_refuted : ~ a_good_exit_means_a_result.
Proof.
  intro H. specialize (H (fun l => l) (fun l => l) (fun l => l) (fun x => x) (fun x => x) (fun _ => "") (fun _ => "") as_json false (mkArgs false true [] None 1000 1) two_taken [] one_course).
  match type of H with _ -> _ -> _ -> ?a = _ -> exists j, In _ ?b => assert (A : a = Ok 0%Z) by (vm_compute; reflexivity); assert (B : b = [PEstimate 1]) by (vm_compute; reflexivity) end.
  rewrite B in H. destruct (H ltac:(repeat split) eq_refl eq_refl A) as (j & [X|[]]). discriminate.
Qed.
Print Assumptions a_good_exit_means_a_result_refuted.
(** A report that is asked for with --gpa is never that of a result: the GPA is printed by [run]
    before any audit, and nothing is audited. *)
Theorem gpa_is_not_the_gpa_of_a_result :
  forall tord ord nord repr quote g4 dtext o tr args d xs s, co_gpa o = true \/ tr = true ->
  fst (cli_main tord ord nord repr quote g4 dtext o tr args d xs s) = [].
Proof.
  intros tord ord nord repr quote g4 dtext o tr args d xs s H. unfold cli_main, heard, run. cbn [sw_transcript sw_gpa].
  destruct (run_student tord d xs s) as [(es & st)|x]; cbn [bind messages]; [|reflexivity]. destruct tr; cbn [messages]; [reflexivity|]. destruct H as [H|H]; [|discriminate]. rewrite H. reflexivity.
Qed.
Print Assumptions gpa_is_not_the_gpa_of_a_result.
Definition quietly : cli_options := mkCli true true false false false true true None.
Definition no_area : spec := mkSpec (mkAspec None None None None [] None None None [] false) [] [].
Example exit_code_example :
  snd (sample_cli as_json default_args []) = Ok 0%Z /\ sample_cli quietly default_args [] = ([], Ok 0%Z) /\
  (exists x, snd (cli_main (fun l => l) (fun l => l) (fun l => l) (fun x => x) (fun x => x) (fun _ => "") (fun _ => "") as_json false default_args (run_data run_rows) [] no_area) = Err x).
Proof. split; [vm_compute; reflexivity|]. split; [vm_compute; reflexivity|]. eexists. vm_compute. reflexivity. Qed.

(** ** C164: what the testbed prints *)

(** The testbed prints of a stored result what the description of the report says of it, with
    paths and ranks and the classes of the student's data as they are. *)
Theorem testbed_prints_the_report :
  forall tord repr quote g4 dtext d st v j, area_json v = Ok j -> load_student tord d "000" [] [] = Ok st ->
  let cs := t_courses (sl_student st) in
  (area_printable cs None v = true -> testbed_render tord repr quote g4 dtext d j = Ok (area_report repr quote g4 dtext cs true true None v)) /\
  (area_printable cs None v = false -> exists e, testbed_render tord repr quote g4 dtext d j = Err e).
Proof.
  intros tord repr quote g4 dtext d st v j J L. cbv zeta. unfold testbed_render. rewrite L. cbn [bind].
  assert (X := area_said repr quote g4 dtext (t_courses (sl_student st)) true true None v j J).
  destruct (area_lookup v j J) as (dd & q & m & -> & _ & _ & _ & _ & _ & _ & V). unfold render_result. cbn [jobj bind]. rewrite V. cbn [bind]. unfold gives in X. split; intro E; rewrite E in X; exact X.
Qed.
Print Assumptions testbed_prints_the_report.
(** The testbed prints of the result of an audit the lines that the command line begins with. *)
Definition testbed_shows_what_the_command_line_shows : Prop :=
  forall tord ord nord repr quote g4 dtext o d xs s an v n u j, comes_to tord ord nord d xs s an (Best v n) u -> area_json v = Ok j ->
  co_quiet o = false -> co_json o = false -> co_both o = false -> co_gpa o = false -> co_claimed o = false -> co_paths o = true -> co_ranks o = true -> co_only o = None ->
  forall before l, fst (cli_main tord ord nord repr quote g4 dtext o false default_args d xs s) = before ++ [PReport l] ->
  exists lines, testbed_render tord repr quote g4 dtext d j = Ok lines /\ hd "" l = String.concat newline lines.
(** Not if an exception gives a class another subject: the testbed loads the student without
    exceptions and prints the subject that the class had. *)
Definition other_row : row :=
  mkRow [] "8" "SE" "1.00" "2" true false false false true [] "B" "grade" "3.00" "STOLAF" 200 "More" "251" None "A" "" "MATH" "?" "1" "" 2018.
Definition with_other : sdata := run_data [taken_in "7" "3.00" true 2019; other_row].
Definition resubjected : list raw_entry := [mkEntry (Some "140") (mkRaw (Some XCourseSubject) ["$"] (Some "8") None None (Some "CSCI"))].
Definition all_lines : cli_options := mkCli false false false false false true true None.
Definition best_of (d : sdata) (xs : list raw_entry) (s : spec) : option area_result :=
  match fst (heard (fun l => l) (fun l => l) (fun l => l) no_switches default_args d xs s) with l => match last l MNoAudits with MResult v _ _ _ => Some v | _ => None end end.
Lemma best_is_heard tord ord nord d xs s an vd u l v j n t : comes_to tord ord nord d xs s an vd u ->
  heard tord ord nord no_switches default_args d xs s = (l, None) -> last l MNoAudits = MResult v j n t -> exists k, vd = Best v k.
Proof.
  intros C H L. destruct (heard_comes_to _ _ _ _ _ _ _ _ _ C) as (mid & cl & CL & PR & LE & H1 & H2 & NN). rewrite H in H1. injection H1 as -> RS. rewrite app_assoc in L. destruct vd as [x| |v' k]; cbn [closes raised] in *.
  - discriminate.
  - subst cl. rewrite last_last in L. discriminate.
  - destruct CL as (j' & t' & ->). rewrite last_last in L. injection L as <- _ _ _. eauto.
Qed.
Theorem testbed_shows_what_the_command_line_shows_refuted : ~ testbed_shows_what_the_command_line_shows.
Proof.
  intro H.
  destruct (best_of with_other resubjected (run_spec "concentration")) as [v|] eqn:B; [|vm_compute in B; discriminate B].
  destruct (area_json v) as [j|] eqn:J; [|vm_compute in B; injection B as <-; vm_compute in J; discriminate J].
  destruct (an_audit_is_told_alike (fun l => l) (fun l => l) (fun l => l) with_other resubjected (run_spec "concentration")) as ((an & vd & u & C) & _).
  assert (V : exists k, vd = Best v k).
  { unfold best_of in B. destruct (heard (fun l => l) (fun l => l) (fun l => l) no_switches default_args with_other resubjected (run_spec "concentration")) as [l e] eqn:HE. cbn [fst] in B. destruct (last l MNoAudits) as [| |? ? ? ?|v' a b c] eqn:LA; try discriminate B. injection B as ->.
    assert (e = None) by (revert HE; vm_compute; intro X; congruence). subst e. exact (best_is_heard _ _ _ _ _ _ _ _ _ _ _ _ _ _ C HE LA). }
  destruct V as (k & ->).
  specialize (H (fun l => l) (fun l => l) (fun l => l) (fun x => x) (fun x => x) (fun _ => "") (fun _ => "") all_lines with_other resubjected (run_spec "concentration") an v k u j C J eq_refl eq_refl eq_refl eq_refl eq_refl eq_refl eq_refl eq_refl).
  clear C. vm_compute in B. injection B as <-. vm_compute in J. injection J as <-.
  match type of H with forall before l, ?lhs = _ -> _ => assert (E : exists b l, lhs = b ++ [PReport l] /\ forall lines, testbed_render (fun l => l) (fun x => x) (fun x => x) (fun _ => "") (fun _ => "") with_other
    match best_of with_other resubjected (run_spec "concentration") with Some v => match area_json v with Ok j => j | Err _ => JNull end | None => JNull end = Ok lines -> hd "" l <> String.concat newline lines) end.
  { eexists [PEstimate _]. eexists. split; [vm_compute; reflexivity|]. intros lines E. vm_compute in E. injection E as <-. vm_compute. discriminate. }
  destruct E as (b & l & E & N). destruct (H b l E) as (lines & R & X). apply (N lines); [|exact X]. revert R. vm_compute. intro R. exact R.
Qed.
Print Assumptions testbed_shows_what_the_command_line_shows_refuted.

(** ** C165: results stored by hand *)

(** A result that is stored from the command line of the server is shown to everybody unless
    --link-only was given. *)
Definition stored_by_hand_is_shown : Prop :=
  forall tord ord nord p d xs s run_id stnum catalog code r,
  snd (server_audit tord ord nord p (cli_job false run_id stnum catalog code) d xs s) = Some r -> sv_active r = true /\ sv_link_only r = false.
(** Never: the option is not looked at, and every result is stored as if it had been given. *)
Theorem stored_by_hand_is_shown_refuted : ~ stored_by_hand_is_shown.
Proof.
  intro H. specialize (H (fun l => l) (fun l => l) (fun l => l) here (run_data run_rows) run_exceptions (run_spec "concentration") (-1)%Z "123" "2016-17" "140").
  match type of H with forall r, ?x = _ -> _ => assert (E : exists r, x = Some r /\ sv_active r = false) by (eexists; split; [vm_compute; reflexivity|reflexivity]) end.
  destruct E as (r & E & A). destruct (H r E) as [B _]. congruence.
Qed.
Print Assumptions stored_by_hand_is_shown_refuted.
Theorem stored_by_hand_is_hidden :
  forall tord ord nord p d xs s link_only run_id stnum catalog code r,
  snd (server_audit tord ord nord p (cli_job link_only run_id stnum catalog code) d xs s) = Some r ->
  sv_link_only r = true /\ sv_active r = false /\ sv_expires r = None /\ sv_run r = run_id /\ sv_student r = stnum /\ sv_catalog r = catalog /\ sv_code r = code.
Proof.
  intros tord ord nord p d xs s link_only run_id stnum catalog code r H. destruct (an_audit_is_told_alike tord ord nord d xs s) as ((an & vd & u & C) & ALL). destruct (ALL an vd u C) as (SV & _). specialize (SV p (cli_job link_only run_id stnum catalog code)). rewrite H in SV.
  destruct vd as [x| |v n]; cbn [server_says] in SV; try (destruct SV; discriminate). destruct SV as [(j & r' & _ & _ & _ & R & S)|[(j & _ & _ & _ & R)|(x & _ & _ & R)]]; try discriminate. injection R as <-.
  destruct S as [_ _ _ _ (A1 & A2 & A3 & A4 & A5 & A6) AC _]. cbn [cli_job jb_stnum jb_code jb_catalog jb_run jb_expires jb_link_only] in *. repeat split; auto. destruct (sv_active r); [|reflexivity]. destruct (proj1 AC eq_refl). reflexivity.
Qed.
Print Assumptions stored_by_hand_is_hidden.
Example testbed_prints_example :
  exists v j lines, best_of with_other resubjected (run_spec "concentration") = Some v /\ area_json v = Ok j /\
  testbed_render (fun l => l) (fun x => x) (fun x => x) (fun _ => "") (fun _ => "") with_other j = Ok lines /\ List.length lines = 9%nat.
Proof. do 3 eexists. split; [vm_compute; reflexivity|]. split; [vm_compute; reflexivity|]. split; [vm_compute; reflexivity|]. vm_compute. reflexivity. Qed.
