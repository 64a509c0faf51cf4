(** Proofs about those who listen to an audit. *)
From Coq Require Import List ZArith QArith Bool String Sorted Permutation Lia Zify ZifyNat Arith.
From Verif Require Import Transcript Prelude Dec Status Course Exceptions Paths Context Predicate Tree Loader Driver Area AreaLoad Label StudentLoad Estimate Run Json Report Claimed Client ListFacts QuerySpec JsonSpec StrFacts Catalog CatalogProps JsonProofs JsonProps ClientSpec.
Import ListNotations.
Local Open Scope string_scope.
Local Open Scope list_scope.

Lemma div_step_yes n : ((Z.of_nat n + 1) mod 1000 = 0)%Z -> (S n / 1000 = n / 1000 + 1)%nat.
Proof. intro H. apply Nat2Z.inj. rewrite Nat2Z.inj_add, !Nat2Z.inj_div. change (Z.of_nat 1000) with 1000%Z. rewrite Nat2Z.inj_succ. Z.to_euclidean_division_equations. lia. Qed.
Lemma div_step_no n : ((Z.of_nat n + 1) mod 1000 <> 0)%Z -> (S n / 1000 = n / 1000)%nat.
Proof. intro H. apply Nat2Z.inj. rewrite !Nat2Z.inj_div. change (Z.of_nat 1000) with 1000%Z. rewrite Nat2Z.inj_succ. Z.to_euclidean_division_equations. lia. Qed.

(** ** The messages of an audit by default *)
Definition progress (m : message area_result) : Prop := exists q j n i, m = MProgress q j n i.
Definition closes (vd : verdict) (l : list (message area_result)) : Prop :=
  match vd with
  | Broke _ => l = []
  | NoWay => l = [MNoAudits]
  | Best v n => exists j t, l = [MResult v j (Z.of_nat n) t]
  end.
Definition raised (vd : verdict) : option err := match vd with Broke x => Some x | _ => None end.
Definition leading (seen : list (outcome area_result)) (best : option (area_result * Q * Z)) : Prop :=
  match best with
  | None => seen = []
  | Some (r, q, j) => exists pre o post, seen = pre ++ o :: post /\ r = o_result o /\ q = o_rank o /\
      (forall x, In x pre -> (o_rank x < q)%Q) /\ (forall x, In x post -> (o_rank x <= q)%Q)
  end.
Lemma spoken_app {R} (a b : list (event R)) : spoken (a ++ b) = spoken a ++ spoken b.
Proof. induction a as [|[i|m] a IH]; cbn; rewrite ?IH; reflexivity. Qed.
Lemma inS_complete s : inS s WAIVED_AND_DONE = true <-> complete s.
Proof. unfold complete. destruct s; vm_compute; intuition discriminate. Qed.
Lemma better_leads seen best o i : leading seen best -> let '(r, q, j) := better best o i in leading (seen ++ [o]) (Some (r, q, j)).
Proof.
  destruct best as [[[r q] j]|]; cbn [better leading].
  - intros (pre & x & post & -> & -> & -> & H1 & H2). destruct (Qle_bool (o_rank o) (o_rank x)) eqn:E.
    + exists pre, x, (post ++ [o]). rewrite <- app_assoc. split; [reflexivity|]. split; [reflexivity|]. split; [reflexivity|]. split; [exact H1|].
      intros y I. apply in_app_iff in I. destruct I as [I|[<-|[]]]; [auto|apply Qle_bool_iff; exact E].
    + assert (L : (o_rank x < o_rank o)%Q) by (apply Qnot_le_lt; intro N; apply Qle_bool_iff in N; congruence).
      exists (pre ++ x :: post), o, []. split; [reflexivity|]. split; [reflexivity|]. split; [reflexivity|]. split; [|intros y []].
      intros y I. apply in_app_iff in I. destruct I as [I|[<-|I]]; [eapply Qlt_trans; [apply H1, I|exact L]|exact L|eapply Qle_lt_trans; [apply H2, I|exact L]].
  - intros ->. exists [], o, []. cbn [app]. do 3 (split; [reflexivity|]). split; intros y [].
Qed.
Lemma drive_default l e : forall seen best, Forall unfinished seen -> leading seen best ->
  exists vd u mid cl, settles e (map Ok seen ++ l) vd u /\ closes vd cl /\ Forall progress mid /\ (List.length mid + List.length seen / 1000 = u / 1000)%nat /\
    spoken (fst (drive default_args (mkState (Z.of_nat (List.length seen)) (Z.of_nat (List.length seen)) best false) l e)) = mid ++ cl /\
    snd (drive default_args (mkState (Z.of_nat (List.length seen)) (Z.of_nat (List.length seen)) best false) l e) = raised vd.
Proof.
  induction l as [|x l IH]; intros seen best U L.
  - cbn [drive]. destruct e as [x|].
    + exists (Broke x), (List.length seen), [], []. split; [rewrite app_nil_r; apply se_ends; auto|]. split; [reflexivity|]. split; [constructor|]. split; [reflexivity|]. split; reflexivity.
    + unfold finish. cbn [st_best default_args ar_print_all st_printed orb st_audits st_total]. destruct best as [[[r q] j]|]; cbn [leading] in L.
      * destruct L as (pre & o & post & -> & -> & -> & H1 & H2). eexists (Best (o_result o) _), _, [], _. split; [rewrite app_nil_r; apply se_best; auto|]. split; [eexists; eexists; reflexivity|]. split; [constructor|]. split; [reflexivity|]. split; reflexivity.
      * subst seen. exists NoWay, 0%nat, [], [MNoAudits]. split; [apply se_none; reflexivity|]. split; [reflexivity|]. split; [constructor|]. split; [reflexivity|]. split; reflexivity.
  - cbn [drive]. cbn [default_args ar_print_only ar_audit_each ar_progress_every ar_print_all ar_stop_after st_total st_audits st_best st_printed in_only existsb orb].
    replace (zmod (Z.of_nat (List.length seen) + 1) 1) with (Ok 0%Z) by (unfold zmod; cbn [Z.eqb]; rewrite Z.mod_1_r; reflexivity). destruct x as [o|x].
    2:{ exists (Broke x), (List.length seen), [], []. split; [apply se_fails; exact U|]. split; [reflexivity|]. split; [constructor|]. split; [reflexivity|]. split; reflexivity. }
    destruct (inS (o_status o) WAIVED_AND_DONE) eqn:C.
    + apply inS_complete in C. exists (Best (o_result o) (List.length seen + 1)), (List.length seen), [].
      eexists. split; [apply se_done; assumption|]. split; [eexists; eexists; reflexivity|]. split; [constructor|]. split; [reflexivity|]. split; [|reflexivity]. rewrite Nat2Z.inj_add. reflexivity.
    + assert (UO : unfinished o) by (intro K; apply inS_complete in K; congruence).
      assert (BL := better_leads seen best o (Z.of_nat (List.length seen) + 1)%Z L). destruct (better best o _) as [[r q] j] eqn:EB.
      destruct (IH (seen ++ [o]) (Some (r, q, j)) ltac:(apply Forall_app; auto) BL) as (vd & u & mid & cl & S & CL & PR & LE & SP & SN).
      rewrite app_length in LE, SP, SN. cbn [List.length] in LE, SP, SN. rewrite Nat2Z.inj_add in SP, SN. change (Z.of_nat 1) with 1%Z in SP, SN.
      rewrite Nat.add_1_r in LE. rewrite map_app, <- app_assoc in S. cbn [map app] in S.
      unfold zmod. cbn [Z.eqb]. destruct ((Z.of_nat (List.length seen) + 1) mod 1000)%Z eqn:M; cbn [Z.eqb].
      * exists vd, u, (MProgress q j (Z.of_nat (List.length seen) + 1)%Z (Z.of_nat (List.length seen) + 1)%Z :: mid), cl.
        split; [exact S|]. split; [exact CL|]. split; [constructor; [repeat eexists|exact PR]|]. split; [rewrite (div_step_yes _ M) in LE; cbn [List.length]; lia|].
        cbn [also fst snd app spoken]. rewrite SP. split; [reflexivity|exact SN].
      * exists vd, u, mid, cl. split; [exact S|]. split; [exact CL|]. split; [exact PR|]. split; [rewrite (div_step_no (List.length seen)) in LE by (rewrite M; discriminate); exact LE|].
        cbn [also fst snd app spoken]. split; [exact SP|exact SN].
      * exists vd, u, mid, cl. split; [exact S|]. split; [exact CL|]. split; [exact PR|]. split; [rewrite (div_step_no (List.length seen)) in LE by (rewrite M; discriminate); exact LE|].
        cbn [also fst snd app spoken]. split; [exact SP|exact SN].
Qed.
Definition opening (announced : option Z) : list (message area_result) := match announced with Some n => [MEstimate n] | None => [] end.
Lemma heard_default tord ord nord d xs s :
  exists an vd u mid cl, comes_to tord ord nord d xs s an vd u /\ closes vd cl /\ Forall progress mid /\ List.length mid = (u / 1000)%nat /\
  heard tord ord nord no_switches default_args d xs s = (opening an ++ mid ++ cl, raised vd) /\
  heard tord ord nord no_switches estimate_args d xs s = (opening an, match an with Some _ => None | None => raised vd end) /\ (an = None -> mid = [] /\ exists x, vd = Broke x).
Proof.
  unfold heard, run, comes_to. destruct (run_student tord d xs s) as [[es st]|x]; cbn [bind].
  2:{ exists None, (Broke x), 0%nat, [], []. cbn. repeat (split; [auto|]). eauto. }
  cbn [no_switches sw_transcript sw_gpa]. destruct (load_area _ _ _ _ _ _) as [a|x]; cbn [bind].
  2:{ exists None, (Broke x), 0%nat, [], []. cbn. repeat (split; [auto|]). eauto. }
  unfold audit_area, audit_driver. destruct (area_estimate ord nord a (sl_student st) es) as [n|x]; cbn [messages fst snd].
  2:{ exists None, (Broke x), 0%nat, [], []. cbn. repeat (split; [auto|]). eauto. }
  cbn [default_args estimate_args ar_estimate_only]. set (g := area_solutions ord nord a (sl_student st) es).
  destruct (drive_default (map (outcome_of ord a) (g_items g)) (g_exn g) [] None ltac:(constructor) eq_refl) as (vd & u & mid & cl & S & CL & PR & LE & SP & SN).
  cbn [List.length] in *. change (Z.of_nat 0) with 0%Z in *. change (0 / 1000)%nat with 0%nat in LE. rewrite Nat.add_0_r in LE.
  exists (Some n), vd, u, mid, cl. split; [auto|]. split; [exact CL|]. split; [exact PR|]. split; [exact LE|]. cbn [also fst snd app spoken opening].
  split; [f_equal; [f_equal; exact SP|exact SN]|]. split; [reflexivity|discriminate].
Qed.

(** ** The dictionary of a result *)
Lemma area_lookup v j : area_json v = Ok j -> exists d q m, j = JObj d /\ area_rank v = Ok (q, m) /\
  jkey d "rank" = Ok (JNum q) /\ jkey d "max_rank" = Ok (JNum m) /\ jkey d "gpa" = Ok (JStr (str_of_dec (area_gpa v))) /\
  jkey d "ok" = Ok (JBool (inS (area_status v) WAIVED_AND_DONE)) /\ jkey d "status" = Ok (JStr (status_value (area_status v))) /\ jkey d "version" = Ok (JInt 3).
Proof.
  unfold area_json. intro H. destruct (area_rank v) as [[q m]|] eqn:R; cbn [bind] in H; [|discriminate]. destruct (node_json (v_result v)) as [x|]; cbn [bind] in H; [|discriminate].
  injection H as <-. eexists. exists q, m. split; [reflexivity|]. split; [reflexivity|]. repeat split.
Qed.
Lemma status_text_value s : status_text s (status_value s).
Proof. destruct s; constructor. Qed.
Lemma columns v n q m : area_rank v = Ok (q, m) ->
  columns_tell v n (Z.of_nat n) (JNum q) (JNum m) (JStr (str_of_dec (area_gpa v))) (JBool (inS (area_status v) WAIVED_AND_DONE)) (JStr (status_value (area_status v))).
Proof.
  intro R. constructor; [reflexivity|exists q, m; auto|reflexivity| |].
  - eexists. split; [reflexivity|]. apply inS_complete.
  - eexists. split; [apply status_text_value|reflexivity].
Qed.
Lemma if_any_ok s : if_any (Some s) (nullif_empty s).
Proof. unfold nullif_empty, if_any. destruct (s =? "") eqn:E; [apply String.eqb_eq in E; subst; auto|]. right. split; [|reflexivity]. intro X. injection X as ->. discriminate. Qed.
Lemma server_row_ok p b v n j : area_json v = Ok j -> known p -> exists r, server_row_of p b v (Z.of_nat n) = Ok r /\ server_stores p b v n j r.
Proof.
  intros J (K1 & K2 & K3 & K4). destruct (area_lookup v j J) as (d & q & m & -> & R & E1 & E2 & E3 & E4 & E5 & E6). unfold server_row_of. rewrite J. cbn [bind jobj]. rewrite E1. cbn [bind]. rewrite E2. cbn [bind]. rewrite E3. cbn [bind]. rewrite E4. cbn [bind]. rewrite E5. cbn [bind].
  destruct p as [[a|] [a'|] [c|] [c'|]]; cbn [pn_name pn_name_sort pn_classification pn_class] in *; try congruence. cbn [key bind]. rewrite E6. cbn [bind]. eexists. split; [reflexivity|].
  constructor; cbn [sv_iterations sv_rank sv_max_rank sv_gpa sv_ok sv_status sv_result sv_version sv_claimed sv_student sv_code sv_catalog sv_run sv_expires sv_link_only sv_active sv_classification sv_class sv_name sv_name_sort pn_name pn_name_sort pn_classification pn_class].
  - apply columns. exact R.
  - reflexivity.
  - reflexivity.
  - reflexivity.
  - repeat split.
  - destruct (jb_link_only b); cbn; intuition congruence.
  - split; [reflexivity|]. split; [apply if_any_ok|]. split; [apply if_any_ok|]. destruct (c' =? "None") eqn:E; [apply String.eqb_eq in E; subst; auto|]. right. split; [|reflexivity]. intro X. injection X as ->. discriminate.
Qed.
Lemma server_row_unknown p b v n j : area_json v = Ok j -> ~ known p -> server_row_of p b v n = Err KeyErr.
Proof.
  intros J N. destruct (area_lookup v j J) as (d & q & m & -> & R & E1 & E2 & E3 & E4 & E5 & E6). unfold server_row_of. rewrite J. cbn [bind jobj]. rewrite E1. cbn [bind]. rewrite E2. cbn [bind]. rewrite E3. cbn [bind]. rewrite E4. cbn [bind]. rewrite E5. cbn [bind].
  destruct p as [[a|] [a'|] [c|] [c'|]]; cbn [pn_name pn_name_sort pn_classification pn_class key bind] in *; try reflexivity. exfalso. apply N. repeat split; discriminate.
Qed.
Lemma server_row_unwritten p b v n e : area_json v = Err e -> server_row_of p b v n = Err e.
Proof. intro J. unfold server_row_of. rewrite J. reflexivity. Qed.

(** ** Sorting keys *)
Lemma pairs_sorted d : StronglySorted not_after (isort pair_leb d).
Proof.
  assert (H : StronglySorted (lebP pair_leb) (isort pair_leb d)).
  { apply isort_sorted; unfold pair_leb.
    - intros x y. change str_leb with str_le. destruct (str_le (fst x) (fst y)) eqn:E; [tauto|]. right. apply str_le_total. exact E.
    - intros x y z. change str_leb with str_le. apply str_le_trans. }
  induction H as [|x r SS IH FA]; constructor; auto. eapply Forall_impl; [|exact FA]. unfold lebP, pair_leb, str_leb, not_after. intros z. destruct (String.compare (fst x) (fst z)); congruence.
Qed.
Fixpoint json_sorted_ok (j : json) : same_json j (sort_keys j) /\ in_key_order (sort_keys j).
Proof.
  destruct j as [|b|z|s|q|l|d].
  1-5: split; [apply sj_refl|apply ko_other; intros; discriminate].
  - assert (H : Forall2 same_json l (map sort_keys l) /\ Forall in_key_order (map sort_keys l)).
    { induction l as [|x l IH]; cbn [map]; [split; constructor|]. destruct (json_sorted_ok x). destruct IH. split; constructor; assumption. }
    cbn [sort_keys]. split; [apply sj_list|apply ko_list]; apply H.
  - set (f := fun kv : string * json => (fst kv, sort_keys (snd kv))).
    assert (H : Forall2 (fun a b => fst a = fst b /\ same_json (snd a) (snd b)) d (map f d) /\ Forall (fun kv => in_key_order (snd kv)) (map f d)).
    { induction d as [|[k x] d IH]; cbn [map]; [split; constructor|]. destruct (json_sorted_ok x). destruct IH. split; constructor; cbn; auto. }
    destruct H as [H1 H2]. change (sort_keys (JObj d)) with (JObj (isort pair_leb (map f d))). assert (P := isort_perm pair_leb (map f d)). split.
    + eapply sj_obj; [exact H1|]. apply Permutation_sym. exact P.
    + apply ko_obj.
      * apply pairs_sorted.
      * rewrite Forall_forall in *. intros x I. apply H2. eapply Permutation_in; [exact P|exact I].
Qed.

Lemma testbed_row_ok run_id stnum catalog code v n j : area_json v = Ok j ->
  exists r, testbed_row_of run_id stnum catalog code v (Z.of_nat n) = Ok r /\ testbed_stores run_id stnum catalog code v n j r.
Proof.
  intro J. destruct (area_lookup v j J) as (d & q & m & -> & R & E1 & E2 & E3 & E4 & E5 & E6). unfold testbed_row_of. rewrite J. cbn [bind jobj]. rewrite E3. cbn [bind]. rewrite E4. cbn [bind]. rewrite E1. cbn [bind]. rewrite E2. cbn [bind]. rewrite E5. cbn [bind].
  eexists. split; [reflexivity|]. constructor; cbn [tb_iterations tb_rank tb_max_rank tb_gpa tb_ok tb_status tb_result tb_version tb_run tb_stnum tb_catalog tb_code].
  - apply columns. exact R.
  - apply json_sorted_ok.
  - reflexivity.
  - repeat split.
Qed.

(** ** Listening *)
Lemma server_skips p b l e mid : Forall progress mid -> server_listens p b (mid ++ l) e = server_listens p b l e.
Proof. induction 1 as [|m mid (q & j & n & i & ->) H IH]; [reflexivity|]. cbn. exact IH. Qed.
Lemma testbed_waits a b c f timeout clock l e mid : Forall progress mid -> forall n,
  testbed_listens a b c f timeout clock n (mid ++ l) e =
  if existsb (fun k => late timeout (clock k)) (seq n (List.length mid)) then TbLate else testbed_listens a b c f timeout clock (n + List.length mid) l e.
Proof.
  induction 1 as [|m mid (q & j & x & i & ->) H IH]; intro n; cbn [app List.length seq existsb testbed_listens]; [rewrite Nat.add_0_r; reflexivity|].
  destruct (late timeout (clock n)); [reflexivity|]. rewrite IH, Nat.add_succ_r. reflexivity.
Qed.
Lemma late_iff timeout clock k : late timeout (clock k) = true <-> overdue timeout clock k.
Proof.
  unfold late, overdue. destruct timeout as [t|]; [|split; [discriminate|intros (t & X & _); discriminate]]. rewrite andb_true_iff, negb_true_iff, Qle_bool_iff. split.
  - intros [A B]. exists t. split; [reflexivity|]. split; [|exact B]. intro E. apply Qeq_bool_iff in E. congruence.
  - intros (t' & X & A & B). injection X as <-. split; [|exact B]. destruct (Qeq_bool t 0) eqn:E; [apply Qeq_bool_iff in E; contradiction|reflexivity].
Qed.
Lemma none_late timeout clock n m : existsb (fun k => late timeout (clock k)) (seq n m) = false <-> forall k, (n <= k < n + m)%nat -> ~ overdue timeout clock k.
Proof.
  split.
  - intros H k L O. apply late_iff in O. assert (X : existsb (fun k => late timeout (clock k)) (seq n m) = true) by (apply existsb_exists; exists k; split; [apply in_seq; lia|exact O]). congruence.
  - intro H. destruct (existsb _ _) eqn:E; [|reflexivity]. apply existsb_exists in E. destruct E as (k & I & L). apply in_seq in I. apply late_iff in L. exfalso. exact (H k I L).
Qed.

(** ** An audit comes to one thing *)
Definition stops (x : res (outcome area_result)) : Prop := match x with Ok o => complete (o_status o) | Err _ => True end.
Lemma split_unique pre : forall pre' x x' r r', Forall unfinished pre -> Forall unfinished pre' -> stops x -> stops x' ->
  map Ok pre ++ x :: r = map Ok pre' ++ x' :: r' -> pre = pre' /\ x = x'.
Proof.
  induction pre as [|o pre IH]; intros [|o' pre'] x x' r r' U U' S S' E; cbn [map app] in E.
  - injection E as -> _. auto.
  - injection E as -> _. inversion U'; subst. contradiction.
  - injection E as <- _. inversion U; subst. contradiction.
  - injection E as -> E. inversion U; inversion U'; subst. destruct (IH pre' x x' r r') as [-> ->]; auto.
Qed.
Lemma no_stop pre : forall all x r, Forall unfinished all -> stops x -> map Ok pre ++ x :: r <> map Ok all.
Proof.
  induction pre as [|o pre IH]; intros [|o' all] x r U S E; cbn [map app] in E; try discriminate.
  - injection E as -> _. inversion U; subst. contradiction.
  - injection E as -> E. inversion U; subst. exact (IH all x r H2 S E).
Qed.
Lemma map_ok_inj {A} (a : list A) : forall b, map Ok a = map Ok b -> a = b.
Proof. induction a as [|x a IH]; intros [|y b] E; try discriminate; [reflexivity|]. injection E as -> E. f_equal. auto. Qed.
Lemma first_largest pre : forall o post pre' o' post' (l : list (outcome area_result)), l = pre ++ o :: post -> l = pre' ++ o' :: post' ->
  (forall x, In x pre -> (o_rank x < o_rank o)%Q) -> (forall x, In x post -> (o_rank x <= o_rank o)%Q) ->
  (forall x, In x pre' -> (o_rank x < o_rank o')%Q) -> (forall x, In x post' -> (o_rank x <= o_rank o')%Q) -> o = o'.
Proof.
  induction pre as [|y pre IH]; intros o post pre' o' post' l -> E P1 P2 P3 P4; destruct pre' as [|y' pre']; cbn [app] in E.
  - injection E as -> _. reflexivity.
  - injection E as <- E. exfalso. assert (L := P3 o (or_introl eq_refl)). assert (G : (o_rank o' <= o_rank o)%Q) by (apply P2; rewrite E; apply in_or_app; simpl; auto). exact (Qlt_not_le _ _ L G).
  - injection E as -> E. exfalso. assert (L := P1 o' (or_introl eq_refl)). assert (G : (o_rank o <= o_rank o')%Q) by (apply P4; rewrite <- E; apply in_or_app; simpl; auto). exact (Qlt_not_le _ _ L G).
  - injection E as _ E. eapply (IH o post pre' o' post'); [reflexivity|exact E| | | |]; auto; intros; [apply P1|apply P3]; simpl; auto.
Qed.
Lemma settles_one e l vd u vd' u' : settles e l vd u -> settles e l vd' u' -> vd = vd' /\ u = u'.
Proof.
  intros H H'. destruct H as [pre o rest U C|pre x rest U|pre x U E|E|pre o post E U P1 P2]; inversion H' as [pre' o' rest' U' C' EL|pre' x' rest' U' EL|pre' x' U' E' EL|E' EL|pre' o' post' E' U' P1' P2' EL]; subst vd' u'; subst; try congruence.
  - destruct (split_unique pre' pre (Ok o') (Ok o) _ _ U' U C' C EL) as [-> X]. injection X as ->. auto.
  - destruct (split_unique pre' pre (Err x') (Ok o) _ _ U' U Logic.I C EL) as [_ X]. discriminate.
  - exfalso. symmetry in EL. exact (no_stop pre _ (Ok o) rest U' C EL).
  - destruct pre; discriminate EL.
  - exfalso. symmetry in EL. exact (no_stop pre _ (Ok o) rest U' C EL).
  - destruct (split_unique pre' pre (Ok o') (Err x) _ _ U' U C' Logic.I EL) as [_ X]. discriminate.
  - destruct (split_unique pre' pre (Err x') (Err x) _ _ U' U Logic.I Logic.I EL) as [-> X]. injection X as ->. auto.
  - exfalso. symmetry in EL. exact (no_stop pre _ (Err x) rest U' Logic.I EL).
  - destruct pre; discriminate EL.
  - exfalso. symmetry in EL. exact (no_stop pre _ (Err x) rest U' Logic.I EL).
  - exfalso. exact (no_stop pre' _ (Ok o') rest' U C' EL).
  - exfalso. exact (no_stop pre' _ (Err x') rest' U Logic.I EL).
  - apply map_ok_inj in EL. subst. split; congruence.
  - destruct pre'; discriminate EL.
  - destruct pre'; discriminate EL.
  - auto.
  - destruct pre'; discriminate EL.
  - exfalso. exact (no_stop pre' _ (Ok o') rest' U C' EL).
  - exfalso. exact (no_stop pre' _ (Err x') rest' U Logic.I EL).
  - destruct pre; discriminate EL.
  - apply map_ok_inj in EL. rewrite <- EL. assert (o' = o) by (eapply first_largest; [reflexivity|exact EL| | | |]; auto). subst. auto.
Qed.
Lemma comes_to_one tord ord nord d xs s an vd u an' vd' u' : comes_to tord ord nord d xs s an vd u -> comes_to tord ord nord d xs s an' vd' u' -> an = an' /\ vd = vd' /\ u = u'.
Proof.
  unfold comes_to. destruct (run_student tord d xs s) as [[es st]|x]; [|intros (-> & -> & ->) (-> & -> & ->); auto].
  destruct (load_area _ _ _ _ _ _) as [a|x]; [|intros (-> & -> & ->) (-> & -> & ->); auto]. destruct (area_estimate _ _ _ _ _) as [n|x]; [|intros (-> & -> & ->) (-> & -> & ->); auto].
  intros (-> & S) (-> & S'). destruct (settles_one _ _ _ _ _ _ S S'). auto.
Qed.
(** the messages, by what the audit comes to *)
Lemma heard_comes_to tord ord nord d xs s an vd u : comes_to tord ord nord d xs s an vd u ->
  exists mid cl, closes vd cl /\ Forall progress mid /\ List.length mid = (u / 1000)%nat /\
  heard tord ord nord no_switches default_args d xs s = (opening an ++ mid ++ cl, raised vd) /\
  heard tord ord nord no_switches estimate_args d xs s = (opening an, match an with Some _ => None | None => raised vd end) /\ (an = None -> mid = [] /\ exists x, vd = Broke x).
Proof.
  intro C. destruct (heard_default tord ord nord d xs s) as (an' & vd' & u' & mid & cl & C' & R). destruct (comes_to_one _ _ _ _ _ _ _ _ _ _ _ _ C C') as (-> & -> & ->). eauto.
Qed.
