From Coq Require Import List ZArith QArith Bool String Lia Lqa Permutation Sorted.
From Verif Require Import Prelude Dec Course Op Exceptions Context Predicate ListFacts StrFacts LimitProofs Transcript TranscriptSpec.
Import ListNotations.
Local Open Scope string_scope.
Local Open Scope list_scope.

Lemma trunc2_cut q : cut_to_hundredths q (hundredths (trunc2 q)).
Proof.
  exists (trunc2 q). split; [reflexivity|]. unfold trunc2. destruct q as [n d]. simpl. split; intro H.
  - assert (0 <= n)%Z by (unfold Qle in H; simpl in H; lia). rewrite Z.quot_div_nonneg by lia.
    assert (D := Z.div_mod (n * 100) (Z.pos d) ltac:(lia)). assert (M := Z.mod_pos_bound (n * 100) (Z.pos d) ltac:(lia)).
    split; [apply Z.div_pos; lia|]. unfold Qle, Qlt. simpl. lia.
  - assert (n < 0)%Z by (unfold Qlt in H; simpl in H; lia).
    assert (E : ((n * 100) ÷ Z.pos d = - ((- n * 100) / Z.pos d))%Z).
    { rewrite <- Z.quot_div_nonneg by lia. rewrite <- Z.quot_opp_l by lia. f_equal. lia. }
    rewrite E. assert (D := Z.div_mod (- n * 100) (Z.pos d) ltac:(lia)). assert (M := Z.mod_pos_bound (- n * 100) (Z.pos d) ltac:(lia)).
    assert (0 <= (- n * 100) / Z.pos d)%Z by (apply Z.div_pos; lia).
    split; [lia|]. unfold Qle, Qlt. simpl. lia.
Qed.

Lemma cut_ext q q' d : (q == q')%Q -> cut_to_hundredths q d -> cut_to_hundredths q' d.
Proof.
  intros E (z & -> & A & B). exists z. split; [reflexivity|]. split; intro H.
  - rewrite <- E in H. destruct (A H) as (X & Y & Z). split; [exact X|]. rewrite <- E. auto.
  - rewrite <- E in H. destruct (B H) as (X & Y & Z). split; [exact X|]. rewrite <- E. auto.
Qed.

(** a cut value is determined *)
Lemma cut_unique q d d' : cut_to_hundredths q d -> cut_to_hundredths q d' -> d = d'.
Proof.
  intros (z & -> & A & B) (z' & -> & A' & B'). f_equal. destruct (Qlt_le_dec q 0) as [L|L].
  - destruct (B L) as (_ & X & Y). destruct (B' L) as (_ & X' & Y').
    assert ((z - 1) # 100 < z' # 100)%Q by lra. assert ((z' - 1) # 100 < z # 100)%Q by lra.
    unfold Qlt in *. simpl in *. lia.
  - destruct (A L) as (_ & X & Y). destruct (A' L) as (_ & X' & Y').
    assert (z # 100 < (z' + 1) # 100)%Q by lra. assert (z' # 100 < (z + 1) # 100)%Q by lra.
    unfold Qlt in *. simpl in *. lia.
Qed.

Lemma Qeqb_iff a b : Qeqb a b = true <-> (a == b)%Q.
Proof. apply Qeq_bool_iff. Qed.

Lemma of_table_ok {A} (t : list (string * A)) s a : of_table t s = Ok a -> In (s, a) t.
Proof.
  unfold of_table. destruct (find _ t) as [[k v]|] eqn:F; [|discriminate]. intro E. injection E as ->.
  apply find_some in F as [I E]. apply String.eqb_eq in E. simpl in E. subst. exact I.
Qed.

(** overrides *)
Lemma credit_override_spec os k :
  match credit_override os k with
  | Some d => last_credit_override os k d
  | None => no_credit_override os k
  end.
Proof.
  induction os as [|o os IH]; simpl; [intros o d []|].
  destruct (credit_override os k) as [d|].
  - destruct IH as (a & o' & b & -> & E & N). exists (o :: a), o', b. auto.
  - destruct (ex_act o) as [| | | |k' d|] eqn:E; try (intros o' d' [<-|I]; [congruence|apply IH; exact I]).
    destruct (k' =? k) eqn:K.
    + apply String.eqb_eq in K. subst. exists [], o, os. split; [reflexivity|]. split; [exact E|]. intros o' d' I. apply IH. exact I.
    + intros o' d' [<-|I]; [|apply IH; exact I]. rewrite E. intro C. injection C as -> _. rewrite String.eqb_refl in K. discriminate.
Qed.
Lemma subject_override_spec os k :
  match subject_override os k with
  | Some d => last_subject_override os k d
  | None => no_subject_override os k
  end.
Proof.
  induction os as [|o os IH]; simpl; [intros o d []|].
  destruct (subject_override os k) as [d|].
  - destruct IH as (a & o' & b & -> & E & N). exists (o :: a), o', b. auto.
  - destruct (ex_act o) as [| | | | |k' d] eqn:E; try (intros o' d' [<-|I]; [congruence|apply IH; exact I]).
    destruct (k' =? k) eqn:K.
    + apply String.eqb_eq in K. subst. exists [], o, os. split; [reflexivity|]. split; [exact E|]. intros o' d' I. apply IH. exact I.
    + intros o' d' [<-|I]; [|apply IH; exact I]. rewrite E. intro C. injection C as -> _. rewrite String.eqb_refl in K. discriminate.
Qed.
Lemma last_credit_unique os k d : last_credit_override os k d -> credit_override os k = Some d.
Proof.
  intros (a & o & b & -> & E & N). induction a as [|x a IH]; simpl.
  - assert (X := credit_override_spec b k). destruct (credit_override b k) as [d'|].
    + destruct X as (a' & o' & b' & -> & E' & _). exfalso. apply (N o' d'); [apply in_app_iff; simpl; auto|exact E'].
    + rewrite E, String.eqb_refl. reflexivity.
  - rewrite IH. reflexivity.
Qed.
Lemma last_subject_unique os k d : last_subject_override os k d -> subject_override os k = Some d.
Proof.
  intros (a & o & b & -> & E & N). induction a as [|x a IH]; simpl.
  - assert (X := subject_override_spec b k). destruct (subject_override b k) as [d'|].
    + destruct X as (a' & o' & b' & -> & E' & _). exfalso. apply (N o' d'); [apply in_app_iff; simpl; auto|exact E'].
    + rewrite E, String.eqb_refl. reflexivity.
  - rewrite IH. reflexivity.
Qed.
Lemma no_credit_none os k : no_credit_override os k -> credit_override os k = None.
Proof.
  intro N. assert (X := credit_override_spec os k). destruct (credit_override os k); [|reflexivity].
  destruct X as (a & o & b & -> & E & _). exfalso. apply (N o d); [apply in_app_iff; simpl; auto|exact E].
Qed.
Lemma no_subject_none os k : no_subject_override os k -> subject_override os k = None.
Proof.
  intro N. assert (X := subject_override_spec os k). destruct (subject_override os k); [|reflexivity].
  destruct X as (a & o & b & -> & E & _). exfalso. apply (N o s); [apply in_app_iff; simpl; auto|exact E].
Qed.
Lemma sget_in d k v : NoDup (map fst d) -> (sget d k = Some v <-> In (k, v) d).
Proof.
  unfold sget. induction d as [|[k' v'] d IH]; simpl; intro N; [split; [discriminate|tauto]|].
  inversion N; subst. destruct (k' =? k) eqn:E.
  - apply String.eqb_eq in E. subst k'. split; [intro X; injection X as ->; auto|].
    intros [X|I]; [injection X as ->; reflexivity|]. exfalso. apply H1. apply (in_map fst _ _ I).
  - rewrite IH by assumption. split; [auto|]. intros [X|I]; [|exact I]. injection X as -> ->. rewrite String.eqb_refl in E. discriminate.
Qed.

(** load_course, taken apart *)
Lemma load_course_inv now os df r c : load_course now os df r = Ok c ->
  exists cr g pts op sub ty tc,
    row_credits os df r = Ok cr /\ grade_of_value (r_grade_code r) = Ok g /\ dec_of_str (r_grade_points r) = Ok pts /\
    option_of_value (r_grade_option r) = Ok op /\ sub_type_of_value (r_sub_type r) = Ok sub /\
    course_type_of_value (r_course_type r) = Ok ty /\ transcript_code_of_value (r_transcript_code r) = Ok tc /\
    c_clbid c = r_clbid r /\ c_credits c = cr /\ c_grade_code c = g /\ c_grade_points c = pts /\ c_grade_option c = op /\
    c_sub_type c = sub /\ c_course_type c = ty /\ c_transcript_code c = tc /\
    c_gpa_points c = hundredths (trunc2 (dval pts * dval cr)) /\
    c_subject c = (match subject_override os (r_clbid r) with Some s => s | None => r_subject r end) /\
    c_identity c = (c_subject c ++ " " ++ r_number r ++ suffix sub)%string /\
    c_year c = r_year r /\ c_term c = r_term r /\ c_schedid c = r_schedid r /\ c_name c = r_name r /\
    c_yearterm c = yearterm_of (r_year r) (r_term r) /\ c_in_gpa c = r_gpa r /\
    c_covid c = (yearterm_of (r_year r) (r_term r) =? "20193") /\
    (c_ip_this_term c, c_ip_in_future c) =
      match truthy now with
      | Some now => if ip_grade g then (if str_leb (yearterm_of (r_year r) (r_term r)) now then (true, false) else (false, true)) else (false, false)
      | None => (false, false)
      end.
Proof.
  unfold load_course. intro H.
  destruct (row_credits os df r) as [cr|]; [|discriminate]. cbn [bind] in H.
  destruct (grade_of_value (r_grade_code r)) as [g|]; [|discriminate]. cbn [bind] in H.
  destruct (dec_of_str (r_grade_points r)) as [pts|]; [|discriminate]. cbn [bind] in H.
  destruct (option_of_value (r_grade_option r)) as [op|]; [|discriminate]. cbn [bind] in H.
  destruct (sub_type_of_value (r_sub_type r)) as [sub|]; [|discriminate]. cbn [bind] in H.
  destruct (course_type_of_value (r_course_type r)) as [ty|]; [|discriminate]. cbn [bind] in H.
  destruct (transcript_code_of_value (r_transcript_code r)) as [tc|]; [|discriminate]. cbn [bind] in H.
  destruct (if r_su_grade r =? "?" then Ok None else _) as [su|]; [|discriminate]. cbn [bind] in H.
  exists cr, g, pts, op, sub, ty, tc.
  destruct (match truthy now with Some n => _ | None => _ end) as [tt fu] eqn:E. injection H as <-. cbn.
  repeat (split; [reflexivity|]). reflexivity.
Qed.

(** the loop *)
Lemma smem_in k l : smem k l = true <-> In k l.
Proof. apply in_clbid. Qed.
Lemma smem_not k l : smem k l = false <-> ~ In k l.
Proof. rewrite <- smem_in. destruct (smem k l); split; congruence || tauto. Qed.

Lemma append_longer s t : t <> "" -> (s ++ t)%string <> s.
Proof. intros N E. induction s as [|a s IH]; simpl in E; [congruence|]. injection E as E. auto. Qed.
Lemma unique_differs c : c_clbid c <> c_clbid (unique_clbid c).
Proof. unfold unique_clbid. cbn [set_clbid c_clbid]. intro E. symmetry in E. revert E. apply append_longer. discriminate. Qed.

Lemma numbered_ext seen seen' l l' : (forall k, In k seen <-> In k seen') -> numbered seen l l' -> numbered seen' l l'.
Proof.
  intros E H. revert seen' E. induction H as [seen|seen c t t' N H IH|seen c k s t t' I Es Ek N H IH]; intros seen' E.
  - constructor.
  - apply nb_first; [rewrite <- E; exact N|]. apply IH. intro k. simpl. rewrite E. reflexivity.
  - eapply nb_again; eauto; [apply E; exact I|rewrite <- E; exact N|]. apply IH. intro k'. simpl. rewrite E. reflexivity.
Qed.

Section LoadFacts.
  Variables (now : option string) (os : list exc) (df : list (string * string)).
  Notation loads := (fun r c => load_course now os df r = Ok c).

  Lemma load_rows_ok inc rows : forall seen, g_exn (load_rows now os df inc seen rows) = None ->
    exists l l', Forall2 loads rows l /\ numbered seen l l' /\ g_items (load_rows now os df inc seen rows) = filter (yielded inc) l'.
  Proof.
    induction rows as [|r rows IH]; intros seen H; cbn [load_rows] in *.
    - exists [], []. split; [constructor|]. split; [constructor|reflexivity].
    - destruct (load_course now os df r) as [c0|] eqn:L; [|discriminate].
      destruct (smem (c_clbid c0) seen) eqn:S.
      + destruct (c_clbid c0 =? c_clbid (unique_clbid c0)) eqn:Q; [discriminate|].
        destruct (smem (c_clbid (unique_clbid c0)) seen) eqn:S2; [discriminate|].
        apply smem_in in S. apply smem_not in S2.
        assert (G : g_exn (load_rows now os df inc (seen ++ [c_clbid (unique_clbid c0)]) rows) = None).
        { destruct (yielded inc (unique_clbid c0)); [|exact H]. exact H. }
        destruct (IH _ G) as (l & l' & F & N & E). exists (c0 :: l), (unique_clbid c0 :: l').
        split; [constructor; auto|]. split.
        * eapply nb_again; eauto. eapply numbered_ext; [|exact N]. intro k. rewrite in_app_iff. simpl. tauto.
        * cbn [filter]. destruct (yielded inc (unique_clbid c0)); [|exact E]. unfold gapp. cbn [g_exn g_items gret app]. rewrite E. reflexivity.
      + apply smem_not in S.
        assert (G : g_exn (load_rows now os df inc (seen ++ [c_clbid c0]) rows) = None).
        { destruct (yielded inc c0); exact H. }
        destruct (IH _ G) as (l & l' & F & N & E). exists (c0 :: l), (c0 :: l').
        split; [constructor; auto|]. split.
        * apply nb_first; [exact S|]. eapply numbered_ext; [|exact N]. intro k. rewrite in_app_iff. simpl. tauto.
        * cbn [filter]. destruct (yielded inc c0); [|exact E]. unfold gapp. cbn [g_exn g_items gret app]. rewrite E. reflexivity.
  Qed.

  Lemma load_rows_complete inc rows : forall seen l l', Forall2 loads rows l -> numbered seen l l' ->
    load_rows now os df inc seen rows = gret (filter (yielded inc) l').
  Proof.
    induction rows as [|r rows IH]; intros seen l l' F N.
    - inversion F; subst. inversion N; subst. reflexivity.
    - inversion F as [|? c0 ? l0 L F0]; subst. cbn [load_rows]. rewrite L. inversion N as [|? ? ? t' N1 N2|? ? k s ? t' I Es Ek N1 N2]; subst.
      + apply smem_not in N1 as S. rewrite S.
        rewrite (IH (seen ++ [c_clbid c0]) l0 t' F0) by (eapply numbered_ext; [|exact N2]; intro k; rewrite in_app_iff; simpl; tauto).
        cbn [filter]. destruct (yielded inc c0); reflexivity.
      + apply smem_in in I as S. rewrite S. fold (unique_clbid c0).
        assert (Q : (c_clbid c0 =? c_clbid (unique_clbid c0)) = false) by (apply String.eqb_neq; apply unique_differs).
        rewrite Q. apply smem_not in N1 as S2.
        change (smem (c_clbid (unique_clbid c0)) seen = false) in S2. rewrite S2.
        rewrite (IH (seen ++ [c_clbid (unique_clbid c0)]) l0 t' F0) by (eapply numbered_ext; [|exact N2]; intro k; rewrite in_app_iff; simpl; tauto).
        cbn [filter]. destruct (yielded inc (unique_clbid c0)); reflexivity.
  Qed.

  Lemma numbered_fresh seen l l' : numbered seen l l' -> NoDup (map c_clbid l') /\ forall c, In c l' -> ~ In (c_clbid c) seen.
  Proof.
    induction 1 as [seen|seen c t t' N H [IH1 IH2]|seen c k s t t' I Es Ek N H [IH1 IH2]].
    - split; [constructor|intros c []].
    - split.
      + simpl. constructor; [|exact IH1]. rewrite in_map_iff. intros (x & E & Hx). apply (IH2 x Hx). simpl. auto.
      + intros x [<-|Hx]; [exact N|]. intro K. apply (IH2 x Hx). simpl. auto.
    - split.
      + simpl. constructor; [|exact IH1]. rewrite in_map_iff. intros (x & E & Hx). apply (IH2 x Hx). simpl. auto.
      + intros x [<-|Hx]; [exact N|]. intro K. apply (IH2 x Hx). simpl. auto.
  Qed.
  Lemma numbered_functional seen l a b : numbered seen l a -> numbered seen l b -> a = b.
  Proof.
    intro H. revert b. induction H as [seen|seen c t t' N H IH|seen c k s t t' I Es Ek N H IH]; intros b Hb; inversion Hb; subst; auto; try contradiction.
    - f_equal. auto.
    - f_equal. auto.
  Qed.
  Lemma loads_functional rows a b : Forall2 loads rows a -> Forall2 loads rows b -> a = b.
  Proof.
    intro H. revert b. induction H; intros b Hb; inversion Hb; subst; [reflexivity|]. f_equal; [congruence|auto].
  Qed.
  Lemma distinct_numbered l : forall seen, NoDup (map c_clbid l) -> (forall c, In c l -> ~ In (c_clbid c) seen) -> numbered seen l l.
  Proof.
    induction l as [|c l IH]; intros seen N D; [constructor|]. simpl in N. inversion N; subst.
    apply nb_first; [apply D; simpl; auto|]. apply IH; [assumption|]. intros x Hx [E|K].
    - apply H1. rewrite E. apply in_map. exact Hx.
    - apply (D x); simpl; auto.
  Qed.
End LoadFacts.

Lemma yielded_iff inc c : yielded inc c = true <-> ~ dropped c /\ (c_grade_code c = GF -> inc = true).
Proof.
  unfold yielded, dropped. rewrite !andb_true_iff, !negb_true_iff.
  assert (A : (match c_grade_option c with GoAudit => true | _ => false end) = false <-> c_grade_option c <> GoAudit)
    by (destruct (c_grade_option c); split; congruence).
  assert (B : (match c_transcript_code c with TcRepeatedLater | TcRepeatInProgress => true | _ => false end) = false <->
    c_transcript_code c <> TcRepeatedLater /\ c_transcript_code c <> TcRepeatInProgress)
    by (destruct (c_transcript_code c); intuition congruence).
  assert (C : skip_grade (c_grade_code c) = false <-> ~ In (c_grade_code c) [G_N; G_U; G_AU; G_UA; G_WF; G_WP; G_W]).
  { split.
    - intros S I. simpl in I. repeat (destruct I as [E|I]; [rewrite <- E in S; discriminate|]). exact I.
    - intro N. destruct (c_grade_code c); try reflexivity; exfalso; apply N; simpl; tauto. }
  assert (D : (match c_grade_code c with GF => inc | _ => true end) = true <-> (c_grade_code c = GF -> inc = true))
    by (destruct (c_grade_code c); split; intros; auto; discriminate).
  rewrite A, B, C, D. tauto.
Qed.
