(** Proofs about auditing a list of students. *)
From Coq Require Import List ZArith QArith Bool String Ascii Sorted Permutation Lia.
From Verif Require Import Transcript Prelude Dec Status Course Exceptions Paths Context Predicate Tree Loader LimitLoad Driver Area AreaLoad Label StudentLoad Run Json Report Claimed Catalog Client Bulk.
From Verif Require Import LabelSpec StudentSpec LimitLoadSpec ClientSpec BulkSpec ListFacts LimitLoadProofs CatalogProps ClientProofs.
Import ListNotations.
Local Open Scope string_scope.
Local Open Scope list_scope.

(** ** What is asked for *)
Lemma words_are s l : separated s l <-> words s "" = l.
Proof.
  split.
  - induction 1 as [s A|a w r l A NE NB R S IH].
    + replace s with (s ++ "")%string by (clear; induction s; cbn; congruence). rewrite words_blank by exact A. reflexivity.
    + rewrite words_blank, words_word by assumption. cbn [append]. rewrite words_end; [rewrite IH; reflexivity|exact NE|exact R].
  - remember (String.length s) as n eqn:E. assert (L : (String.length s <= n)%nat) by lia. clear E. revert s l L. induction n as [|n IH]; intros s l L H.
    + destruct s; [|cbn in L; lia]. subst l. constructor. intros c [].
    + destruct (words_next s) as (a & w & r & E & A & N & R & W0 & EW). rewrite H in EW. destruct (String.eqb_spec w "") as [->|NE].
      * subst l. rewrite EW. constructor. apply words_none. exact EW.
      * subst s l. rewrite EW. constructor; try assumption. apply IH; [|reflexivity].
        assert (LA : forall u v, String.length (u ++ v) = (String.length u + String.length v)%nat) by (induction u; cbn; intros; [reflexivity|f_equal; auto]).
        rewrite !LA in L. destruct w; [contradiction|cbn in L]. lia.
Qed.
Lemma row_eqb_iff a : forall b, row_eqb a b = true <-> a = b.
Proof.
  induction a as [|x a IH]; destruct b as [|y b]; cbn; try (split; [discriminate|discriminate]); [split; auto|].
  rewrite andb_true_iff, String.eqb_eq, IH. split; [intros [-> ->]; reflexivity|intro H; injection H; auto].
Qed.
Lemma row_leb_total a : forall b, row_leb a b = true \/ row_leb b a = true.
Proof.
  induction a as [|x a IH]; destruct b as [|y b]; cbn; auto. rewrite (String.eqb_sym y x). destruct (String.eqb_spec x y); [apply IH|]. destruct (str_le x y) eqn:E; [auto|right; apply str_le_total; exact E].
Qed.
Lemma row_leb_iff a : forall b, row_leb a b = true <-> not_behind a b.
Proof.
  induction a as [|x a IH]; intro b; [split; [constructor|reflexivity]|]. destruct b as [|y b]; cbn; [split; [discriminate|intro H; inversion H]|].
  destruct (String.eqb_spec x y) as [->|NE].
  - rewrite IH. split; [apply nb_same|]. intro H. inversion H as [| ? ? ? ? L|]; subst; [|assumption].
    assert (X : String.compare y y = Eq) by (assert (A := String.compare_antisym y y); destruct (String.compare y y); [reflexivity|discriminate|discriminate]). congruence.
  - unfold str_le. split.
    + destruct (String.compare x y) eqn:C; intro H; [apply String.compare_eq_iff in C; contradiction|apply nb_less; exact C|discriminate].
    + intro H. inversion H as [| ? ? ? ? L|]; subst; [rewrite L; reflexivity|contradiction].
Qed.
Lemma row_leb_trans a : forall b c, row_leb a b = true -> row_leb b c = true -> row_leb a c = true.
Proof.
  induction a as [|x a IH]; [reflexivity|]. intros [|y b] [|z c]; cbn; try discriminate.
  intros H K. destruct (String.eqb_spec x z) as [->|N3].
  - rewrite (String.eqb_sym y z) in K. destruct (String.eqb_spec z y) as [->|N1]; [eapply IH; eauto|]. exfalso. apply N1.
    assert (X := String.compare_antisym z y). unfold str_le in *. destruct (String.compare z y) eqn:C; [apply String.compare_eq_iff; exact C| |discriminate]. destruct (String.compare y z); discriminate.
  - destruct (String.eqb_spec x y) as [->|N1], (String.eqb_spec y z) as [->|N2]; try contradiction; try assumption. eapply str_le_trans; eauto.
Qed.
Theorem asked_exact lines n : to_do lines n (asked lines n).
Proof.
  exists (isort row_leb (dedup row_eqb (map (fun l => words l "") lines))). split; [|split; [|split; [|reflexivity]]].
  - assert (S := isort_sorted row_leb row_leb_total row_leb_trans (dedup row_eqb (map (fun l => words l "") lines))). revert S. generalize (isort row_leb (dedup row_eqb (map (fun l => words l "") lines))).
    intros l S. induction S as [|x l S IH F]; constructor; [assumption|]. eapply Forall_impl; [|exact F]. intros y H. apply row_leb_iff. exact H.
  - apply isort_NoDup, (dedup_NoDup row_eqb row_eqb_iff).
  - intro l. rewrite in_isort, (in_dedup row_eqb row_eqb_iff), in_map_iff. split; intros (s & A & B); exists s; [|rewrite words_are in B]; split; auto. apply words_are. exact A.
Qed.
Lemma before_dash_starts c : starts_of c (before_dash c).
Proof.
  unfold starts_of. induction c as [|x c [N H]]; cbn [before_dash]; [split; [intros []|left; reflexivity]|]. destruct (Ascii.eqb_spec x "-") as [->|NE].
  - split; [intros []|]. right. exists c. reflexivity.
  - split; [intros [E|I']; [contradiction|apply N, I']|]. destruct H as [E|[t E]]; [left; f_equal; exact E|right; exists t; cbn [append]; f_equal; exact E].
Qed.
Lemma starts_one c y : starts_of c y -> before_dash c = y.
Proof.
  intros [N H]. revert c H. induction y as [|x y IH]; intros c H.
  - destruct H as [->|[t ->]]; reflexivity.
  - assert (NE : Ascii.eqb x "-" = false) by (destruct (Ascii.eqb_spec x "-") as [->|]; [destruct N; now left|reflexivity]).
    assert (N' : ~ In "-"%char (list_ascii_of_string y)) by (intro I'; apply N; now right).
    destruct H as [->|[t ->]]; cbn [append before_dash]; rewrite NE; f_equal; apply IH; auto. right. exists t. reflexivity.
Qed.

(** ** One row *)
Section Row.
  Variable tord : list (string * template) -> list (string * template).
  Variable ord : list course -> list course.
  Variable nord : list node -> list node.
  Variables (repr quote : string -> string) (g4 dtext : Q -> string).
  Notation bulk_line := (bulk_line repr quote g4 dtext).
  Notation bulk_listens := (bulk_listens repr quote g4 dtext).
  Notation bulk_audit := (bulk_audit tord ord nord repr quote g4 dtext).
  Notation bulk_row := (bulk_row tord ord nord repr quote g4 dtext).
  Notation bulk_rows := (bulk_rows tord ord nord repr quote g4 dtext).
  Notation shows := (shows repr quote g4 dtext).
  Notation audit_ends := (audit_ends tord ord nord repr quote g4 dtext).
  Notation row_ends := (row_ends tord ord nord repr quote g4 dtext).
  Notation rows_end := (rows_end tord ord nord repr quote g4 dtext).

  Lemma line_shows o stnum catalog code tr v p : shows o stnum catalog code tr v p <-> bulk_line o stnum catalog code tr v = Ok p.
  Proof.
    unfold BulkSpec.shows, Bulk.bulk_line. destruct (bo_table o).
    - split.
      + intros [(_ & (j & J) & q & m & R & ->)|(X & _)]; [|discriminate]. rewrite J. cbn [bind]. destruct (area_lookup v j J) as (d & q' & m' & -> & R' & K1 & K2 & K3 & _).
        rewrite R in R'. injection R' as <- <-. cbn [jobj bind]. rewrite K3. cbn [bind]. rewrite K1. cbn [bind]. rewrite K2. reflexivity.
      + intro H. left. split; [reflexivity|]. destruct (area_json v) as [j|] eqn:J; cbn [bind] in H; [|discriminate]. split; [eauto|].
        destruct (area_lookup v j J) as (d & q & m & -> & R & K1 & K2 & K3 & _). exists q, m. split; [exact R|]. cbn [jobj bind] in H. rewrite K3 in H. cbn [bind] in H. rewrite K1 in H. cbn [bind] in H. rewrite K2 in H.
        cbn [bind] in H. congruence.
    - split.
      + intros [(X & _)|(_ & l & -> & ->)]; [discriminate|reflexivity].
      + intro H. right. split; [reflexivity|]. destruct (print_area _ _ _ _ _ _ _ _ _) as [l|]; cbn [bind] in H; [|discriminate]. injection H as <-. eauto.
  Qed.
  Lemma caught_fails d : fails d (caught d).
  Proof. unfold fails, caught. destruct (d_stnum d); [left; split; [discriminate|reflexivity]|right; auto]. Qed.
  Lemma fails_one d e : fails d e -> e = caught d.
  Proof. unfold fails, caught. destruct (d_stnum d); intros [[A ->]|[A ->]]; auto; congruence. Qed.
  Lemma listens_skips o d stnum catalog code tr mid l e : Forall progress mid ->
    bulk_listens o d stnum catalog code tr (mid ++ l) e = bulk_listens o d stnum catalog code tr l e.
  Proof. induction 1 as [|m mid (q & j & n & i & ->) F IH]; [reflexivity|exact IH]. Qed.
  Lemma audit_plain o d xs s stnum catalog code : bo_transcript o = false -> bulk_audit o d xs s stnum catalog code =
    let '(l, e) := heard tord ord nord no_switches default_args d xs s in
    bulk_listens o d stnum catalog code (match run_student tord d xs s with Ok (_, st) => t_failed (sl_student st) | Err _ => [] end) l e.
  Proof.
    intro T. unfold Bulk.bulk_audit, heard. rewrite T. fold no_switches. destruct (messages (run tord ord nord no_switches default_args d xs s)) as [l e].
    destruct (Bulk.bulk_listens repr quote g4 dtext o d stnum catalog code _ l e) as [ps c]. f_equal. unfold run. cbn [sw_transcript sw_gpa no_switches].
    destruct (run_student tord d xs s) as [[es st]|]; cbn [bind]; [|reflexivity]. destruct (load_area _ _ _ _ _ _); reflexivity.
  Qed.
  Lemma audit_exact o d xs s stnum catalog code out e : audit_ends o d xs s stnum catalog code out e <-> bulk_audit o d xs s stnum catalog code = (out, e).
  Proof.
    split.
    - intro H. inversion H as [es st T R|x e' T R F|an x u e' T C F|an u T C|an v n u es st p T C R S|an v n u es st e' T C R S F]; subst; clear H.
      + unfold Bulk.bulk_audit, run. rewrite T. cbn [sw_transcript]. rewrite R. reflexivity.
      + unfold Bulk.bulk_audit, run. rewrite R. cbn. apply fails_one in F. congruence.
      + destruct (heard_comes_to _ _ _ _ _ _ _ _ _ C) as (mid & cl & CL & PR & LE & H1 & _ & _).
        rewrite (audit_plain _ _ _ _ _ _ _ T), H1. destruct an; cbn [opening app Bulk.bulk_listens]; rewrite listens_skips by exact PR; cbn [closes] in CL; subst cl; cbn; apply fails_one in F; congruence.
      + destruct (heard_comes_to _ _ _ _ _ _ _ _ _ C) as (mid & cl & CL & PR & LE & H1 & _ & _).
        rewrite (audit_plain _ _ _ _ _ _ _ T), H1. destruct an; cbn [opening app Bulk.bulk_listens]; rewrite listens_skips by exact PR; cbn [closes] in CL; subst cl; reflexivity.
      + destruct (heard_comes_to _ _ _ _ _ _ _ _ _ C) as (mid & cl & CL & PR & LE & H1 & _ & _).
        rewrite (audit_plain _ _ _ _ _ _ _ T), H1, R. apply line_shows in S. cbn [closes] in CL. destruct CL as (j & t & ->).
        destruct an; cbn [opening app Bulk.bulk_listens]; rewrite listens_skips by exact PR; cbn [Bulk.bulk_listens raised]; rewrite S; reflexivity.
      + destruct (heard_comes_to _ _ _ _ _ _ _ _ _ C) as (mid & cl & CL & PR & LE & H1 & _ & _).
        rewrite (audit_plain _ _ _ _ _ _ _ T), H1, R. cbn [closes] in CL. destruct CL as (j & t & ->).
        assert (B : exists x, bulk_line o stnum catalog code (t_failed (sl_student st)) v = Err x) by (destruct (bulk_line o stnum catalog code (t_failed (sl_student st)) v) as [p|x] eqn:B; [apply line_shows in B; destruct (S p B)|eauto]).
        destruct B as [x B]. apply fails_one in F. subst e.
        destruct an; cbn [opening app Bulk.bulk_listens]; rewrite listens_skips by exact PR; cbn [Bulk.bulk_listens raised]; rewrite B; reflexivity.
    - intro H. destruct (bo_transcript o) eqn:T.
      + unfold Bulk.bulk_audit, run in H. rewrite T in H. cbn [sw_transcript] in H. destruct (run_student tord d xs s) as [[es st]|x] eqn:R; cbn in H; injection H as <- <-; [eapply ae_transcript; eauto|eapply ae_no_transcript; eauto using caught_fails].
      + destruct (heard_default tord ord nord d xs s) as (an & vd & u & mid & cl & C & CL & PR & LE & H1 & _).
        rewrite (audit_plain _ _ _ _ _ _ _ T), H1 in H.
        assert (SK : forall tr, bulk_listens o d stnum catalog code tr (opening an ++ mid ++ cl) (raised vd) = bulk_listens o d stnum catalog code tr cl (raised vd)) by (intro tr; destruct an; cbn [opening app Bulk.bulk_listens]; apply listens_skips, PR).
        rewrite SK in H. clear SK H1. destruct vd as [x| |v n]; cbn [closes] in CL.
        * subst cl. cbn in H. injection H as <- <-. eapply ae_broke; eauto using caught_fails.
        * subst cl. cbn in H. injection H as <- <-. eapply ae_none; eauto.
        * destruct CL as (j & t & ->). assert (R : exists es st, run_student tord d xs s = Ok (es, st)).
          { unfold comes_to in C. destruct (run_student tord d xs s) as [(es & st)|x]; [eauto|]. destruct C as (_ & X & _). discriminate. }
          destruct R as (es & st & R). rewrite R in H. cbn [Bulk.bulk_listens raised] in H. destruct (bulk_line o stnum catalog code (t_failed (sl_student st)) v) as [p|x] eqn:B; injection H as <- <-.
          -- eapply ae_best; eauto. apply line_shows. exact B.
          -- eapply ae_unseen; eauto using caught_fails. intros p S. apply line_shows in S. congruence.
  Qed.
  Lemma row_exact o w row out e : row_ends o w row out e <-> bulk_row o w row = (out, e).
  Proof.
    split.
    - intro H. destruct H as [row L|? ? ? y x S E|? ? ? y ? S E F|? ? ? y ? ? S E F I'|? ? ? y ? ? ? S E F I' ST|? ? ? y ? ? ? ? ? S E F I' ST AR|? ? ? y ? ? ? ? ? S E F I' ST AR Q' T D|? ? ? y ? ? d ? s ? ? S E F I' ST AR G A];
        cbn [Bulk.bulk_row]; try (apply starts_one in S; subst y; rewrite E); try (rewrite F); try (rewrite I'); try (rewrite ST); try (rewrite AR); try reflexivity.
      + destruct row as [|a [|b [|c [|d row]]]]; cbn in *; try reflexivity. contradiction.
      + rewrite Q', T, D. reflexivity.
      + apply audit_exact in A. rewrite A. destruct (bo_quiet o), (bo_table o), (d_stnum d); try reflexivity. destruct G as [G|[G|G]]; try discriminate. contradiction.
    - destruct row as [|stnum [|catalog [|code [|d row]]]]; cbn [Bulk.bulk_row]; intro H; try (injection H as <- <-; apply re_shape; cbn; lia).
      assert (S := before_dash_starts catalog). destruct (py_int (before_dash catalog)) as [year|x] eqn:E; [|injection H as <- <-; eapply re_year; eauto].
      destruct (find_area (wd_listing w) year code) as [folder|] eqn:F; [|injection H as <- <-; eapply re_no_area; eauto].
      destruct (bo_invocation o) eqn:I'; [injection H as <- <-; eapply re_invocation; eauto|].
      destruct (wd_student w stnum) as [[d xs]|x] eqn:ST; [|injection H as <- <-; eapply re_no_student; eauto].
      destruct (wd_area w folder code) as [s|x] eqn:AR; [|injection H as <- <-; eapply re_no_spec; eauto].
      destruct (bo_quiet o) eqn:Q', (bo_table o) eqn:T, (d_stnum d) eqn:D; cbn [negb andb] in H; try (injection H as <- <-; eapply re_no_number; eauto; fail);
        (eapply re_audit; [exact S|exact E|exact F|exact I'|exact ST|exact AR| |apply audit_exact; exact H]; rewrite ?Q', ?T, ?D; auto; right; right; discriminate).
  Qed.
  Lemma rows_exact o w rows out z : rows_end o w rows out z <-> bulk_rows o w rows = (out, z).
  Proof.
    split.
    - intro H. destruct H as [rows outs F|done outs r out z rest F R].
      + induction F as [|r out rows outs R F IH]; [reflexivity|]. cbn [Bulk.bulk_rows List.concat]. apply row_exact in R. rewrite R, IH. reflexivity.
      + induction F as [|r' out' rows outs R' F IH]; cbn [Bulk.bulk_rows List.concat app].
        * apply row_exact in R. rewrite R. reflexivity.
        * apply row_exact in R'. rewrite R', IH, app_assoc. reflexivity.
    - revert out z. induction rows as [|r rows IH]; cbn [Bulk.bulk_rows]; intros out z H.
      + injection H as <- <-. apply (rs_all _ _ _ _ _ _ _ o w [] []). constructor.
      + destruct (bulk_row o w r) as [ps [c|]] eqn:R; apply row_exact in R.
        * injection H as <- <-. apply (rs_stop _ _ _ _ _ _ _ o w [] [] r ps c rows); [constructor|exact R].
        * destruct (bulk_rows o w rows) as [qs c]. injection H as <- <-. specialize (IH qs c eq_refl). inversion IH as [rows' outs F|done outs r' out' z' rest F R']; subst.
          -- apply (rs_all _ _ _ _ _ _ _ o w (r :: rows) (ps :: outs)). constructor; assumption.
          -- rewrite app_assoc. apply (rs_stop _ _ _ _ _ _ _ o w (r :: done) (ps :: outs) r' out' c rest); [constructor; assumption|exact R'].
  Qed.
End Row.
