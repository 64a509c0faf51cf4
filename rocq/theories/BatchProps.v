(** What the batch command queues, and what it says it has queued. *)
From Coq Require Import List ZArith Bool String Arith Lia Permutation.
From Verif Require Import Prelude ListFacts StrFacts Dec Paths Catalog Batch.
Import ListNotations.
Local Open Scope string_scope.
Local Open Scope list_scope.

(** ** Expanding a student *)
(** the areas a student is to be audited for *)
Definition audited (st : student) (code : string) : Prop :=
  exists a, In a (st_areas st) /\ a_kind a <> "emphasis" /\ a_code a = code.
(** the student's catalog is a year *)
Definition student_year (st : student) (y : Z) : Prop :=
  st_catalog st = CNum y \/ exists t, st_catalog st = CText t /\ py_int t = Ok y.
(** the text of the year an area is audited under: the catalog of the area, which is the last one
    listed with its code, or else the student's *)
Definition year_text (st : student) (code t : string) : Prop :=
  exists l1 a l2, st_areas st = l1 ++ a :: l2 /\ a_code a = code /\ (forall b, In b l2 -> a_code b <> code) /\
    (a_catalog a = CText t \/ a_catalog a = CAbsent /\ exists y, student_year st y /\ t = str_of_Z y).

Lemma last_with_spec code l : match last_with code l with
  | Some a => exists l1 l2, l = l1 ++ a :: l2 /\ a_code a = code /\ forall b, In b l2 -> a_code b <> code
  | None => forall b, In b l -> a_code b <> code
  end.
Proof.
  induction l as [|x l IH]; cbn [last_with]; [intros b []|]. destruct (last_with code l) as [a|].
  - destruct IH as (l1 & l2 & -> & A & B). exists (x :: l1), l2. auto.
  - destruct (String.eqb (a_code x) code) eqn:E; [apply String.eqb_eq in E; exists [], l; auto|]. apply String.eqb_neq in E. intros b [<-|J]; auto.
Qed.
Lemma own_codes_spec st : NoDup (own_codes st) /\ forall c, In c (own_codes st) <-> audited st c.
Proof.
  unfold own_codes. split; [apply (dedup_NoDup _ String.eqb_eq)|]. intro c. rewrite (in_dedup _ String.eqb_eq), in_map_iff. unfold audited. split.
  - intros (a & <- & J). apply filter_In in J as [J K]. apply negb_true_iff, String.eqb_neq in K. eauto.
  - intros (a & J & K & <-). exists a. split; [reflexivity|]. apply filter_In. split; [exact J|]. apply negb_true_iff, String.eqb_neq, K.
Qed.
Lemma expand_codes_spec st c codes : exists rest, codes = map w_code (g_items (expand_codes st c codes)) ++ rest /\
  (forall r, In r (g_items (expand_codes st c codes)) -> w_num r = st_num st /\ area_catalog c (st_areas st) (w_code r) = Ok (w_catalog r)) /\
  match g_exn (expand_codes st c codes) with
  | None => rest = []
  | Some e => exists code rest', rest = code :: rest' /\ area_catalog c (st_areas st) code = Err e
  end.
Proof.
  induction codes as [|x codes (rest & IH1 & IH2 & IH3)]; cbn [expand_codes].
  - exists []. split; [reflexivity|]. split; [intros r []|reflexivity].
  - destruct (area_catalog c (st_areas st) x) as [cat|e] eqn:E.
    + exists rest. unfold gapp, gret. cbn [g_exn g_items app map w_code]. split; [f_equal; exact IH1|]. split; [|exact IH3].
      intros r [<-|J]; [cbn; auto|apply IH2, J].
    + exists (x :: codes). cbn. split; [reflexivity|]. split; [intros r []|]. eauto.
Qed.
Lemma own_catalog_some st c : own_catalog (st_catalog st) = Ok (Some c) <-> exists y, student_year st y /\ c = str_of_Z y.
Proof.
  unfold own_catalog, student_year. split.
  - destruct (st_catalog st) as [|t|z|]; try discriminate.
    + destruct (py_int t) as [y|[]] eqn:E; try discriminate. intro H. injection H as <-. exists y. split; [right; eauto|reflexivity].
    + intro H. injection H as <-. exists z. auto.
  - intros (y & [E|(t & E & P)] & ->); rewrite E; [reflexivity|]. rewrite P. reflexivity.
Qed.
Lemma area_catalog_spec st c code cat : (exists y, student_year st y /\ c = str_of_Z y) -> audited st code ->
  (area_catalog c (st_areas st) code = Ok cat <->
   exists t z, year_text st code t /\ py_int t = Ok z /\ cat = (t ++ "-" ++ drop2 (str_of_Z (z + 1)))%string).
Proof.
  intros (y & Y & ->) (a0 & J & _ & C). unfold area_catalog. pose proof (last_with_spec code (st_areas st)) as L.
  destruct (last_with code (st_areas st)) as [a|]; [|destruct (L a0 J C)]. destruct L as (l1 & l2 & E & A & B).
  assert (U : forall t, year_text st code t <-> match a_catalog a with CAbsent => t = str_of_Z y | CText u => t = u | _ => False end).
  { intro t. split.
    - intros (m1 & b & m2 & E2 & A2 & B2 & H).
      assert (X : a = b).
      { rewrite E in E2. clear - E2 A A2 B B2. revert m1 E2. induction l1 as [|x l1 IH]; intros [|x' m1] E2; cbn in E2; injection E2 as EH ET.
        - exact EH.
        - exfalso. apply (B b); [rewrite ET; apply in_or_app; right; left; reflexivity|exact A2].
        - exfalso. apply (B2 a); [rewrite <- ET; apply in_or_app; right; left; reflexivity|exact A].
        - exact (IH m1 ET). }
      subst b. destruct H as [H|(H & y' & Y' & ->)]; rewrite H; [reflexivity|]. f_equal.
      destruct Y as [Y|(u & Y & P)], Y' as [Y'|(u' & Y' & P')]; rewrite Y in Y'; try discriminate; [injection Y' as ->; reflexivity|]. injection Y' as <-. rewrite P in P'. injection P' as ->. reflexivity.
    - intro H. exists l1, a, l2. repeat (split; [assumption|]). destruct (a_catalog a); try contradiction; subst t; [right; split; [reflexivity|]; exists y; auto|left; reflexivity]. }
  destruct (a_catalog a) as [|u|n|] eqn:F.
  - destruct (py_int (str_of_Z y)) as [z|e] eqn:P; cbn [bind]; split.
    + intro H. injection H as <-. exists (str_of_Z y), z. rewrite U. auto.
    + intros (t & z' & T & P' & ->). apply U in T. subst t. rewrite P in P'. injection P' as ->. reflexivity.
    + discriminate.
    + intros (t & z' & T & P' & ->). apply U in T. subst t. congruence.
  - destruct (py_int u) as [z|e] eqn:P; cbn [bind]; split.
    + intro H. injection H as <-. exists u, z. rewrite U. auto.
    + intros (t & z' & T & P' & ->). apply U in T. subst t. rewrite P in P'. injection P' as ->. reflexivity.
    + discriminate.
    + intros (t & z' & T & P' & ->). apply U in T. subst t. congruence.
  - split; [discriminate|]. intros (t & z' & T & _). apply U in T. destruct T.
  - split; [discriminate|]. intros (t & z' & T & _). apply U in T. destruct T.
Qed.

(** A student whose catalog is no year is skipped. Otherwise each code of the student's areas that
    are not emphases is named at most once, under the folder of its year; each of them is, unless
    the year of one of them makes no sense, which raises there. *)
Theorem a_student_is_expanded :
  forall order st, (forall l, Permutation (order l) l) ->
  let g := expand_student order st in
  (forall t, st_catalog st = CText t -> py_int t = Err ValueErr -> g = gnil) /\
  NoDup (map w_code (g_items g)) /\
  (forall r, In r (g_items g) -> w_num r = st_num st /\ audited st (w_code r) /\
     exists t z, year_text st (w_code r) t /\ py_int t = Ok z /\ w_catalog r = (t ++ "-" ++ drop2 (str_of_Z (z + 1)))%string) /\
  (forall y code, student_year st y -> audited st code -> g_exn g = None -> exists r, In r (g_items g) /\ w_code r = code) /\
  (forall y, student_year st y ->
     (g_exn g <> None <-> exists code, audited st code /\ forall t z, year_text st code t -> py_int t <> Ok z)).
Proof.
  intros order st PO g. destruct (own_codes_spec st) as [ND OC].
  split. { intros t E P. unfold g, expand_student, own_catalog. rewrite E, P. reflexivity. }
  destruct (own_catalog (st_catalog st)) as [[c|]|e] eqn:CA.
  - assert (G : g = expand_codes st c (order (own_codes st))) by (unfold g, expand_student; rewrite CA; reflexivity).
    destruct (expand_codes_spec st c (order (own_codes st))) as (rest & R1 & R2 & R3). rewrite <- G in *.
    pose proof (proj1 (own_catalog_some st c) CA) as Y.
    assert (IN : forall code, In code (order (own_codes st)) <-> audited st code).
    { intro code. rewrite <- OC. split; apply Permutation_in; [apply PO|apply Permutation_sym, PO]. }
    assert (NO : NoDup (order (own_codes st))) by (apply (Permutation_NoDup (Permutation_sym (PO _))); exact ND).
    assert (AU : forall r, In r (g_items g) -> audited st (w_code r)).
    { intros r J. apply IN. rewrite R1. apply in_or_app. left. apply in_map, J. }
    split. { rewrite R1 in NO. clear - NO. induction (map w_code (g_items g)) as [|x l IH]; [constructor|]. cbn in NO. inversion NO; subst. constructor; [intro K; apply H1; apply in_or_app; left; exact K|apply IH; assumption]. }
    split. { intros r J. destruct (R2 r J) as [N A]. split; [exact N|]. split; [apply AU, J|]. apply (area_catalog_spec st c (w_code r) (w_catalog r) Y (AU r J)). exact A. }
    split.
    + intros y code _ AC NE. rewrite NE in R3. subst rest. rewrite app_nil_r in R1. apply IN in AC. rewrite R1 in AC. apply in_map_iff in AC as (r & E & J). eauto.
    + intros y _. split.
      * intro NE. destruct (g_exn g) as [e|] eqn:GE; [|destruct (NE eq_refl)]. destruct R3 as (code & rest' & -> & BAD). exists code.
        assert (AC : audited st code) by (apply IN; rewrite R1; apply in_or_app; right; left; reflexivity). split; [exact AC|].
        intros t z T P. assert (X := proj2 (area_catalog_spec st c code _ Y AC) (ex_intro _ t (ex_intro _ z (conj T (conj P eq_refl))))). congruence.
      * intros (code & AC & BAD) NE. rewrite NE in R3. subst rest. rewrite app_nil_r in R1. pose proof AC as AC2. apply IN in AC. rewrite R1 in AC. apply in_map_iff in AC as (r & E & J).
        destruct (R2 r J) as [_ A]. rewrite E in A. apply (area_catalog_spec st c code _ Y AC2) in A as (t & z & T & P & _). exact (BAD t z T P).
  - assert (G : g = gnil) by (unfold g, expand_student; rewrite CA; reflexivity). rewrite G. cbn.
    assert (NY : forall y, ~ student_year st y). { intros y Y. assert (X := proj2 (own_catalog_some st _) (ex_intro _ y (conj Y eq_refl))). rewrite CA in X. discriminate. }
    split; [constructor|]. split; [intros r []|]. split; intros y; [intros code Y; destruct (NY y Y)|intro Y; destruct (NY y Y)].
  - assert (G : g = gfail e) by (unfold g, expand_student; rewrite CA; reflexivity). rewrite G. cbn.
    assert (NY : forall y, ~ student_year st y). { intros y Y. assert (X := proj2 (own_catalog_some st _) (ex_intro _ y (conj Y eq_refl))). rewrite CA in X. discriminate. }
    split; [constructor|]. split; [intros r []|]. split; intros y; [intros code Y; destruct (NY y Y)|intro Y; destruct (NY y Y)].
Qed.
Print Assumptions a_student_is_expanded.
Definition as_listed (l : list string) : list string := l.
Example expand_example :
  expand_student as_listed (mkStudent "123" (CText "2019") [mkArea "degree" "B.A." CAbsent; mkArea "major" "130" (CText "2017"); mkArea "emphasis" "130-e" CAbsent])
  = gret [mkRow "123" "2019-20" "B.A."; mkRow "123" "2017-18" "130"].
Proof. vm_compute. reflexivity. Qed.

(** ** The batch *)
Notation brow := (option nat * row)%type.
Definition of_thread (i : nat) (x : brow) : bool := match fst x with Some j => Nat.eqb j i | None => false end.
(** the committed rows a thread inserted *)
Definition own (s : bstate) (i : nat) : list row := map snd (filter (of_thread i) (b_committed s)).
Definition by_batch (x : brow) : bool := match fst x with Some _ => true | None => false end.
Definition by_others (x : brow) : bool := match fst x with Some _ => false | None => true end.
Definition others (es : list bevent) : list row := flat_map (fun e => match e with BOther r => [r] | _ => [] end) es.
Definition sql_error (e : bevent) : bool := match e with BSqlError _ => true | _ => false end.

(** a row that may be inserted *)
Definition eligible (cfg : settings) (r : row) : Prop :=
  ~ In (w_num r, w_code r) (queued cfg) /\ ~ In (w_num r, w_code r) (blocked cfg) /\ forall f, code_filter cfg = Some f -> w_code r = f.

Lemma pair_in_spec n c l : pair_in n c l = true <-> In (n, c) l.
Proof.
  unfold pair_in. rewrite existsb_exists. split.
  - intros ([a b] & J & E). cbn in E. apply andb_prop in E as [E1 E2]. apply String.eqb_eq in E1, E2. subst. exact J.
  - intro J. exists (n, c). split; [exact J|]. cbn. rewrite !String.eqb_refl. reflexivity.
Qed.
Lemma wanted_spec cfg r : wanted cfg r = true <-> eligible cfg r.
Proof.
  unfold wanted, eligible. rewrite <- !pair_in_spec. destruct (pair_in _ _ (queued cfg)); [split; [discriminate|intros (H & _); congruence]|].
  destruct (pair_in _ _ (blocked cfg)); [split; [discriminate|intros (_ & H & _); congruence]|]. destruct (code_filter cfg) as [f|].
  - destruct (String.eqb f (w_code r)) eqn:E; cbn.
    + apply String.eqb_eq in E. split; [intros _|reflexivity]. repeat split; try discriminate. intros g G. injection G as <-. auto.
    + apply String.eqb_neq in E. split; [discriminate|]. intros (_ & _ & H). specialize (H f eq_refl). congruence.
  - split; [intros _|reflexivity]. repeat split; discriminate.
Qed.

Definition pending_of (s : bstate) (i : nat) : list row := map snd (filter (fun x => Nat.eqb (fst x) i) (b_open s)).
Definition tagged (l : list (nat * row)) : list brow := map (fun x => (Some (fst x), snd x)) l.
Lemma tagged_own i l : map snd (filter (of_thread i) (tagged l)) = map snd (filter (fun x => Nat.eqb (fst x) i) l).
Proof. induction l as [|[j r] l IH]; [reflexivity|]. cbn [tagged map filter of_thread fst]. fold (tagged l). destruct (Nat.eqb j i); cbn [map snd]; [f_equal|]; exact IH. Qed.
Lemma subseq_app2 {A} (a b c d : list A) : subseq a b -> subseq c d -> subseq (a ++ c) (b ++ d).
Proof. induction 1; intro H2; cbn; [exact H2|constructor; auto|constructor; auto]. Qed.
Lemma subseq_app_l {A} (a b : list A) : subseq a (a ++ b).
Proof. rewrite <- (app_nil_r a) at 1. apply subseq_app2; [apply subseq_refl|apply subseq_nil_l]. Qed.

Record binv (cfg : settings) (n : nat) (tasks : nat -> gen row) (s : bstate) : Prop := mkBinv {
  bi_past : forall i, exists past, g_items (tasks i) = past ++ th_todo (b_threads s i) /\ subseq (own s i ++ pending_of s i) (filter (wanted cfg) past);
  bi_open : forall i r, In (i, r) (b_open s) -> (i < n)%nat;
  bi_tag : forall i r, In (Some i, r) (b_committed s) -> (i < n)%nat }.

Lemma own_commit s i : own (mkB (b_committed s ++ tagged (b_open s)) [] false (b_threads s)) i = own s i ++ pending_of s i.
Proof. unfold own, pending_of. cbn [b_committed]. rewrite filter_app, map_app, tagged_own. reflexivity. Qed.

Lemma binv_step cfg n tasks s e s' : binv cfg n tasks s -> bstep cfg n s e = Some s' -> binv cfg n tasks s'.
Proof.
  intros [PA OP TA] ST.
  assert (KEEP : forall x i l, own (mkB (b_committed s) l x (b_threads s)) i = own s i) by reflexivity.
  destruct e as [i|i|i|r]; cbn [bstep] in ST.
  - destruct (Nat.ltb i n) eqn:L; [|discriminate]. apply Nat.ltb_lt in L. destruct (th_status _); try discriminate. destruct (th_todo (b_threads s i)) as [|r rest] eqn:TD; [discriminate|].
    destruct (wanted cfg r) eqn:W; [destruct (b_bad s) eqn:B|]; injection ST as <-; constructor; auto.
    + intro j. unfold own, pending_of, upd. cbn [b_committed b_open b_threads]. destruct (Nat.eqb j i) eqn:E; [|apply PA]. apply Nat.eqb_eq in E. subst j. destruct (PA i) as (past & E1 & E2). exists (past ++ [r]). cbn [th_todo]. rewrite TD in E1. rewrite <- app_assoc. split; [exact E1|].
      rewrite filter_app. eapply subseq_trans; [exact E2|apply subseq_app_l].
    + intro j. unfold own, pending_of, upd. cbn [b_committed b_open b_threads]. rewrite filter_app, map_app. cbn [filter fst].
      destruct (PA j) as (past & E1 & E2). destruct (Nat.eqb j i) eqn:E.
      * apply Nat.eqb_eq in E. subst j. rewrite Nat.eqb_refl. cbn [map snd th_todo]. exists (past ++ [r]). rewrite TD in E1. rewrite <- app_assoc. split; [exact E1|].
        rewrite filter_app. cbn [filter]. rewrite W. rewrite app_assoc. apply subseq_app2; [exact E2|apply subseq_refl].
      * rewrite Nat.eqb_sym, E. cbn [map]. rewrite app_nil_r. exists past. auto.
    + intros j r' J. cbn [b_open] in J. apply in_app_or in J as [J|[J|[]]]; [exact (OP j r' J)|]. injection J as <- <-. exact L.
    + intro j. unfold own, pending_of, upd. cbn [b_committed b_open b_threads]. destruct (Nat.eqb j i) eqn:E; [|apply PA]. apply Nat.eqb_eq in E. subst j. destruct (PA i) as (past & E1 & E2). exists (past ++ [r]). cbn [th_todo]. rewrite TD in E1. rewrite <- app_assoc. split; [exact E1|].
      rewrite filter_app. eapply subseq_trans; [exact E2|apply subseq_app_l].
  - destruct (Nat.ltb i n) eqn:L; [|discriminate]. destruct (th_status _); try discriminate. destruct (th_todo (b_threads s i)) as [|r rest] eqn:TD; [discriminate|].
    destruct (wanted cfg r) eqn:W; [|discriminate]. injection ST as <-; constructor; auto.
    intro j. unfold own, pending_of, upd. cbn [b_committed b_open b_threads]. destruct (Nat.eqb j i) eqn:E; [|apply PA]. apply Nat.eqb_eq in E. subst j. destruct (PA i) as (past & E1 & E2). exists (past ++ [r]). cbn [th_todo]. rewrite TD in E1. rewrite <- app_assoc. split; [exact E1|].
    rewrite filter_app. eapply subseq_trans; [exact E2|apply subseq_app_l].
  - destruct (Nat.ltb i n) eqn:L; [|discriminate]. destruct (th_status _); try discriminate. destruct (th_todo (b_threads s i)) as [|r rest] eqn:TD; [|discriminate].
    destruct (th_exn (b_threads s i)) eqn:TE; injection ST as <-; constructor; auto.
    + intro j. unfold own, pending_of, upd. cbn [b_committed b_open b_threads]. destruct (PA j) as (past & E1 & E2). exists past. split; [|exact E2]. destruct (Nat.eqb j i) eqn:E; [|exact E1]. apply Nat.eqb_eq in E. subst j. cbn [th_todo]. rewrite TD in E1. exact E1.
    + intro j. unfold upd. cbn [b_threads]. destruct (PA j) as (past & E1 & E2). exists past.
      split; [destruct (Nat.eqb j i) eqn:E; [apply Nat.eqb_eq in E; subst j; cbn [th_todo]; rewrite TD in E1; exact E1|exact E1]|].
      unfold pending_of. cbn [b_open filter map]. rewrite app_nil_r. destruct (b_bad s).
      * eapply subseq_trans; [apply subseq_app_l|exact E2].
      * fold (tagged (b_open s)). change (subseq (own (mkB (b_committed s ++ tagged (b_open s)) [] false (b_threads s)) j) (filter (wanted cfg) past)). rewrite own_commit. exact E2.
    + cbn [b_open]. intros j r' [].
    + cbn [b_committed]. intros j r' J. destruct (b_bad s); [exact (TA j r' J)|]. apply in_app_or in J as [J|J]; [exact (TA j r' J)|]. apply in_map_iff in J as ([k r2] & E & J). cbn in E. injection E as <- <-. exact (OP k r2 J).
  - injection ST as <-. constructor; auto.
    + intro j. unfold own, pending_of. cbn [b_committed b_open b_threads]. rewrite filter_app, map_app. cbn. rewrite app_nil_r. apply PA.
    + cbn [b_committed]. intros j r' J. apply in_app_or in J as [J|[J|[]]]; [exact (TA j r' J)|discriminate].
Qed.
Lemma own_start rows tasks i : own (bstart rows tasks) i = [].
Proof. unfold own, bstart. cbn [b_committed]. induction rows as [|r rows IH]; [reflexivity|exact IH]. Qed.
Lemma binv_start cfg n tasks rows : binv cfg n tasks (bstart rows tasks).
Proof.
  constructor.
  - intro i. exists []. rewrite own_start. cbn. split; [reflexivity|constructor].
  - intros i r [].
  - intros i r J. cbn [bstart b_committed] in J. apply in_map_iff in J as (r' & E & _). discriminate.
Qed.
Lemma binv_run cfg n tasks es : forall s s', binv cfg n tasks s -> brun cfg n s es = Some s' -> binv cfg n tasks s'.
Proof.
  induction es as [|e es IH]; intros s s' I R; cbn [brun] in R; [injection R as <-; exact I|].
  destruct (bstep cfg n s e) as [s1|] eqn:ST; [|discriminate]. exact (IH s1 s' (binv_step _ _ _ _ _ _ I ST) R).
Qed.

Lemma others_step cfg n s e s' : bstep cfg n s e = Some s' ->
  map snd (filter by_others (b_committed s')) = map snd (filter by_others (b_committed s)) ++ others [e].
Proof.
  intro ST. assert (T : forall l, filter by_others (tagged l) = []) by (induction l as [|[j r] l IH]; [reflexivity|exact IH]).
  destruct e as [i|i|i|r]; cbn [bstep] in ST; cbn [others flat_map app]; try rewrite app_nil_r.
  - destruct (Nat.ltb i n); [|discriminate]. destruct (th_status _); try discriminate. destruct (th_todo _) as [|r rest]; [discriminate|]. destruct (wanted cfg r); [destruct (b_bad s)|]; injection ST as <-; reflexivity.
  - destruct (Nat.ltb i n); [|discriminate]. destruct (th_status _); try discriminate. destruct (th_todo _) as [|r rest]; [discriminate|]. destruct (wanted cfg r); [|discriminate]; injection ST as <-; reflexivity.
  - destruct (Nat.ltb i n); [|discriminate]. destruct (th_status _); try discriminate. destruct (th_todo _) as [|r rest]; [|discriminate]. destruct (th_exn _); injection ST as <-; [reflexivity|]. cbn [b_committed]. destruct (b_bad s); [reflexivity|].
    fold (tagged (b_open s)). rewrite filter_app, T, app_nil_r. reflexivity.
  - injection ST as <-. cbn [b_committed]. rewrite filter_app, map_app. reflexivity.
Qed.

(** Whatever the threads do and whatever fails: a thread inserts rows of its own student only, each
    at most once, and only those that were neither queued nor blocked when the batch began and that
    pass the filter. The rows of others stay. *)
Theorem only_eligible_rows_are_queued :
  forall cfg n rows tasks es s, brun cfg n (bstart rows tasks) es = Some s ->
  (forall i r, In (Some i, r) (b_committed s) -> (i < n)%nat /\ eligible cfg r) /\
  (forall i, subseq (own s i) (g_items (tasks i))) /\
  map snd (filter by_others (b_committed s)) = rows ++ others es.
Proof.
  intros cfg n rows tasks es s R. assert (I := binv_run cfg n tasks es _ s (binv_start cfg n tasks rows) R). destruct I as [PA OP TA].
  assert (SU : forall i, subseq (own s i) (filter (wanted cfg) (g_items (tasks i)))).
  { intro i. destruct (PA i) as (past & E1 & E2). rewrite E1, filter_app. eapply subseq_trans; [|apply subseq_app_l]. eapply subseq_trans; [apply subseq_app_l|exact E2]. }
  split; [|split].
  - intros i r J. split; [exact (TA i r J)|]. apply wanted_spec. assert (K : In r (own s i)).
    { unfold own. apply in_map_iff. exists (Some i, r). split; [reflexivity|]. apply filter_In. split; [exact J|]. apply Nat.eqb_refl. }
    apply (subseq_in _ _ _ (SU i)) in K. apply filter_In in K. apply K.
  - intro i. eapply subseq_trans; [apply SU|apply subseq_filter].
  - clear - R. assert (G : forall es s0 s, brun cfg n s0 es = Some s -> map snd (filter by_others (b_committed s)) = map snd (filter by_others (b_committed s0)) ++ others es).
    { clear. induction es as [|e es IH]; intros s0 s R; cbn [brun] in R; [injection R as <-; cbn; rewrite app_nil_r; reflexivity|].
      destruct (bstep cfg n s0 e) as [s1|] eqn:ST; [|discriminate]. rewrite (IH s1 s R), (others_step _ _ _ _ _ ST), <- app_assoc. f_equal. cbn. rewrite app_nil_r. reflexivity. }
    rewrite (G es _ s R). f_equal. cbn [bstart b_committed]. clear. induction rows as [|r l IH]; [reflexivity|]. cbn. f_equal. exact IH.
Qed.
Print Assumptions only_eligible_rows_are_queued.

(** After a failing statement nothing is inserted until a thread ends without an exception, and
    that one's COMMIT takes back all that was open. *)
Lemma exn_kept cfg n s e s' : bstep cfg n s e = Some s' -> forall i, th_exn (b_threads s' i) = th_exn (b_threads s i).
Proof.
  intros ST i. destruct e as [j|j|j|r]; cbn [bstep] in ST; [| | |injection ST as <-; reflexivity]; (destruct (Nat.ltb j n); [|discriminate]; destruct (th_status _); try discriminate; destruct (th_todo _) as [|r rest]; try discriminate).
  - destruct (wanted cfg r); [destruct (b_bad s)|]; injection ST as <-; cbn [b_threads]; unfold upd; destruct (Nat.eqb i j) eqn:E; try reflexivity; apply Nat.eqb_eq in E; subst; reflexivity.
  - destruct (wanted cfg r); [|discriminate]; injection ST as <-; cbn [b_threads]; unfold upd; destruct (Nat.eqb i j) eqn:E; try reflexivity; apply Nat.eqb_eq in E; subst; reflexivity.
  - destruct (th_exn (b_threads s j)) eqn:X; injection ST as <-; cbn [b_threads]; unfold upd; destruct (Nat.eqb i j) eqn:E; try reflexivity; apply Nat.eqb_eq in E; subst; cbn [th_exn]; congruence.
Qed.
Theorem a_failing_statement_undoes_the_open_rows :
  forall cfg n es s s', b_bad s = true -> brun cfg n s es = Some s' ->
  (forall i, In (BEnd i) es -> th_exn (b_threads s i) <> None) ->
  (b_bad s' = true /\ b_open s' = b_open s /\ forall i, own s' i = own s i) /\
  forall i s2, bstep cfg n s' (BEnd i) = Some s2 -> th_exn (b_threads s i) = None ->
    b_open s2 = [] /\ b_bad s2 = false /\ b_committed s2 = b_committed s'.
Proof.
  intros cfg n es. induction es as [|e es IH]; intros s s' B R X; cbn [brun] in R.
  - injection R as <-. split; [auto|]. intros i s2 ST N. cbn [bstep] in ST. destruct (Nat.ltb i n); [|discriminate]. destruct (th_status _); try discriminate. destruct (th_todo _); [|discriminate].
    rewrite N, B in ST. injection ST as <-. auto.
  - destruct (bstep cfg n s e) as [s1|] eqn:ST; [|discriminate]. assert (K := exn_kept _ _ _ _ _ ST).
    assert (S1 : b_bad s1 = true /\ b_open s1 = b_open s /\ forall i, own s1 i = own s i).
    { destruct e as [j|j|j|r]; cbn [bstep] in ST.
      - destruct (Nat.ltb j n); [|discriminate]; destruct (th_status _); try discriminate; destruct (th_todo _) as [|r rest]; try discriminate.
        rewrite B in ST. destruct (wanted cfg r); injection ST as <-; auto.
      - destruct (Nat.ltb j n); [|discriminate]; destruct (th_status _); try discriminate; destruct (th_todo _) as [|r rest]; try discriminate.
        destruct (wanted cfg r); [|discriminate]; injection ST as <-; auto.
      - destruct (Nat.ltb j n); [|discriminate]; destruct (th_status _); try discriminate; destruct (th_todo _) as [|r rest]; try discriminate.
        assert (XJ := X j (or_introl eq_refl)). destruct (th_exn (b_threads s j)); [|congruence]. injection ST as <-; auto.
      - injection ST as <-. split; [exact B|]. split; [reflexivity|]. intro i. unfold own. cbn [b_committed]. rewrite filter_app, map_app. cbn. apply app_nil_r. }
    destruct S1 as (B1 & O1 & W1). destruct (IH s1 s' B1 R) as [(B2 & O2 & W2) F].
    { intros i J. rewrite K. apply X. right. exact J. }
    split; [split; [exact B2|]; split; [congruence|]; intro i; rewrite W2; apply W1|]. intros i s2 S2 N. apply (F i s2 S2). rewrite K. exact N.
Qed.
Print Assumptions a_failing_statement_undoes_the_open_rows.

(** Students being distinct, no student and area is queued twice by one batch. *)
Theorem a_batch_queues_no_pair_twice :
  forall cfg n rows order sts es s, (forall l, Permutation (order l) l) ->
  (forall i j, (i < n)%nat -> (j < n)%nat -> st_num (sts i) = st_num (sts j) -> i = j) ->
  brun cfg n (bstart rows (fun i => expand_student order (sts i))) es = Some s ->
  NoDup (map (fun x : brow => (w_num (snd x), w_code (snd x))) (filter by_batch (b_committed s))).
Proof.
  intros cfg n rows order sts es s PO DS R. destruct (only_eligible_rows_are_queued _ _ _ _ _ _ R) as (A & B & _).
  assert (G : forall l, (forall i r, In (Some i, r) l -> (i < n)%nat) -> (forall i, subseq (map snd (filter (of_thread i) l)) (g_items (expand_student order (sts i)))) ->
    NoDup (map (fun x : brow => (w_num (snd x), w_code (snd x))) (filter by_batch l))).
  2: { apply G; [intros i r J; apply (A i r J)|exact B]. }
  clear - PO DS. induction l as [|[t r] l IH]; intros T S; [constructor|].
  assert (NUM : forall i r, (i < n)%nat -> In (Some i, r) ((t, r) :: l) \/ True -> In r (g_items (expand_student order (sts i))) -> w_num r = st_num (sts i)).
  { intros i r0 _ _ J. destruct (a_student_is_expanded order (sts i) PO) as (_ & _ & H & _). apply (H r0 J). }
  assert (S2 : forall i, subseq (map snd (filter (of_thread i) l)) (g_items (expand_student order (sts i)))).
  { intro i. specialize (S i). cbn [filter] in S. destruct (of_thread i (t, r)); [|exact S]. eapply subseq_trans; [|exact S]. cbn [map]. constructor. apply subseq_refl. }
  assert (T2 : forall i r, In (Some i, r) l -> (i < n)%nat) by (intros i r0 J; apply (T i r0); right; exact J).
  assert (IN : forall i r0, In (Some i, r0) l -> In r0 (g_items (expand_student order (sts i)))).
  { intros i r0 J. apply (subseq_in _ _ _ (S2 i)). apply in_map_iff. exists (Some i, r0). split; [reflexivity|]. apply filter_In. split; [exact J|apply Nat.eqb_refl]. }
  destruct t as [i|]; cbn [filter by_batch fst]; [|apply IH; assumption]. cbn [map snd]. constructor; [|apply IH; assumption].
  assert (Li : (i < n)%nat) by (apply (T i r); left; reflexivity).
  pose proof (S i) as SI. cbn [filter of_thread fst] in SI. rewrite Nat.eqb_refl in SI. cbn [map snd] in SI.
  assert (Ir : In r (g_items (expand_student order (sts i)))) by (apply (subseq_in _ _ _ SI); left; reflexivity).
  intro J. apply in_map_iff in J as ([u r2] & E & J). apply filter_In in J as [J K]. destruct u as [j|]; [|discriminate K]. cbn [snd] in E. injection E as E1 E2.
  assert (X : j = i). { apply DS; [apply (T2 j r2 J)|exact Li|]. rewrite <- (NUM j r2), <- (NUM i r); auto. exact (T2 j r2 J). }
  subst j.
  destruct (a_student_is_expanded order (sts i) PO) as (_ & ND & _).
  assert (SM : subseq (map w_code (r :: map snd (filter (of_thread i) l))) (map w_code (g_items (expand_student order (sts i))))).
  { clear - SI. induction SI; cbn; constructor; auto. }
  apply (subseq_NoDup _ _ SM) in ND. cbn [map] in ND. inversion ND as [|? ? N1 N2]; subst. apply N1. rewrite <- E2. apply in_map. apply in_map_iff. exists (Some i, r2). split; [reflexivity|]. apply filter_In. split; [exact J|apply Nat.eqb_refl].
Qed.
Print Assumptions a_batch_queues_no_pair_twice.

(** *** without failing statements *)
Record ginv (cfg : settings) (n : nat) (tasks : nat -> gen row) (s : bstate) : Prop := mkGinv {
  gi_bad : b_bad s = false;
  gi_open : forall i r, In (i, r) (b_open s) -> (i < n)%nat;
  gi_tag : forall i r, In (Some i, r) (b_committed s) -> (i < n)%nat;
  gi_past : forall i, exists past, g_items (tasks i) = past ++ th_todo (b_threads s i) /\ own s i ++ pending_of s i = filter (wanted cfg) past /\
     th_count (b_threads s i) = List.length (filter (wanted cfg) past) /\ th_exn (b_threads s i) = g_exn (tasks i) /\
     match th_status (b_threads s i) with
     | TRunning => True
     | TDone => th_todo (b_threads s i) = [] /\ g_exn (tasks i) = None /\ pending_of s i = []
     | TFailed => th_todo (b_threads s i) = [] /\ g_exn (tasks i) <> None
     end }.
Lemma ginv_start cfg n tasks rows : ginv cfg n tasks (bstart rows tasks).
Proof.
  constructor; [reflexivity| | |].
  - intros i r [].
  - intros i r J. cbn [bstart b_committed] in J. apply in_map_iff in J as (r' & E & _). discriminate.
  - intro i. exists []. rewrite own_start. cbn. repeat split.
Qed.
Lemma ginv_step cfg n tasks s e s' : ginv cfg n tasks s -> sql_error e = false -> bstep cfg n s e = Some s' -> ginv cfg n tasks s'.
Proof.
  intros [B OP TA PA] NS ST. destruct e as [i|i|i|r]; cbn [bstep] in ST; try discriminate NS.
  - destruct (Nat.ltb i n) eqn:L; [|discriminate]. apply Nat.ltb_lt in L. destruct (th_status _) eqn:TS; try discriminate. destruct (th_todo (b_threads s i)) as [|r rest] eqn:TD; [discriminate|]. rewrite B in ST.
    destruct (wanted cfg r) eqn:W; injection ST as <-; constructor; auto.
    + intros j r' J. cbn [b_open] in J. apply in_app_or in J as [J|[J|[]]]; [exact (OP j r' J)|]. injection J as <- <-. exact L.
    + intro j. unfold own, pending_of, upd. cbn [b_committed b_open b_threads]. rewrite filter_app, map_app. cbn [filter fst].
      destruct (PA j) as (past & E1 & E2 & E3 & E4 & E5). destruct (Nat.eqb j i) eqn:E.
      * apply Nat.eqb_eq in E. subst j. rewrite Nat.eqb_refl. cbn [map snd th_todo th_count th_exn th_status]. exists (past ++ [r]). rewrite TD in E1. rewrite <- app_assoc. split; [exact E1|].
        rewrite filter_app. cbn [filter]. rewrite W. split; [rewrite app_assoc; f_equal; exact E2|]. rewrite app_length. cbn. split; [lia|auto].
      * rewrite Nat.eqb_sym, E. cbn [map]. rewrite app_nil_r. exists past. auto.
    + intro j. unfold own, pending_of, upd. cbn [b_committed b_open b_threads]. destruct (Nat.eqb j i) eqn:E; [|apply PA]. apply Nat.eqb_eq in E. subst j. destruct (PA i) as (past & E1 & E2 & E3 & E4 & E5). exists (past ++ [r]). cbn [th_todo th_count th_exn th_status]. rewrite TD in E1. rewrite <- app_assoc. split; [exact E1|].
      rewrite filter_app. cbn [filter]. rewrite W, app_nil_r. auto.
  - destruct (Nat.ltb i n) eqn:L; [|discriminate]. destruct (th_status _) eqn:TS; try discriminate. destruct (th_todo (b_threads s i)) as [|r rest] eqn:TD; [|discriminate]. rewrite B in ST.
    destruct (th_exn (b_threads s i)) eqn:TE; injection ST as <-; constructor; auto.
    + intro j. unfold own, pending_of, upd. cbn [b_committed b_open b_threads]. destruct (PA j) as (past & E1 & E2 & E3 & E4 & E5). exists past. destruct (Nat.eqb j i) eqn:E; [|auto]. apply Nat.eqb_eq in E. subst j. cbn [th_todo th_count th_exn th_status]. rewrite TD in E1. rewrite TE in E4. repeat (split; [assumption|]). split; [reflexivity|]. rewrite <- E4. discriminate.
    + cbn [b_open]. intros j r' [].
    + cbn [b_committed]. intros j r' J. apply in_app_or in J as [J|J]; [exact (TA j r' J)|]. apply in_map_iff in J as ([k r2] & E & J). cbn in E. injection E as <- <-. exact (OP k r2 J).
    + intro j. unfold upd. cbn [b_threads]. destruct (PA j) as (past & E1 & E2 & E3 & E4 & E5). exists past.
      unfold pending_of at 1 2. cbn [b_open filter map]. rewrite app_nil_r.
      assert (OW : own (mkB (b_committed s ++ map (fun x => (Some (fst x), snd x)) (b_open s)) [] false (fun k => if Nat.eqb k i then mkThread [] None (th_count (b_threads s i)) TDone else b_threads s k)) j = filter (wanted cfg) past).
      { rewrite <- E2. fold (tagged (b_open s)). apply own_commit. }
      destruct (Nat.eqb j i) eqn:E.
      * apply Nat.eqb_eq in E. subst j. cbn [th_todo th_count th_exn th_status]. rewrite TD in E1. rewrite TE in E4. auto 10.
      * repeat (split; [assumption|]). destruct (th_status (b_threads s j)); intuition.
  - injection ST as <-. constructor; auto.
    + cbn [b_committed]. intros j r' J. apply in_app_or in J as [J|[J|[]]]; [exact (TA j r' J)|discriminate].
    + intro j. unfold own, pending_of. cbn [b_committed b_open b_threads]. rewrite filter_app, map_app. cbn [filter of_thread fst map]. rewrite app_nil_r. apply PA.
Qed.
Lemma ginv_run cfg n tasks es : forall s s', ginv cfg n tasks s -> existsb sql_error es = false -> brun cfg n s es = Some s' -> ginv cfg n tasks s'.
Proof.
  induction es as [|e es IH]; intros s s' I N R; cbn [brun] in R; [injection R as <-; exact I|]. cbn [existsb] in N. apply orb_false_elim in N as [N1 N2].
  destruct (bstep cfg n s e) as [s1|] eqn:ST; [|discriminate]. exact (IH s1 s' (ginv_step _ _ _ _ _ _ I N1 ST) N2 R).
Qed.

Fixpoint sum_to (n : nat) (f : nat -> nat) : nat := match n with O => O | S k => sum_to k f + f k end.
Lemma reported_sum n s : reported n s = sum_to n (fun i => match th_status (b_threads s i) with TDone => th_count (b_threads s i) | _ => O end).
Proof.
  unfold reported. induction n as [|n IH]; [reflexivity|]. rewrite seq_S, fold_left_app. cbn [fold_left Nat.add sum_to]. rewrite IH. destruct (th_status _); lia.
Qed.
Lemma sum_to_ext n f g : (forall i, (i < n)%nat -> f i = g i) -> sum_to n f = sum_to n g.
Proof. induction n as [|n IH]; intro H; [reflexivity|]. cbn. rewrite IH, H; auto. Qed.
Lemma count_tags n (l : list brow) : (forall i r, In (Some i, r) l -> (i < n)%nat) ->
  List.length (filter by_batch l) = sum_to n (fun i => List.length (filter (of_thread i) l)).
Proof.
  induction l as [|[t r] l IH]; intro H.
  - cbn. induction n as [|n IHn]; [reflexivity|]. cbn. rewrite <- IHn; [reflexivity|intros i r []].
  - assert (H2 : forall i r, In (Some i, r) l -> (i < n)%nat) by (intros i r0 J; apply (H i r0); right; exact J). specialize (IH H2).
    destruct t as [j|]; cbn [filter by_batch fst of_thread].
    + assert (L : (j < n)%nat) by (apply (H j r); left; reflexivity). cbn [List.length]. rewrite IH. clear IH H H2.
      assert (G : forall m, sum_to m (fun i => List.length (if Nat.eqb j i then (Some j, r) :: filter (of_thread i) l else filter (of_thread i) l)) =
                        (sum_to m (fun i => List.length (filter (of_thread i) l)) + if Nat.ltb j m then 1 else 0)%nat).
      { induction m as [|m IHm]; [reflexivity|]. cbn [sum_to]. rewrite IHm. destruct (Nat.eqb j m) eqn:E.
        - apply Nat.eqb_eq in E. subst m. rewrite Nat.ltb_irrefl. replace (Nat.ltb j (S j)) with true by (symmetry; apply Nat.ltb_lt; lia). cbn [List.length]. lia.
        - apply Nat.eqb_neq in E. destruct (Nat.ltb_spec j m), (Nat.ltb_spec j (S m)); lia. }
      rewrite G. apply Nat.ltb_lt in L. rewrite L. lia.
    + exact IH.
Qed.

(** When no statement fails and no student raises, every eligible row of every student is queued
    once the threads are done, and the number reported is the number of rows queued. *)
Theorem every_eligible_row_is_queued_and_counted :
  forall cfg n rows tasks es s, brun cfg n (bstart rows tasks) es = Some s -> existsb sql_error es = false ->
  (forall i, (i < n)%nat -> g_exn (tasks i) = None) -> (forall i, (i < n)%nat -> th_status (b_threads s i) <> TRunning) ->
  (forall i, (i < n)%nat -> own s i = filter (wanted cfg) (g_items (tasks i))) /\
  (forall i r, (i < n)%nat -> (In r (own s i) <-> In r (g_items (tasks i)) /\ eligible cfg r)) /\
  reported n s = List.length (filter by_batch (b_committed s)).
Proof.
  intros cfg n rows tasks es s R NS NE AD. destruct (ginv_run cfg n tasks es _ s (ginv_start cfg n tasks rows) NS R) as [B OP TA PA].
  assert (OW : forall i, (i < n)%nat -> own s i = filter (wanted cfg) (g_items (tasks i)) /\ th_status (b_threads s i) = TDone /\ th_count (b_threads s i) = List.length (own s i)).
  { intros i L. destruct (PA i) as (past & E1 & E2 & E3 & E4 & E5). destruct (th_status (b_threads s i)) eqn:TS; [destruct (AD i L TS)| |].
    - destruct E5 as (T & _ & P). rewrite T, app_nil_r in E1. rewrite P, app_nil_r in E2. rewrite E1, E2. auto.
    - destruct E5 as (_ & X). destruct (X (NE i L)). }
  split; [intros i L; apply OW, L|]. split.
  - intros i r L. destruct (OW i L) as (E & _). rewrite E, filter_In, wanted_spec. tauto.
  - rewrite reported_sum, (count_tags n); [|exact TA]. apply sum_to_ext. intros i L. destruct (OW i L) as (_ & T & C). rewrite T, C. unfold own. rewrite map_length. reflexivity.
Qed.
Print Assumptions every_eligible_row_is_queued_and_counted.

(** *** what is reported otherwise *)
Definition no_settings : settings := mkSettings [] [] None.
Definition jo : student := mkStudent "1" (CText "2019") [mkArea "degree" "B.A." CAbsent; mkArea "major" "130" (CText "soon")].
Definition al : student := mkStudent "2" (CText "2019") [mkArea "degree" "B.A." CAbsent].
Definition two_students (i : nat) : gen row := match i with O => expand_student as_listed jo | _ => expand_student as_listed al end.
(** A student whose second area has a catalog that is no year: the row of the first area is
    committed by the thread of the next student, and is not counted. *)
Theorem the_reported_number_is_too_small_refuted :
  exists es s, brun no_settings 2 (bstart [] two_students) es = Some s /\ existsb sql_error es = false /\
  (forall i, (i < 2)%nat -> th_status (b_threads s i) <> TRunning) /\
  reported 2 s = 1%nat /\ List.length (filter by_batch (b_committed s)) = 2%nat.
Proof.
  exists [BItem 0; BEnd 0; BItem 1; BEnd 1]. eexists. split; [vm_compute; reflexivity|]. split; [reflexivity|].
  split; [|split; reflexivity]. intros [|[|i]] L; [discriminate|discriminate|lia].
Qed.
Print Assumptions the_reported_number_is_too_small_refuted.
(** If a statement of another thread fails, the COMMIT is a ROLLBACK, and rows are counted that are
    not there. *)
Definition two_more (i : nat) : gen row := match i with O => expand_student as_listed (mkStudent "1" (CText "2019") [mkArea "degree" "B.A." CAbsent]) | _ => expand_student as_listed al end.
Theorem the_reported_number_is_too_large_refuted :
  exists es s, brun no_settings 2 (bstart [] two_more) es = Some s /\ (forall i, g_exn (two_more i) = None) /\
  (forall i, (i < 2)%nat -> th_status (b_threads s i) <> TRunning) /\
  reported 2 s = 1%nat /\ b_committed s = [].
Proof.
  exists [BItem 0; BSqlError 1; BEnd 0]. eexists. split; [vm_compute; reflexivity|]. split; [intros [|i]; reflexivity|].
  split; [|split; reflexivity]. intros [|[|i]] L; [discriminate|discriminate|lia].
Qed.
Print Assumptions the_reported_number_is_too_large_refuted.
Example undone_example :
  exists s s2, brun no_settings 2 (bstart [] two_more) [BItem 0; BSqlError 1] = Some s /\ b_bad s = true /\
    List.length (b_open s) = 1%nat /\ bstep no_settings 2 s (BEnd 0) = Some s2 /\ b_committed s2 = [].
Proof. do 2 eexists. split; [vm_compute; reflexivity|]. repeat split; reflexivity. Qed.
(** What is queued while the batch runs is queued again. *)
Theorem rows_queued_meanwhile_are_skipped_refuted :
  exists es1 es2 s1 s2 r, brun no_settings 2 (bstart [] two_more) es1 = Some s1 /\ In (None, r) (b_committed s1) /\
  brun no_settings 2 s1 es2 = Some s2 /\ ~ In (Some 0%nat, r) (b_committed s1 ++ tagged (b_open s1)) /\ In (Some 0%nat, r) (b_committed s2).
Proof.
  exists [BOther (mkRow "1" "2019-20" "B.A.")], [BItem 0; BEnd 0]. eexists. eexists. exists (mkRow "1" "2019-20" "B.A.").
  split; [vm_compute; reflexivity|]. split; [left; reflexivity|]. split; [vm_compute; reflexivity|]. split; [intros [X|[]]; discriminate|]. right. left. reflexivity.
Qed.
Print Assumptions rows_queued_meanwhile_are_skipped_refuted.

Example batch_example :
  match brun (mkSettings [("1", "B.A.")] [] None) 2 (bstart [mkRow "1" "2019-20" "B.A."] two_more) [BItem 1; BItem 0; BEnd 0; BEnd 1] with
  | Some s => map snd (b_committed s) = [mkRow "1" "2019-20" "B.A."; mkRow "2" "2019-20" "B.A."] /\ reported 2 s = 1%nat
  | None => False
  end.
Proof. vm_compute. split; reflexivity. Qed.
