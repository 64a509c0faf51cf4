(** Property theorems about reading limits (C122 to C124). *)
From Coq Require Import List Bool Arith ZArith QArith String Ascii Lia Lqa Sorted Permutation.
From Verif Require Import Prelude Dec ListFacts StrFacts Paths Course Op OpMemo Context CondExpr Predicate PredicateProofs Limit LimitSpec LimitProofs LimitProps LabelSpec LabelProofs StudentLoad StudentSpec StudentProofs StudentProps AreaLoadProofs LimitLoad LimitLoadSpec LimitLoadProofs.
Import Limit LimitSpec LimitLoadSpec.
Import ListNotations.
Local Open Scope string_scope.

(** ** C122: limits are read exactly *)
Lemma given_exact r v : v <> LNull -> (get (rl_spaced r) (get (rl_dashed r) (get (rl_underscored r) LNull)) = v <-> given r v).
Proof.
  intro N. destruct (rl_spaced r) as [a|] eqn:A; cbn [get].
  - split; [intros <-; apply gv_spaced; exact A|]. intro H. inversion H; congruence.
  - destruct (rl_dashed r) as [b|] eqn:B; cbn [get].
    + split; [intros <-; apply gv_dashed; assumption|]. intro H. inversion H; congruence.
    + destruct (rl_underscored r) as [d|] eqn:D; cbn [get].
      * split; [intros <-; apply gv_underscored; assumption|]. intro H. inversion H; congruence.
      * split; [intros <-; congruence|]. intro H. inversion H; congruence.
Qed.
Lemma originals_exact w : forall vs, originals w = vs <-> written_in w vs.
Proof.
  assert (FM : forall {A} (f : A -> list value) (R : A -> list value -> Prop) l, (forall x, In x l -> forall vs, f x = vs <-> R x vs) -> forall vs, flat_map f l = vs <-> exists vss, Forall2 R l vss /\ vs = List.concat vss).
  { intros A f R l H vs. split.
    - intros <-. exists (map f l). rewrite <- flat_map_concat_map. split; [|reflexivity]. induction l as [|x l IH]; constructor; [apply H; [left|]; reflexivity|]. apply IH. intros y I. apply H. right. exact I.
    - intros (vss & F & ->). induction F as [|x ys l vss P F IH]; [reflexivity|]. cbn [flat_map List.concat]. apply H in P; [|left; reflexivity]. rewrite P, IH; [reflexivity|]. intros y I. apply H. right. exact I. }
  induction w as [l IH|l IH|x IH|c t IH|c t e IHt IHe|l] using wdata_ind'; intro vs; cbn [originals].
  - rewrite Forall_forall in IH. rewrite (FM _ originals written_in) by exact IH. split; [intros (vss & F & ->); apply wi_and; exact F|intro H; inversion H; eauto].
  - rewrite Forall_forall in IH. rewrite (FM _ originals written_in) by exact IH. split; [intros (vss & F & ->); apply wi_or; exact F|intro H; inversion H; eauto].
  - rewrite IH. split; [apply wi_not|intro H; inversion H; assumption].
  - rewrite app_nil_r, IH. split; [apply wi_if|intro H; inversion H; assumption].
  - split; [intros <-; apply wi_else; [apply IHt|apply IHe]; reflexivity|]. intro H. inversion H as [| | | |? ? ? vt ve P Q|]; subst. apply IHt in P. apply IHe in Q. congruence.
  - rewrite (FM _ _ (fun kd v => v = map snd (cd_ops (snd kd)))) by (intros; split; congruence). split; [intros (vss & F & ->); apply wi_keys; exact F|intro H; inversion H; eauto].
Qed.
Lemma limit_exact cx c r l : load_limit cx c r = Ok l <-> limit_of cx c r l.
Proof.
  unfold load_limit. set (v := get (rl_spaced r) (get (rl_dashed r) (get (rl_underscored r) LNull))). destruct (match v with LNull => true | _ => false end) eqn:NV.
  - assert (EV : v = LNull) by (destruct v; congruence). rewrite EV. split; [discriminate|]. intros [(v' & G & N & _) _ _ _]. apply given_exact in G; [|exact N]. fold v in G. congruence.
  - assert (N : v <> LNull) by (intros E; rewrite E in NV; discriminate). assert (GV : given r v) by (apply given_exact; [exact N|reflexivity]).
    assert (S : forall (X : res loaded_limit), (match v with LNull => Err OtherErr | _ => X end) = X) by (intro X; destruct v; congruence). rewrite S. clear S. split.
    + destruct (rl_extra r) eqn:EX; [discriminate|]. intro H. apply bind_iff in H. destruct H as (w & W & H). apply key_some in W. apply bind_iff in H. destruct H as (p & P & H).
      apply bind_iff in H. destruct H as ([d what] & D & H). injection H as <-. apply amount_exact in D. constructor; cbn; [exists v; auto|exact EX|exists w; split; [exact W|]; split; [exact P|apply originals_exact; reflexivity]|reflexivity].
    + intros [(v' & G & N' & A) EX (w & W & P & O) M]. apply given_exact in G; [|exact N']. fold v in G. subst v'. rewrite EX, W. cbn [key bind]. rewrite P. cbn [bind]. apply amount_exact in A. rewrite A. cbn [bind].
      apply originals_exact in O. rewrite O, <- M. destruct l. reflexivity.
Qed.
Lemma first_same_key all x k : In x all -> (first_same all x = k <-> key_of all x k).
Proof.
  intro I. assert (U : forall k k', key_of all x k -> key_of all x k' -> k = k').
  { clear. intros k k' [(y & Y & S) F] [(y' & Y' & S') F']. destruct (lt_eq_lt_dec k k') as [[H|H]|H]; [exfalso; exact (F' k y H Y S)|exact H|exfalso; exact (F k' y' H Y' S')]. }
  assert (E : key_of all x (first_same all x)).
  { clear U. induction all as [|y all IH]; [destruct I|]. cbn [first_same]. destruct (limit_eqb y x) eqn:E.
    - split; [exists y; split; [reflexivity|apply limit_same; exact E]|intros j z J; lia].
    - assert (N : ~ same_key y x) by (intro S; apply limit_same in S; congruence). destruct I as [->|I]; [exfalso; apply N; apply same_key_refl|]. destruct (IH I) as [(z & Z & S) F]. split; [exists z; auto|].
      intros [|j] w J W; cbn in W; [injection W as <-; exact N|apply (F j); [lia|exact W]]. }
  split; [intros <-; exact E|intro H; exact (U _ _ E H)].
Qed.
Theorem limits_are_loaded_exactly : forall cx c data ls, load_limits cx c data = Ok ls <-> limits_of cx c data ls.
Proof.
  intros cx c [raws|] ls; cbn [load_limits limits_of]; [|split; [intro H; injection H as <-; reflexivity|intros ->; reflexivity]].
  assert (K : forall all part ls, incl part all -> (map (keyed all) part = ls <-> Forall2 (stands_for_limit all) part ls)).
  { intros all. induction part as [|x part IH]; intros l IN; cbn [map]; [split; [intros <-; constructor|intro H; inversion H; reflexivity]|].
    assert (I : In x all) by (apply IN; left; reflexivity). assert (IN' : incl part all) by (intros y Y; apply IN; right; exact Y). split.
    - intros <-. constructor; [|apply IH; auto]. constructor; try reflexivity. apply first_same_key; [exact I|reflexivity].
    - intro H. inversion H as [|? y ? l' [A B C D] F]; subst. apply IH in F; [|exact IN']. rewrite F. f_equal. apply first_same_key in A; [|exact I]. destruct y. unfold keyed. cbn in *. congruence. }
  split.
  - intro H. apply bind_iff in H. destruct H as (all & A & H). injection H as H. exists all. split; [apply (mapr_rel _ _ _ _ (limit_exact cx c)); exact A|apply K; [apply incl_refl|exact H]].
  - intros (all & A & F). apply (mapr_rel _ _ _ _ (limit_exact cx c)) in A. rewrite A. cbn [bind]. f_equal. apply K; [apply incl_refl|exact F].
Qed.
Print Assumptions limits_are_loaded_exactly.
Lemma amount_refused v e : v <> LNull -> (load_amount v = Err e <-> v = LOther /\ e = TypeErr \/ exists s, v = LStr s /\ (forall d what, ~ amount_of (LStr s) d what) /\ e = ValueErr).
Proof.
  intro N. destruct v as [|b|z|f|s|]; cbn [load_amount amount_int].
  - congruence.
  - split; [discriminate|intros [[H _]|(s & H & _)]; discriminate].
  - split; [discriminate|intros [[H _]|(s & H & _)]; discriminate].
  - split; [discriminate|intros [[H _]|(s & H & _)]; discriminate].
  - assert (NO : forall x, load_amount (LStr s) = Err x -> forall d what, ~ amount_of (LStr s) d what) by (intros x H d what A; apply amount_exact in A; congruence).
    assert (VE : forall x, load_amount (LStr s) = Err x -> x = ValueErr).
    { unfold load_amount, amount_int. destruct (py_int (strip s)) as [z|e1] eqn:P; [discriminate|]. rewrite (py_int_fails _ _ P). intro x. destruct (words s "") as [|n [|u [|y l]]]; try (intro H; injection H; auto; fail).
      unfold dec_of_str. destruct (match n with "" => None | _ => _ end) as [d|]; cbn [bind]; [|intro H; injection H; auto]. destruct (_ || _); [discriminate|]. destruct (_ || _); [discriminate|intro H; injection H; auto]. }
    change (load_amount (LStr s) = Err e <-> LStr s = LOther /\ e = TypeErr \/ (exists s0, LStr s = LStr s0 /\ (forall d what, ~ amount_of (LStr s0) d what) /\ e = ValueErr)). split.
    + intro H. right. exists s. split; [reflexivity|]. split; [exact (NO _ H)|exact (VE _ H)].
    + intros [[H _]|(t & H & A & ->)]; [discriminate|]. injection H as <-. destruct (load_amount (LStr s)) as [[d what]|x] eqn:L; [exfalso; apply (A d what); apply amount_exact; exact L|]. rewrite (VE _ eq_refl). reflexivity.
  - split; [intro H; injection H as <-; left; auto|]. intros [[_ ->]|(s & H & _)]; [reflexivity|discriminate].
Qed.
Lemma limit_refused_exact cx c r e : load_limit cx c r = Err e <-> limit_refused cx c r e.
Proof.
  unfold load_limit. set (v := get (rl_spaced r) (get (rl_dashed r) (get (rl_underscored r) LNull))).
  assert (G : forall x, amount_given r x -> v = x) by (intros x [X N]; apply (given_exact r x N) in X; exact X).
  destruct (match v with LNull => true | _ => false end) eqn:NV.
  - assert (EV : v = LNull) by (destruct v; congruence). assert (NG : forall x, ~ amount_given r x) by (intros x X; assert (Y := G x X); destruct X; congruence). rewrite EV.
    split; [intro H; injection H as <-; apply lr_amount; exact NG|]. intro H. inversion H; subst; try reflexivity; exfalso; eapply NG; eassumption.
  - assert (N : v <> LNull) by (intros E; rewrite E in NV; discriminate). assert (GV : amount_given r v) by (split; [apply given_exact; [exact N|reflexivity]|exact N]).
    assert (S : forall (X : res loaded_limit), (match v with LNull => Err OtherErr | _ => X end) = X) by (intro X; destruct v; congruence). rewrite S. clear S.
    destruct (rl_extra r) eqn:EX.
    { split; [intro H; injection H as <-; eapply lr_keys; eauto|]. intro H. inversion H; subst; try congruence; try reflexivity. exfalso. eapply H0. exact GV. }
    destruct (rl_where r) as [w|] eqn:W; cbn [key bind].
    2:{ split; [intro H; injection H as <-; eapply lr_no_where; eauto|]. intro H. inversion H; subst; try congruence; try reflexivity. exfalso. eapply H0. exact GV. }
    destruct (load_predicate cx c DtCourse w) as [p|e1] eqn:P; cbn [bind].
    2:{ split; [intro H; injection H as <-; eapply lr_where; eauto|]. intro H. inversion H; subst; try congruence. exfalso. eapply H0. exact GV. }
    transitivity (load_amount v = Err e); [destruct (load_amount v) as [[d what]|x]; cbn [bind]; split; intro H; congruence|]. rewrite (amount_refused v e N). split.
    + intros [[EV ->]|(s & EV & A & ->)]; rewrite EV in GV; [eapply lr_kind; eauto|eapply lr_text; eauto].
    + intro H. inversion H as [NG|x X E|x X E1 E2|x w' e' X E1 E2 E3|w' p' X E1 E2 E3|s w' p' X E1 E2 E3 A]; subst; try congruence; [exfalso; eapply NG; exact GV|left; split; [apply G; exact X|reflexivity]|right; exists s; split; [apply G; exact X|auto]].
Qed.
(** Everything else is refused, with the exception that belongs to the first limit that cannot
    be read. *)
Theorem limits_are_refused_exactly : forall cx c data e, load_limits cx c data = Err e <-> limits_refused cx c data e.
Proof.
  intros cx c [raws|] e; cbn [load_limits]; [|split; [discriminate|intros (pre & r & post & H & _); discriminate]].
  transitivity (mapr (load_limit cx c) raws = Err e); [destruct (mapr (load_limit cx c) raws); cbn [bind]; split; intro H; congruence|]. induction raws as [|r raws IH]; cbn [mapr].
  - split; [discriminate|]. intros (pre & r & post & H & _). injection H as H. destruct pre; discriminate.
  - destruct (load_limit cx c r) as [l|e1] eqn:L; cbn [bind].
    + transitivity (mapr (load_limit cx c) raws = Err e); [destruct (mapr (load_limit cx c) raws); cbn [bind]; split; intro H; congruence|]. rewrite IH. split.
      * intros (pre & x & post & H & P & R). injection H as ->. exists (r :: pre), x, post. split; [reflexivity|]. split; [|exact R]. intros y [<-|I]; [exists l; apply limit_exact; exact L|apply P; exact I].
      * intros ([|y pre] & x & post & H & P & R); injection H as E1 E2; subst; [apply limit_refused_exact in R; congruence|]. exists pre, x, post. split; [reflexivity|]. split; [|exact R]. intros z I. apply P. right. exact I.
    + split.
      * intro H. injection H as <-. exists [], r, raws. split; [reflexivity|]. split; [intros x []|apply limit_refused_exact; exact L].
      * intros ([|y pre] & x & post & H & P & R); injection H as E1 E2; subst; [apply limit_refused_exact in R; congruence|]. exfalso. destruct (P y) as (l & LX); [left; reflexivity|]. apply limit_exact in LX. congruence.
Qed.
Print Assumptions limits_are_refused_exactly.
(** Two limits share a count exactly if they are the same. *)
Theorem limits_share_a_count_iff_same : forall all ls, Forall2 (stands_for_limit all) all ls ->
  forall i j x y l m, nth_error all i = Some x -> nth_error all j = Some y -> nth_error ls i = Some l -> nth_error ls j = Some m ->
  (lm_id l = lm_id m <-> same_key x y).
Proof.
  intros all ls F i j x y l m X Y L M.
  assert (G : forall i x l, nth_error all i = Some x -> nth_error ls i = Some l -> key_of all x (lm_id l)).
  { clear - F. assert (H : forall part ls', Forall2 (stands_for_limit all) part ls' -> forall i x l, nth_error part i = Some x -> nth_error ls' i = Some l -> key_of all x (lm_id l)).
    { induction 1 as [|y m part ls' [A _ _ _] F' IH]; intros [|i] x l X L; try discriminate; cbn in X, L; [injection X as <-; injection L as <-; exact A|eauto]. }
    apply H. exact F. }
  assert (KX := G _ _ _ X L). assert (KY := G _ _ _ Y M). destruct KX as [(z & Z & S) F1], KY as [(w & W & T) F2]. split.
  - intro E. rewrite E in Z. rewrite W in Z. injection Z as ->. eapply same_key_trans; [apply same_key_sym; exact S|exact T].
  - intro E. destruct (lt_eq_lt_dec (lm_id l) (lm_id m)) as [[H|H]|H]; [|exact H|].
    + exfalso. apply (F2 _ z H Z). eapply same_key_trans; [exact S|exact E].
    + exfalso. apply (F1 _ w H W). eapply same_key_trans; [exact T|apply same_key_sym; exact E].
Qed.
Print Assumptions limits_share_a_count_iff_same.
(** So if no two limits are the same, the theorems about limits apply to what was loaded. *)
Theorem different_limits_are_distinct : forall all ls, Forall2 (stands_for_limit all) all ls ->
  ForallOrdPairs (fun x y => ~ same_key x y) all -> distinct ls.
Proof.
  intros all ls F P. assert (LEN : List.length all = List.length ls) by (clear -F; induction F; cbn; congruence). unfold distinct. apply NoDup_nth_error. intros i j LI E. rewrite map_length in LI. rewrite !nth_error_map in E.
  destruct (nth_error ls i) as [l|] eqn:L; [|apply nth_error_None in L; lia]. destruct (nth_error ls j) as [m|] eqn:M; [|discriminate]. cbn in E. injection E as E.
  assert (LJ : (j < List.length ls)%nat) by (apply nth_error_Some; congruence).
  destruct (nth_error all i) as [x|] eqn:X; [|apply nth_error_None in X; lia]. destruct (nth_error all j) as [y|] eqn:Y; [|apply nth_error_None in Y; lia].
  assert (S := proj1 (limits_share_a_count_iff_same all ls F i j x y l m X Y L M) E).
  assert (O : forall i j x y, (i < j)%nat -> nth_error all i = Some x -> nth_error all j = Some y -> ~ same_key x y).
  { clear - P. induction P as [|a l FA P IH]; intros [|i] [|j] x y LT X Y; try lia; cbn in X, Y; try discriminate.
    - injection X as <-. rewrite Forall_forall in FA. apply FA. eapply nth_error_In. exact Y.
    - eapply IH; [|exact X|exact Y]. lia. }
  destruct (lt_eq_lt_dec i j) as [[H|H]|H]; [exfalso; exact (O i j x y H X Y S)|exact H|exfalso; apply (O j i y x H Y X); apply same_key_sym; exact S].
Qed.
Print Assumptions different_limits_are_distinct.

(** The limits of the data hold of every selection of courses that is tried, if no two of them
    are the same. *)
Theorem stated_course_limits_hold : forall cx c raws ls ord F cs v r l k,
  load_limits cx c (Some raws) = Ok ls -> set_order ord ->
  (forall all, Forall2 (limit_of cx c) raws all -> ForallOrdPairs (fun x y => ~ same_key x y) all) ->
  In v (g_items (limited_transcripts ord ls F cs)) ->
  In r raws -> limit_of cx c r l -> ll_what l = Courses -> (dval (ll_at_most l) == inject_Z (Z.of_nat k))%Q ->
  (List.length (filter (fun x => negb (existsb (String.eqb (c_clbid x)) F) &&
     match apply_pred (ICourse x) (ll_where l) with Ok b => b | Err _ => false end) v) <= k)%nat.
Proof.
  intros cx c raws ls ord F cs v r l k L O D V R LO W K. apply limits_are_loaded_exactly in L. destruct L as (all & A & S). assert (DI := different_limits_are_distinct all ls S (D all A)).
  assert (G : exists m, In m ls /\ lm_at_most m = ll_at_most l /\ lm_what m = ll_what l /\ lm_where m = ll_where l).
  { clear - A S R LO. assert (H : forall raws part ls, Forall2 (limit_of cx c) raws part -> Forall2 (stands_for_limit all) part ls -> In r raws -> exists m, In m ls /\ lm_at_most m = ll_at_most l /\ lm_what m = ll_what l /\ lm_where m = ll_where l).
    { clear - LO. induction raws as [|r0 raws IH]; intros part ls A S R; [destruct R|]. inversion A as [|? x ? part' LX A']; subst. inversion S as [|? m ? ls' SX S']; subst. destruct R as [->|R].
      - exists m. split; [left; reflexivity|]. assert (E : x = l) by (apply limit_exact in LX; apply limit_exact in LO; congruence). subst x. destruct SX. auto.
      - destruct (IH part' ls' A' S' R) as (m' & I & E). exists m'. split; [right; exact I|exact E]. }
    exact (H raws all ls A S R). }
  destruct G as (m & M & EA & EW & EP). assert (H := at_most_k_courses ord ls F cs m v k O (distinct_coherent ls DI) M). rewrite EW, EA in H. specialize (H W K V). unfold restricted in H. rewrite EP in H. exact H.
Qed.
Print Assumptions stated_course_limits_hold.
Lemma forall2_right {A B} (P : A -> B -> Prop) l m y : Forall2 P l m -> In y m -> exists x, In x l /\ P x y.
Proof. induction 1 as [|a b l m H F IH]; intros []; [subst; exists a; split; [left|]; auto|]. destruct IH as (x & I & Q); auto. exists x. split; [right|]; assumption. Qed.
(** limits with different messages are different *)
Lemma different_messages cx c raws all : NoDup (map rl_message raws) -> Forall2 (limit_of cx c) raws all -> ForallOrdPairs (fun x y => ~ same_key x y) all.
Proof.
  intros N F. induction F as [|r x raws all L F IH]; [constructor|]. cbn in N. inversion N as [|? ? NI N']; subst. constructor; [|exact (IH N')].
  apply Forall_forall. intros y Y S. apply NI. destruct (forall2_right _ _ _ y F Y) as (r' & R' & L'). rewrite <- (lo_message _ _ _ _ L), (sk_message _ _ S), (lo_message _ _ _ _ L'). apply in_map. exact R'.
Qed.

(** ** Amounts *)
Lemma two_words_no_number s n u t z : two_words s n u -> trimmed s t -> numeral_text t z -> False.
Proof.
  intros W T P. apply words_two in W. rewrite (words_one s _ T (numeral_blank _ _ P)) in W; [discriminate|]. intro E. rewrite E in P. destruct P as (ds & NE & _ & [[X _]|[X _]]); [congruence|discriminate].
Qed.
Lemma two_words_unique s n u n' u' : two_words s n u -> two_words s n' u' -> n = n' /\ u = u'.
Proof. intros A B. apply words_two in A, B. rewrite A in B. injection B as -> ->. auto. Qed.
Lemma decimal_unique s d d' : decimal_text s d -> decimal_text s d' -> d = d'.
Proof. intros A B. apply decimals_are_read_exactly in A, B. congruence. Qed.
(** the number that is written *)
Inductive number_written : lval -> Q -> Prop :=
| nw_int z : number_written (LInt z) (inject_Z z)
| nw_float d : number_written (LFloat d) (dval d)
| nw_text s t z : trimmed s t -> numeral_text t z -> number_written (LStr s) (inject_Z z)
| nw_words s n u d : two_words s n u -> decimal_text n d -> number_written (LStr s) (dval d).
(** A fraction without a unit loses what is behind the point. *)
Theorem amounts_are_kept_refuted : exists cx c r l v q,
  load_limit cx c r = Ok l /\ given r v /\ number_written v q /\ ~ (dval (ll_at_most l) == q)%Q.
Proof.
  exists empty_ctx, (mkConst 2016 2 (inl "") "130"), (mkRawLimit (Some (LFloat (mkDec 15 (-1)))) None None (Some (WKeys [("subject", mkClause [(OEq, VS (SStr "ART"))] None)])) None false).
  eexists _, _, _. split; [vm_compute; reflexivity|]. split; [apply gv_spaced; reflexivity|]. split; [constructor|]. vm_compute. discriminate.
Qed.
Print Assumptions amounts_are_kept_refuted.
(** Every other number is kept. *)
Theorem amounts_are_kept_partial : forall cx c r l v q,
  load_limit cx c r = Ok l -> given r v -> number_written v q -> (forall d, v = LFloat d -> exists z, dval d == inject_Z z)%Q ->
  (dval (ll_at_most l) == q)%Q.
Proof.
  intros cx c r l v q L G N W. apply limit_exact in L. destruct L as [(v' & G' & NN & A) _ _ _].
  assert (E : v' = v) by (inversion G; inversion G'; congruence). subst v'. apply amount_exact in A. unfold load_amount in A.
  assert (Z0 : forall z, (dval (mkDec z 0) == inject_Z z)%Q) by (intro z; unfold dval, Qeq, inject_Z; cbn; lia).
  inversion N; subst; cbn [amount_int] in A.
  - injection A as <- _. apply Z0.
  - injection A as <- _. rewrite Z0. destruct (W d eq_refl) as (z & E). transitivity (inject_Z z); [|symmetry; exact E]. assert (T := proj1 (cut_exact (dval d) _) eq_refl). set (i := int_of_Q (dval d)) in *. clearbody i. destruct T as [P M].
    assert (X : i = z); [|rewrite X; reflexivity]. destruct (Qlt_le_dec (dval d) 0) as [H|H]; [destruct (M H) as [B C]|destruct (P H) as [B C]]; rewrite E in B, C; rewrite <- Zlt_Qlt in *; rewrite <- Zle_Qle in *; lia.
  - assert (X : load_amount (LStr s) = Ok (mkDec z 0, Courses)) by (apply amount_exact; econstructor; eassumption). unfold load_amount in X. cbn [amount_int] in X. rewrite X in A. injection A as <- _. apply Z0.
  - assert (X : amount_of (LStr s) (ll_at_most l) (ll_what l)) by (apply amount_exact; exact A). inversion X as [| | | |? t z TR NT|? n' u' d' w TW DT U]; subst.
    + exfalso. exact (two_words_no_number _ _ _ _ _ H TR NT).
    + destruct (two_words_unique _ _ _ _ _ H TW) as [<- <-]. rewrite (decimal_unique _ _ _ H0 DT). reflexivity.
Qed.
Print Assumptions amounts_are_kept_partial.

(** ** C123: conditional limits *)
(** The data asks for a conditional clause to be refused, but it is accepted. *)
Theorem conditional_limits_are_refused_refuted : exists cx c r x t e l, rl_where r = Some (WIf x t e) /\ load_limit cx c r = Ok l.
Proof.
  exists empty_ctx, (mkConst 2016 2 (inl "") "130"), (mkRawLimit (Some (LInt 1)) None None (Some (WIf (XFun FHasDeclaredAreaCode "130") (WKeys [("subject", mkClause [(OEq, VS (SStr "ART"))] None)]) None)) None false).
  eexists _, _, _, _. split; [reflexivity|]. vm_compute. reflexivity.
Qed.
Print Assumptions conditional_limits_are_refused_refuted.
(** What it means: the condition is settled when the limit is read, and the limit restricts the
    courses of the chosen branch, or none if there is no other branch. *)
Theorem conditional_limits_choose_once_partial : forall cx c r x t e l,
  rl_where r = Some (WIf x t e) -> load_limit cx c r = Ok l ->
  exists cond, load_expr cx x = Ok cond /\
    if truthy (e_result cond) then exists p, load_predicate cx c DtCourse t = Ok p /\ forall k, apply_pred (ICourse k) (ll_where l) = apply_pred (ICourse k) p
    else match e with
         | Some w => exists p, load_predicate cx c DtCourse w = Ok p /\ forall k, apply_pred (ICourse k) (ll_where l) = apply_pred (ICourse k) p
         | None => forall k, apply_pred (ICourse k) (ll_where l) = Ok false
         end.
Proof.
  intros cx c r x t e l W L. apply limit_exact in L. destruct L as [_ _ (w & W' & P & _) _]. rewrite W in W'. injection W' as <-. cbn [load_predicate] in P.
  apply bind_iff in P. destruct P as (cond & C & P). apply bind_iff in P. destruct P as (pt & T & P). apply bind_iff in P. destruct P as (pe & E & P). injection P as P. exists cond. split; [exact C|]. rewrite <- P.
  cbn [apply_pred]. destruct (truthy (e_result cond)); [exists pt; auto|]. destruct e as [w|]; [|injection E as <-; reflexivity].
  apply bind_iff in E. destruct E as (q & Q & E). injection E as <-. exists q. auto.
Qed.
Print Assumptions conditional_limits_choose_once_partial.

(** ** C124: limits are a set of conditions *)
Definition whole_courses (l : limit) : Prop := lm_what l = Courses /\ exists k, (dval (lm_at_most l) == inject_Z (Z.of_nat k))%Q.
(** what a selection has to satisfy *)
Record admissible (F : list string) (ls : list limit) (cs v : list course) : Prop := {
  ad_from : forall c, In c v -> In c cs;
  ad_rest : forall c, In c cs -> ~ removable F ls c -> In c v;
  ad_limits : forall l, In l ls -> (count (restricted F l v) <= dval (lm_at_most l))%Q }.
Lemma restricted_perm F l a b : Permutation a b -> Permutation (restricted F l a) (restricted F l b).
Proof.
  unfold restricted. induction 1 as [|x a b P IH|x y a|a b d P1 IH1 P2 IH2]; cbn [filter]; [constructor| | |eapply perm_trans; eassumption].
  - destruct (_ && _); [constructor|]; assumption.
  - destruct (negb (existsb _ _) && _) eqn:A, (negb (existsb (String.eqb (c_clbid x)) F) && _) eqn:B; try apply Permutation_refl. constructor.
Qed.
Lemma count_perm a b : Permutation a b -> count a = count b.
Proof. intro P. unfold count. rewrite (Permutation_length P). reflexivity. Qed.
(** The selections that are tried with limits on courses are exactly the admissible ones. *)
Theorem course_limited_selections_exact : forall ord ls F cs s, set_order ord -> distinct ls -> ls <> [] ->
  (forall l, In l ls -> whole_courses l) -> (forall l c, In l ls -> In c cs -> ~ forced F c -> decided l c) -> NoDup s ->
  ((exists v, In v (g_items (limited_transcripts ord ls F cs)) /\ same_set v s) <-> admissible F ls cs s).
Proof.
  intros ord ls F cs s O D NE W DC N. assert (CO := distinct_coherent ls D). split.
  - intros (v & V & E). destruct (limits_only_remove_limited_courses ord ls F cs v O CO NE V) as (NV & _ & SUB & FO & UN).
    assert (P : Permutation v s) by (apply NoDup_Permutation; assumption). constructor.
    + intros c I. apply SUB. apply E. exact I.
    + intros c I NR. apply E. destruct (in_dec string_dec (c_clbid c) F) as [H|H]; [apply FO; assumption|]. apply UN; [exact I|]. intros l L M. apply NR. split; [exact H|eauto].
    + intros l L. destruct (W l L) as (C & k & K). assert (H := at_most_k_courses ord ls F cs l v k O CO L C K V). rewrite <- (count_perm _ _ (restricted_perm F l _ _ P)), K. unfold count. rewrite <- Zle_Qle. lia.
  - intros [FR RE LI]. destruct (limits_lose_no_admissible_selection ord ls F cs O D NE) as [_ H]; [|exact DC|].
    { intros l L. destruct (W l L) as (C & k & K). split; [exact C|]. rewrite K. change 0%Q with (inject_Z 0). rewrite <- Zle_Qle. lia. }
    set (rm := fun c => negb (existsb (String.eqb (c_clbid c)) F) && existsb (fun l => match apply_pred (ICourse c) (lm_where l) with Ok b => b | Err _ => false end) ls).
    assert (RM : forall c, rm c = true <-> removable F ls c).
    { intro c. unfold rm, removable, forced. rewrite andb_true_iff, negb_true_iff, existsb_exists. split; intros [A B]; split.
      - intro I. assert (X : existsb (String.eqb (c_clbid c)) F = true) by (apply existsb_exists; exists (c_clbid c); split; [exact I|apply String.eqb_refl]). congruence.
      - destruct B as (l & L & M). exists l. split; [exact L|]. unfold matches. destruct (apply_pred _ _) as [b|]; [subst; reflexivity|discriminate].
      - destruct (existsb (String.eqb (c_clbid c)) F) eqn:X; [|reflexivity]. apply existsb_exists in X. destruct X as (y & Y & EQ). apply String.eqb_eq in EQ. subst y. contradiction.
      - destruct B as (l & L & M). exists l. split; [exact L|]. unfold matches in M. rewrite M. reflexivity. }
    destruct (H (filter rm s)) as (v & V & E).
    + apply NoDup_filter. exact N.
    + intros c I. apply filter_In in I. destruct I as [I R]. split; [apply FR; exact I|apply RM; exact R].
    + intros l L. assert (E : restricted F l (filter rm s) = restricted F l s).
      { unfold restricted. clear - L. induction s as [|c s IH]; [reflexivity|]. cbn [filter]. destruct (rm c) eqn:R; cbn [filter]; [rewrite IH; reflexivity|].
        rewrite IH. replace (negb (existsb (String.eqb (c_clbid c)) F) && match apply_pred (ICourse c) (lm_where l) with Ok b => b | Err _ => false end) with false; [reflexivity|]. symmetry.
        unfold rm in R. apply andb_false_iff in R. destruct R as [R|R]; [rewrite R; reflexivity|]. apply andb_false_iff. right.
        destruct (match apply_pred (ICourse c) (lm_where l) with Ok b => b | Err _ => false end) eqn:X; [|reflexivity]. rewrite <- R. symmetry. apply existsb_exists. exists l. auto. }
      rewrite E. apply LI. exact L.
    + exists v. split; [exact V|]. intro c. rewrite E. rewrite filter_In, RM. split.
      * intros [[I _]|[I NR]]; [exact I|apply RE; assumption].
      * intro I. destruct (rm c) eqn:R; [left; split; [exact I|apply RM; exact R]|right; split; [apply FR; exact I|]]. intro X. apply RM in X. congruence.
Qed.
Print Assumptions course_limited_selections_exact.
(** the same conditions, however often and in which order they are stated *)
Definition states_the_limits_of (ls ms : list limit) : Prop :=
  forall l, In l ls -> exists m, In m ms /\ (dval (lm_at_most m) == dval (lm_at_most l))%Q /\ lm_where m = lm_where l.
(** Stating course limits in another order, or again with another message, changes nothing about
    which courses may be counted together. *)
Theorem limits_stated_again_change_nothing_partial : forall ord ls ms F cs s, set_order ord -> distinct ls -> distinct ms -> ls <> [] -> ms <> [] ->
  (forall l, In l ls -> whole_courses l) -> (forall m, In m ms -> whole_courses m) ->
  (forall l c, In l ls -> In c cs -> ~ forced F c -> decided l c) ->
  states_the_limits_of ls ms -> states_the_limits_of ms ls -> NoDup s ->
  ((exists v, In v (g_items (limited_transcripts ord ls F cs)) /\ same_set v s) <->
   (exists v, In v (g_items (limited_transcripts ord ms F cs)) /\ same_set v s)).
Proof.
  intros ord ls ms F cs s O D1 D2 N1 N2 W1 W2 DC S1 S2 N. rewrite !course_limited_selections_exact; auto.
  - assert (G : forall ls ms, states_the_limits_of ls ms -> states_the_limits_of ms ls -> admissible F ls cs s -> admissible F ms cs s).
    { clear. intros ls ms S1 S2 [A B C]. constructor; [exact A| |].
      - intros c I NR. apply B; [exact I|]. intros (NF & l & L & M). apply NR. split; [exact NF|]. destruct (S1 l L) as (m & IM & _ & E). exists m. split; [exact IM|]. unfold matches. rewrite E. exact M.
      - intros m M. destruct (S2 m M) as (l & L & E & EW). specialize (C l L). rewrite E in C. unfold restricted in *. rewrite EW in C. exact C. }
    split; apply G; assumption.
  - intros m c M I NF. destruct (S2 m M) as (l & L & _ & E). unfold decided. rewrite <- E. exact (DC l c L I NF).
Qed.
Print Assumptions limits_stated_again_change_nothing_partial.

Definition one_art (message : option string) : raw_limit :=
  mkRawLimit (Some (LStr "1 course")) None None (Some (WKeys [("subject", mkClause [(OEq, VS (SStr "CSCI"))] None)])) message false.
Definition k0 : constants := mkConst 2016 2 (inl "") "130".
(** The very same limit stated again counts each course twice: at most one course becomes none. *)
Theorem limits_stated_again_change_nothing_refuted : exists cx c r ls ms ord cs,
  load_limits cx c (Some [r]) = Ok ls /\ load_limits cx c (Some [r; r]) = Ok ms /\ set_order ord /\
  (forall l, In l ls -> whole_courses l) /\ states_the_limits_of ls ms /\ states_the_limits_of ms ls /\
  g_items (limited_transcripts ord ls [] cs) = [[]; cs] /\ cs <> [] /\ g_items (limited_transcripts ord ms [] cs) = [[]].
Proof.
  exists empty_ctx, k0, (one_art None). eexists _, _, (fun l => l), [csci1]. split; [vm_compute; reflexivity|]. split; [vm_compute; reflexivity|]. split; [intro; reflexivity|].
  split; [intros l [<-|[]]; split; [reflexivity|exists 1%nat; reflexivity]|]. split; [intros l [<-|[]]; eexists; split; [left; reflexivity|split; reflexivity]|].
  split; [intros l [<-|[<-|[]]]; eexists; (split; [left; reflexivity|split; reflexivity])|]. split; [vm_compute; reflexivity|]. split; [discriminate|vm_compute; reflexivity].
Qed.
Print Assumptions limits_stated_again_change_nothing_refuted.

(** ** Examples *)
Example amounts_example :
  map load_amount [LInt 2; LStr "1 course"; LStr " 3 "; LStr "1.5 credits"; LStr "-.5	credit "; LStr "courses"; LStr "2 units"; LNull; LBool true] =
    [Ok (mkDec 2 0, Courses); Ok (mkDec 1 0, Courses); Ok (mkDec 3 0, Courses); Ok (mkDec 15 (-1), Credits); Ok (mkDec (-5) (-1), Credits); Err ValueErr; Err ValueErr; Err TypeErr; Ok (mkDec 1 0, Courses)].
Proof. vm_compute. reflexivity. Qed.
Example limits_loaded_example :
  (match load_limits empty_ctx k0 (Some [one_art None; one_art (Some "a"); one_art None]) with Ok ls => map lm_id ls | Err _ => [] end) = [0; 1; 0]%nat /\
  load_limits empty_ctx k0 (Some [mkRawLimit (Some LNull) (Some (LInt 1)) None (rl_where (one_art None)) None false]) = Err OtherErr /\
  load_limits empty_ctx k0 (Some [mkRawLimit None (Some (LInt 1)) None (rl_where (one_art None)) None true]) = Err AssertErr /\
  load_limits empty_ctx k0 (Some [mkRawLimit None (Some (LInt 1)) None None None false]) = Err KeyErr /\
  load_limits empty_ctx k0 None = Ok [].
Proof. repeat split; vm_compute; reflexivity. Qed.
(** two limits with different messages: the stated limits hold *)
Example stated_limits_example : exists ls r l,
  let raws := [one_art None; one_art (Some "a")] in
  load_limits empty_ctx k0 (Some raws) = Ok ls /\
  (forall all, Forall2 (limit_of empty_ctx k0) raws all -> ForallOrdPairs (fun x y => ~ same_key x y) all) /\
  In [csci1; math1] (g_items (limited_transcripts (fun l => l) ls [] [csci1; csci2; math1])) /\
  In r raws /\ limit_of empty_ctx k0 r l /\ ll_what l = Courses /\ (dval (ll_at_most l) == inject_Z (Z.of_nat 1))%Q.
Proof.
  eexists _, (one_art None), _. cbv zeta. split; [vm_compute; reflexivity|]. split; [intros all; apply different_messages; repeat constructor; simpl; intuition congruence|].
  split; [vm_compute; auto|]. split; [left; reflexivity|]. split; [apply limit_exact; vm_compute; reflexivity|]. split; reflexivity.
Qed.
(** and the limit stated with a message and without one leaves the same choice *)
Example stated_again_example : exists ls ms,
  load_limits empty_ctx k0 (Some [one_art None]) = Ok ls /\ load_limits empty_ctx k0 (Some [one_art None; one_art (Some "a")]) = Ok ms /\
  distinct ls /\ distinct ms /\ (forall l, In l ls -> whole_courses l) /\ (forall m, In m ms -> whole_courses m) /\
  (forall l c, In l ls -> In c [csci1; math1] -> ~ forced [] c -> decided l c) /\ states_the_limits_of ls ms /\ states_the_limits_of ms ls /\
  admissible [] ls [csci1; math1] [csci1; math1].
Proof.
  eexists _, _. split; [vm_compute; reflexivity|]. split; [vm_compute; reflexivity|]. split; [repeat constructor; simpl; intuition congruence|]. split; [repeat constructor; simpl; intuition congruence|].
  split; [intros l [<-|[]]; split; [reflexivity|exists 1%nat; reflexivity]|]. split; [intros l [<-|[<-|[]]]; (split; [reflexivity|exists 1%nat; reflexivity])|].
  split; [intros l c [<-|[]] [<-|[<-|[]]] _; eexists; vm_compute; reflexivity|]. split; [intros l [<-|[]]; eexists; (split; [left; reflexivity|split; reflexivity])|].
  split; [intros l [<-|[<-|[]]]; eexists; (split; [left; reflexivity|split; reflexivity])|]. constructor; [auto|auto|]. intros l [<-|[]]. vm_compute. discriminate.
Qed.
(** a conditional limit whose condition fails restricts nothing *)
Example conditional_limit_example :
  let r := mkRawLimit (Some (LInt 0)) None None (Some (WIf (XFun FHasDeclaredAreaCode "130") (WKeys [("subject", mkClause [(OEq, VS (SStr "CSCI"))] None)]) None)) None false in
  match load_limit empty_ctx k0 r with Ok l => apply_pred (ICourse csci1) (ll_where l) = Ok false | Err _ => False end.
Proof. vm_compute. reflexivity. Qed.
