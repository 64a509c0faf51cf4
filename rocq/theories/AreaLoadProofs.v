(** Proofs about loading areas of study. *)
From Coq Require Import List ZArith QArith Bool String Lia.
From Verif Require Import Transcript Prelude Dec Status Course Claims Exceptions Op Context CondExpr Predicate Limit Assertion Query CourseRule Tree Driver Area Loader AreaLoad.
From Verif Require Import TreeSpec TreeSolSpec TreeAskSpec AreaSpec LoaderSpec AreaLoadSpec AreaOnceSpec.
From Verif Require Import ClaimsProofs PredicateProofs ExceptionsProofs TreeSolProofs TreeProofs AreaProofs LoaderProofs LoaderProps.
Import ListNotations.
Local Open Scope string_scope.
Local Open Scope list_scope.

(** ** Classes kept out *)
Lemma c_without_nil r : c_without r [] = r.
Proof. destruct r. unfold c_without. cbn. rewrite app_nil_r. reflexivity. Qed.
Lemma c_without_app r a b : c_without (c_without r a) b = c_without r (a ++ b).
Proof. destruct r. unfold c_without. cbn. rewrite app_assoc. reflexivity. Qed.
Lemma q_without_app q a b : q_without (q_without q a) b = q_without q (a ++ b).
Proof. destruct q. unfold q_without. cbn. rewrite app_assoc. reflexivity. Qed.
Lemma keep_out_ext ks f g n : (forall p, f p = g p) -> keep_out ks f n = keep_out ks g n.
Proof.
  intro H. induction n as [k r|k q|k i items IH|k i o IH|k i t fo IHt IHf|k i c] using node_induction; cbn [keep_out]; try reflexivity.
  - now rewrite H.
  - now rewrite H.
  - f_equal. apply map_ext_in. exact IH.
  - f_equal. destruct o as [x|]; [|reflexivity]. f_equal. apply IH. reflexivity.
  - f_equal; [exact IHt|]. destruct fo as [x|]; [|reflexivity]. f_equal. apply IHf. reflexivity.
Qed.
Lemma exclude_keeps ks n : exclude ks n = keep_out ks (fun _ => []) n.
Proof.
  induction n as [k r|k q|k i items IH|k i o IH|k i t fo IHt IHf|k i c] using node_induction; cbn [keep_out exclude]; try reflexivity.
  - now rewrite c_without_nil.
  - rewrite app_nil_r. reflexivity.
  - f_equal. apply map_ext_in. exact IH.
  - f_equal. destruct o as [x|]; [|reflexivity]. f_equal. apply IH. reflexivity.
  - f_equal; [exact IHt|]. destruct fo as [x|]; [|reflexivity]. f_equal. apply IHf. reflexivity.
Qed.
Lemma block_keeps p k ks f n : block p k (keep_out ks f n) = keep_out ks (fun q => f q ++ if list_eq_dec string_dec p q then [k] else []) n.
Proof.
  induction n as [kd r|kd q|kd i items IH|kd i o IH|kd i t fo IHt IHf|kd i c] using node_induction; cbn [keep_out block]; try reflexivity.
  - f_equal. unfold c_block. cbn [r_path c_without]. destruct (list_eq_dec string_dec p (r_path r)) as [E|E].
    + rewrite (proj2 (path_eqb_iff (r_path r) p)) by auto. unfold c_without. cbn. rewrite <- app_assoc. reflexivity.
    + destruct (path_eqb (r_path r) p) eqn:X; [apply path_eqb_iff in X; congruence|]. rewrite app_nil_r. reflexivity.
  - f_equal. unfold q_block. cbn [q_path q_without]. destruct (list_eq_dec string_dec p (q_path q)) as [E|E].
    + rewrite (proj2 (path_eqb_iff (q_path q) p)) by auto. unfold q_without, q_exclude. cbn. rewrite <- !app_assoc. reflexivity.
    + destruct (path_eqb (q_path q) p) eqn:X; [apply path_eqb_iff in X; congruence|]. rewrite app_nil_r. reflexivity.
  - f_equal. rewrite map_map. apply map_ext_in. exact IH.
  - f_equal. destruct o as [x|]; [|reflexivity]. f_equal. apply IH. reflexivity.
  - f_equal; [exact IHt|]. destruct fo as [x|]; [|reflexivity]. f_equal. apply IHf. reflexivity.
Qed.
Lemma blocked_keeps es ks f n : blocked es (keep_out ks f n) = keep_out ks (fun p => f p ++ blocks_at es p) n.
Proof.
  revert f. induction es as [|e es IH]; intro f; cbn [blocked fold_left].
  - apply keep_out_ext. intro p. cbn. now rewrite app_nil_r.
  - unfold blocked in IH. destruct (ex_act e) eqn:E.
    all: try (rewrite IH; apply keep_out_ext; intro p; unfold blocks_at; cbn [flat_map]; rewrite E; reflexivity).
    rewrite block_keeps, IH. apply keep_out_ext. intro p. unfold blocks_at. cbn [flat_map]. rewrite E, <- app_assoc. reflexivity.
Qed.
Lemma result_kept es ks n : blocked es (exclude ks n) = keep_out ks (blocks_at es) n.
Proof. rewrite exclude_keeps, blocked_keeps. apply keep_out_ext. reflexivity. Qed.

Lemma part_keep ks f n m : part_of (keep_out ks f n) m <-> exists m0, part_of n m0 /\ m = keep_out ks f m0.
Proof.
  split.
  - remember (keep_out ks f n) as b. intro P. revert n Heqb. induction P as [b|kd i items x y I P IH|kd i x y P IH|kd i t fo y P IH|kd i t x y P IH]; intros n E.
    + exists n. split; [constructor|exact E].
    + destruct n; try discriminate E. injection E as -> -> ->. apply in_map_iff in I. destruct I as [z [<- I]]. destruct (IH z eq_refl) as [m0 [P0 ->]]. exists m0. split; auto. eapply pt_count; eauto.
    + destruct n as [| | |? ? [z|]| |]; try discriminate E. injection E as -> -> ->. destruct (IH z eq_refl) as [m0 [P0 ->]]. exists m0. split; auto. apply pt_req; auto.
    + destruct n; try discriminate E. injection E as -> -> -> _. destruct (IH _ eq_refl) as [m0 [P0 ->]]. exists m0. split; auto. apply pt_true; auto.
    + destruct n as [| | | |? ? ? [z|]|]; try discriminate E. injection E as -> -> -> ->. destruct (IH _ eq_refl) as [m0 [P0 ->]]. exists m0. split; auto. apply pt_false; auto.
  - intros [m0 [P ->]]. induction P; cbn [keep_out]; [apply pt_self|eapply pt_count; [apply in_map; eassumption|assumption]|apply pt_req; auto|apply pt_true; auto|apply pt_false; auto].
Qed.
Lemma kind_keep ks f n : kind_of (keep_out ks f n) = kind_of n.
Proof. destruct n; reflexivity. Qed.
Lemma path_keep ks f n : path_of (keep_out ks f n) = path_of n.
Proof. destruct n; reflexivity. Qed.
Lemma places_keep ks f n : places (keep_out ks f n) = places n.
Proof.
  induction n as [k r|k q|k i items IH|k i o IH|k i t fo IHt IHf|k i c] using node_induction; cbn [keep_out places]; try reflexivity.
  - f_equal. induction items as [|x l IHl]; [reflexivity|]. cbn. rewrite IH by (left; reflexivity). f_equal. apply IHl. intros y Y. apply IH. right. exact Y.
  - f_equal. destruct o as [x|]; [|reflexivity]. apply IH. reflexivity.
  - f_equal. rewrite IHt. f_equal. destruct fo as [x|]; [|reflexivity]. apply IHf. reflexivity.
Qed.
Lemma heads_keep ks f n m : heads (keep_out ks f n) m -> exists m0, heads n m0 /\ m = keep_out ks f m0.
Proof.
  remember (keep_out ks f n) as b. intro H. revert n Heqb. induction H as [b|k i t fo x y F H IH]; intros n E.
  - exists n. split; [constructor|exact E].
  - destruct n as [| | | |k' i' t' fo'|]; try discriminate E. injection E as -> -> -> ->. inversion F; subst.
    + destruct (IH t' eq_refl) as (m0 & HH & ->). exists m0. split; [|reflexivity]. eapply hd_branch; [apply if_true; assumption|exact HH].
    + destruct fo' as [z|]; [|discriminate]. match goal with X : Some _ = Some _ |- _ => injection X as <- end.
      destruct (IH z eq_refl) as (m0 & HH & ->). exists m0. split; [|reflexivity]. eapply hd_branch; [eapply if_false; [assumption|reflexivity]|exact HH].
Qed.
Lemma heads_part n m : heads n m -> part_of n m.
Proof.
  induction 1 as [n|k i t fo x y F H IH]; [constructor|]. inversion F; subst; [apply pt_true|apply pt_false]; assumption.
Qed.

(** ** Dictionaries *)
Lemma firsts_once l a b : firsts l a -> firsts l b -> a = b.
Proof.
  intro H. revert b. induction H as [|x l l' H IH N|x l l' H IH N]; intros b B.
  - inversion B as [E|y m m' _ _ E|y m m' _ _ E]; subst; [reflexivity| |]; destruct m; discriminate E.
  - inversion B as [E|y m m' B' N' E|y m m' B' N' E]; subst; [destruct l; discriminate E| |]; apply app_inj_tail in E; destruct E as [-> ->]; [f_equal; auto|contradiction].
  - inversion B as [E|y m m' B' N' E|y m m' B' N' E]; subst; [destruct l; discriminate E| |]; apply app_inj_tail in E; destruct E as [-> ->]; [contradiction|auto].
Qed.
Lemma firsts_ok l a : firsts l a -> NoDup a /\ forall x, In x a <-> In x l.
Proof.
  induction 1 as [|x l l' H [N M] X|x l l' H [N M] X].
  - split; [constructor|reflexivity].
  - split; [apply NoDup_snoc; [exact N|rewrite M; exact X]|]. intro y. rewrite !in_app_iff, M. reflexivity.
  - split; [exact N|]. intro y. rewrite in_app_iff, M. cbn. split; [auto|]. intros [?|[<-|[]]]; auto.
Qed.
Lemma dget_nodup {A} (d : list (string * A)) k v : NoDup (map fst d) -> In (k, v) d -> dget d k = Some v.
Proof.
  induction d as [|[k0 v0] d IH]; cbn; intros N I; [contradiction|]. inversion N; subst. destruct (String.eqb_spec k k0) as [->|NE].
  - destruct I as [[= ->]|I]; [reflexivity|]. exfalso. match goal with X : ~ In _ _ |- _ => apply X end. apply in_map_iff. exists (k0, v). auto.
  - destruct I as [[= -> ->]|I]; [congruence|auto].
Qed.
Lemma dset_in {A} (d : list (string * A)) k v k' v' : NoDup (map fst d) -> In (k', v') (dset d k v) -> (k' = k /\ v' = v) \/ (k' <> k /\ In (k', v') d).
Proof.
  intros N H. assert (ND : NoDup (map fst (dset d k v))).
  { rewrite dset_keys. destruct (dget d k) eqn:E; [exact N|]. apply dget_None_notin in E. apply NoDup_snoc; auto. }
  assert (G : dget (dset d k v) k' = Some v') by (apply dget_nodup; assumption).
  destruct (String.eqb_spec k' k) as [->|NE].
  - rewrite dget_dset_same in G. injection G as ->. auto.
  - right. split; [exact NE|]. rewrite dget_dset_other in G by auto. apply dget_Some_in. exact G.
Qed.
Lemma dictionary_made {A} (xs : list (string * A)) : dictionary xs (fold_left (fun d x => dset d (fst x) (snd x)) xs []).
Proof.
  induction xs as [|[k v] xs [F V]] using rev_ind; [split; [constructor|intros k b []]|].
  rewrite fold_left_app. cbn [fold_left fst snd]. set (d := fold_left _ xs []) in *. destruct (firsts_ok _ _ F) as [N M]. split.
  - rewrite map_app, dset_keys. cbn [map fst]. destruct (dget d k) eqn:E.
    + apply fs_old; [exact F|]. apply M. apply dget_Some_in in E. apply in_map_iff. exists (k, a). auto.
    + apply fs_new; [exact F|]. apply dget_None_notin in E. rewrite <- M. exact E.
  - intros k' b I. apply dset_in in I; [|exact N]. destruct I as [[-> ->]|[NE I]].
    + exists xs, []. split; [reflexivity|]. intros [].
    + destruct (V k' b I) as (pre & post & -> & P). exists pre, (post ++ [(k, v)]). rewrite <- app_assoc. split; [reflexivity|].
      rewrite map_app, in_app_iff. cbn. intros [?|[?|[]]]; [auto|congruence].
Qed.
Lemma last_value {A} (k : string) : forall pre (a : A) post pre' a' post', pre ++ (k, a) :: post = pre' ++ (k, a') :: post' ->
  ~ In k (map fst post) -> ~ In k (map fst post') -> a = a'.
Proof.
  induction pre as [|x pre IH]; intros a post [|y pre'] a' post' E N N'; cbn in E.
  - now injection E.
  - injection E as <- E. exfalso. apply N. rewrite E, map_app, in_app_iff. right. left. reflexivity.
  - injection E as -> E. exfalso. apply N'. rewrite <- E, map_app, in_app_iff. right. left. reflexivity.
  - injection E as _ E. eauto.
Qed.
Lemma dictionary_once {A} (xs d d' : list (string * A)) : dictionary xs d -> dictionary xs d' -> d = d'.
Proof.
  intros [F V] [F' V']. assert (K := firsts_once _ _ _ F F'). clear F F'. revert d' V' K. induction d as [|[k v] d IH]; intros [|[k' v'] d'] V' K; try discriminate; [reflexivity|].
  cbn in K. injection K as <- K. destruct (V k v) as (p & q & E & N); [left; reflexivity|]. destruct (V' k v') as (p' & q' & E' & N'); [left; reflexivity|].
  rewrite E in E'. rewrite (last_value k _ _ _ _ _ _ E' N N'). f_equal. apply IH; [|intros; apply V'; right; assumption|exact K]. intros. apply V. right. assumption.
Qed.

(** ** Emphases *)
Lemma mapr_iff {A B} (f : A -> res B) l r : mapr f l = Ok r <-> Forall2 (fun x y => f x = Ok y) l r.
Proof.
  split; [apply mapr_ok|]. induction 1 as [|x y l r E F IH]; [reflexivity|]. cbn. rewrite E. cbn [bind]. rewrite IH. reflexivity.
Qed.
Lemma has_some {A} (o : option A) : has o = true <-> o <> None.
Proof. destruct o; cbn; split; congruence. Qed.
Lemma lists_iff b l d : rb_result b = Some d ->
  (lists_requirements b l <-> exists k, rd_count d = Some k /\ rk_all k = Some l /\ has (rk_audit k) = false /\ forallb (fun r => has (rd_req r) || has (rd_name r)) l = true).
Proof.
  intro E. split.
  - intros (d' & k & D & C & L & A & H). assert (d' = d) by congruence. subst d'. exists k. split; [exact C|]. split; [exact L|]. split; [now rewrite A|].
    apply forallb_forall. intros x X. apply orb_true_iff. rewrite !has_some. auto.
  - intros (k & C & L & A & H). exists d, k. split; [exact E|]. split; [exact C|]. split; [exact L|]. split; [destruct (rk_audit k); [discriminate A|reflexivity]|].
    intros x X. rewrite forallb_forall in H. specialize (H x X). apply orb_true_iff in H. rewrite !has_some in H. exact H.
Qed.
Section Additions.
  Variables (cx : ctx) (c : constants) (tm : list (string * list template)).
  Lemma additions_parts name xs : additions cx c tm (map (fun x : string * rbody => (name, part_key name (fst x), snd x)) xs) =
    map (fun x => let k := part_key name (fst x) in (name, k, load_body cx c tm (snd x) k)) xs.
  Proof. unfold additions. rewrite map_map. reflexivity. Qed.
  Lemma named_all l xs : mapr (fun r => match rd_name r with Some x => Ok x | None => Err KeyErr end) l = Ok xs <-> Forall2 (fun r x => rd_name r = Some x) l xs.
  Proof.
    rewrite mapr_iff. split; intro F; eapply AreaProofs.Forall2_imp; try exact F; cbn; intros r x H; destruct (rd_name r); congruence.
  Qed.
  Lemma additions_of_exact e l : additions_of cx c tm e = Ok l <-> exists adds, emphasis_adds e adds /\ l = additions cx c tm adds.
  Proof.
    unfold additions_of. destruct (em_name e) as [name|] eqn:EN; cbn [bind]; [|split; [discriminate|intros (adds & A & _); inversion A; congruence]].
    destruct (rb_result (em_body e)) as [d|] eqn:ER; cbn [bind].
    2: { split; [discriminate|]. intros (adds & A & _). inversion A as [n0 l0 r0 _ (d0 & k0 & X & _)|n0 l0 x0 d1 _ (d0 & k0 & X & _)|]; congruence. }
    assert (LI := fun l => lists_iff (em_body e) l d ER).
    set (all := match rd_count d with Some k => rk_all k | None => None end).
    set (post := match rd_count d with Some k => negb (has (rk_audit k)) | None => true end).
    set (reqd := match all with Some l => forallb _ l | None => false end).
    assert (LB : post && reqd = true <-> exists l, all = Some l /\ lists_requirements (em_body e) l).
    { split.
      - intro H. apply andb_true_iff in H. destruct H as [P R]. unfold reqd in R. destruct all as [l0|] eqn:AL; [|discriminate]. exists l0. split; [reflexivity|].
        apply LI. unfold all in AL. unfold post in P. destruct (rd_count d) as [k|]; [|discriminate]. exists k. apply negb_true_iff in P. auto.
      - intros (l0 & AL & H). apply LI in H. destruct H as (k & C & L & A & H). unfold reqd. rewrite AL. unfold post. rewrite C, A. cbn. exact H. }
    assert (AL : forall l0, lists_requirements (em_body e) l0 -> all = Some l0).
    { intros l0 H. apply LI in H. destruct H as (k & C & L & _). unfold all. rewrite C. exact L. }
    destruct (rb_reqs (em_body e)) as [reqs|] eqn:RR; cbn [has bind].
    - cbn [andb]. destruct (post && reqd) eqn:B; cbn [bind].
      + destruct (proj1 LB eq_refl) as (l0 & A0 & H0). split.
        * intros [= <-]. eexists. split; [eapply ea_declared; eauto|]. rewrite additions_parts. reflexivity.
        * intros (adds & A & ->). inversion A as [n0 l1 r0 X Y Z|n0 l1 x0 d1 X Y Z|n0 d0 X Y Z]; subst; try congruence.
          -- rewrite additions_parts. assert (n0 = name) by congruence. assert (r0 = reqs) by congruence. subst. reflexivity.
          -- destruct Z as [[_ Z]|[Z _]]; [|congruence]. exfalso. eapply Z, H0.
      + assert (NL : forall l0, ~ lists_requirements (em_body e) l0) by (intros l0 H; assert (false = true) by (apply LB; eauto); discriminate).
        split.
        * intros [= <-]. eexists. split; [eapply ea_whole; eauto; left; split; [congruence|exact NL]|reflexivity].
        * intros (adds & A & ->). inversion A as [n0 l1 r0 X Y Z|n0 l1 x0 d1 X Y Z|n0 d0 X Y Z]; subst; try (exfalso; eapply NL; eassumption). assert (n0 = name) by congruence. subst. reflexivity.
    - destruct all as [l0|] eqn:EA; cbn [bind].
      2: { split; [discriminate|]. intros (adds & A & _). inversion A as [n0 l1 r0 X Y Z|n0 l1 x0 d1 X Y Z|n0 d0 X Y Z]; subst; try (apply AL in Y; discriminate).
           destruct Z as [[Z _]|[_ (k & l1 & C & L & _)]]; [congruence|]. assert (d0 = d) by congruence. subst d0. unfold all in EA. rewrite C in EA. congruence. }
      assert (KA : exists k, rd_count d = Some k /\ rk_all k = Some l0) by (unfold all in EA; destruct (rd_count d) as [k|]; [eauto|discriminate]).
      destruct KA as (k0 & KC & KL).
      destruct (existsb (fun r => has (rd_name r)) l0 && post && reqd) eqn:B.
      + rewrite <- andb_assoc in B. apply andb_true_iff in B. destruct B as [EX B]. destruct (proj1 LB B) as (l1 & [= <-] & H0).
        apply existsb_exists in EX. destruct EX as (x & IX & NX). apply has_some in NX.
        split.
        * destruct (mapr _ l0) as [xs|] eqn:M; cbn [bind]; [|discriminate]. intros [= <-]. apply named_all in M. eexists. split.
          -- eapply (ea_written e name l0 xs); eauto; [intros ->; destruct IX|apply dictionary_made].
          -- rewrite additions_parts. reflexivity.
        * intros (adds & A & ->). inversion A as [n0 l1 r0 X Y Z|n0 l1 xs d1 X Y Z W F D|n0 d0 X Y Z]; subst; try congruence.
          -- assert (n0 = name) by congruence. assert (l1 = l0) by (apply AL in Y; congruence). subst. apply named_all in F. rewrite F. cbn [bind].
             rewrite (dictionary_once _ _ _ (dictionary_made xs) D), additions_parts. reflexivity.
          -- destruct Z as [[Z _]|[_ (k & l1 & C & L & Z)]]; [congruence|]. assert (d0 = d) by congruence. subst d0. assert (l1 = l0) by congruence. subst. destruct Z as [Z|Z]; [exfalso; apply NX, Z, IX|contradiction].
      + split.
        * intro HL. injection HL as <-. exists [(name, emphasis_key name, em_body e)]. split; [|reflexivity]. eapply (ea_whole e name d); eauto. right. split; [exact RR|]. exists k0, l0. split; [exact KC|]. split; [exact KL|].
          rewrite <- andb_assoc in B. apply andb_false_iff in B. destruct B as [B|B].
          -- left. intros x X. destruct (rd_name x) eqn:NX; [|reflexivity]. exfalso. rewrite <- not_true_iff_false in B. apply B. apply existsb_exists. exists x. now rewrite NX.
          -- right. intro H. rewrite <- not_true_iff_false in B. apply B, LB. eauto.
        * intros (adds & A & ->). inversion A as [n0 l1 r0 X Y Z|n0 l1 xs d1 X Y Z W F D|n0 d0 X Y Z]; subst; try congruence.
          -- exfalso. rewrite <- not_true_iff_false in B. apply B. rewrite <- andb_assoc. apply andb_true_iff. split; [|apply LB; exists l0; split; [reflexivity|]; assert (l1 = l0) by (apply AL in Y; congruence); subst; exact Y].
             assert (l1 = l0) by (apply AL in Y; congruence). subst. inversion F as [|r x' ? ? R]; subst; [congruence|]. cbn. rewrite R. reflexivity.
          -- assert (n0 = name) by congruence. subst. reflexivity.
  Qed.
End Additions.
Section Top.
  Variables (cx : ctx) (c : constants) (tm : list (string * list template)).
  Lemma load_rule_no_count d a a' env p : (forall k, ~ first_shape d (ShCount k)) -> load_rule cx c tm d a env p = load_rule cx c tm d a' env p.
  Proof.
    intro H. rewrite !load_rule_eq. destruct (rd_prof d) eqn:E1; [reflexivity|]. destruct (rd_course d) eqn:E2; [reflexivity|]. destruct (rd_query d) eqn:E3; [reflexivity|].
    destruct (rd_cond d) eqn:E4; [reflexivity|]. destruct (rd_count d) as [k|] eqn:E5; [|reflexivity]. exfalso. apply (H k). cbn. auto 6.
  Qed.
  Lemma load_rule_count d k e env p : first_shape d (ShCount k) -> exists e', load_rule cx c tm d (Err e) env p = Err e'.
  Proof.
    intros (E1 & E2 & E3 & E4 & E5). rewrite load_rule_eq, E1, E2, E3, E4, E5. unfold load_count.
    destruct (match rk_items k with Some l => _ | None => _ end); cbn [bind some_node]; eauto.
  Qed.
  Lemma shape_dec d : (exists k, first_shape d (ShCount k)) \/ (forall k, ~ first_shape d (ShCount k)).
  Proof.
    cbn. destruct (rd_prof d); [right; intros k X; intuition discriminate|]. destruct (rd_course d); [right; intros k X; intuition discriminate|].
    destruct (rd_query d); [right; intros k X; intuition discriminate|]. destruct (rd_cond d); [right; intros k X; intuition discriminate|].
    destruct (rd_count d) as [k|]; [left; exists k; auto 6|right; intros k X; intuition discriminate].
  Qed.
  Lemma additions_all ems ls : mapr (additions_of cx c tm) ems = Ok ls <-> exists adds, Forall2 emphasis_adds ems adds /\ ls = map (additions cx c tm) adds.
  Proof.
    rewrite mapr_iff. split.
    - induction 1 as [|e l ems ls E F (adds & A & ->)]; [exists []; split; [constructor|reflexivity]|]. apply additions_of_exact in E. destruct E as (a & EA & ->). exists (a :: adds). split; [constructor; assumption|reflexivity].
    - intros (adds & A & ->). induction A as [|e a ems adds E A IH]; cbn [map]; constructor; auto. apply additions_of_exact. eauto.
  Qed.
  Lemma additions_concat adds : List.concat (map (additions cx c tm) adds) = additions cx c tm (List.concat adds).
  Proof. unfold additions. now rewrite concat_map. Qed.
  Lemma load_top_exact data reqs ems n : load_top cx c tm data reqs ems = Ok n <-> top_written cx c tm data reqs ems n.
  Proof.
    unfold load_top, top_written. destruct data as [d|]; [|split; [discriminate|intros (d & adds & [=] & _)]].
    set (env := map _ (reqs_of reqs)). set (adds := bind (mapr (additions_of cx c tm) ems) _).
    assert (R : forall as' o, load_rule cx c tm d (Ok (additions cx c tm as')) env ["$"] = Ok o <-> written cx c tm as' (dget (reqs_of reqs)) d ["$"] o).
    { intros as' o. apply (loaded_exactly cx c tm as' (reqs_of reqs) d ["$"] o). }
    assert (M : load_rule cx c tm d adds env ["$"] = Ok (Some n) <->
      exists as', ((exists k, first_shape d (ShCount k)) -> Forall2 emphasis_adds ems as') /\ written cx c tm (List.concat as') (dget (reqs_of reqs)) d ["$"] (Some n)).
    { destruct (shape_dec d) as [[k K]|K].
      - destruct (mapr (additions_of cx c tm) ems) as [ls|e] eqn:ML.
        + apply additions_all in ML. destruct ML as (as' & F & ->). unfold adds. cbn [bind]. rewrite additions_concat. rewrite R. split.
          * intro W. exists as'. auto.
          * intros (as2 & F2 & W). assert (X : mapr (additions_of cx c tm) ems = Ok (map (additions cx c tm) as')) by (apply additions_all; eauto).
            assert (Y : mapr (additions_of cx c tm) ems = Ok (map (additions cx c tm) as2)) by (apply additions_all; exists as2; split; [apply F2; eauto|reflexivity]).
            rewrite X in Y. injection Y as Y. apply R. rewrite <- additions_concat, Y, additions_concat. apply R. exact W.
        + split.
          * intro H. unfold adds in H. cbn [bind] in H. destruct (load_rule_count d k e env ["$"] K) as [e' X]. congruence.
          * intros (as2 & F2 & W). assert (Y : mapr (additions_of cx c tm) ems = Ok (map (additions cx c tm) as2)) by (apply additions_all; exists as2; split; [apply F2; eauto|reflexivity]). congruence.
      - split.
        + intro H. exists []. split; [intros [k X]; destruct (K k X)|]. apply R. rewrite <- H. apply load_rule_no_count. exact K.
        + intros (as2 & _ & W). apply R in W. rewrite <- W. apply load_rule_no_count. exact K. }
    destruct ems as [|e ems]; [|destruct (rd_count d) as [k|] eqn:KC].
    - destruct (load_rule cx c tm d adds env ["$"]) as [[m|]|] eqn:L; cbn [bind].
      + split.
        * intros [= ->]. destruct (proj1 M eq_refl) as (as' & A & B). exists d, as'. split; [reflexivity|]. split; [congruence|]. auto.
        * intros (d' & as' & [= <-] & _ & A & B). assert (Ok (Some m) = Ok (Some n)) by (apply M; eauto). congruence.
      + split; [discriminate|]. intros (d' & as' & [= <-] & _ & A & B). assert (Ok None = Ok (Some n)) by (apply M; eauto). discriminate.
      + split; [discriminate|]. intros (d' & as' & [= <-] & _ & A & B). assert (Err e = Ok (Some n)) by (apply M; eauto). discriminate.
    - destruct (load_rule cx c tm d adds env ["$"]) as [[m|]|] eqn:L; cbn [bind].
      + split.
        * intros [= ->]. destruct (proj1 M eq_refl) as (as' & A & B). exists d, as'. split; [reflexivity|]. split; [congruence|]. auto.
        * intros (d' & as' & [= <-] & _ & A & B). assert (Ok (Some m) = Ok (Some n)) by (apply M; eauto). congruence.
      + split; [discriminate|]. intros (d' & as' & [= <-] & _ & A & B). assert (Ok None = Ok (Some n)) by (apply M; eauto). discriminate.
      + split; [discriminate|]. intros (d' & as' & [= <-] & _ & A & B). assert (Err e0 = Ok (Some n)) by (apply M; eauto). discriminate.
    - split; [discriminate|]. intros (d' & as' & [= <-] & N & _). exfalso. apply N; [discriminate|exact KC].
  Qed.
  (** what the theorems about loaded rules need *)
  Lemma top_loaded data reqs ems n : load_top cx c tm data reqs ems = Ok n ->
    exists d adds, data = Some d /\ (Forall2 emphasis_adds ems adds \/ adds = []) /\
      load_rule cx c tm d (Ok (additions cx c tm (List.concat adds))) (load_reqs cx c tm (reqs_of reqs)) ["$"] = Ok (Some n).
  Proof.
    intro H. apply load_top_exact in H. destruct H as (d & adds & E & _ & F & W). apply loaded_exactly in W. destruct (shape_dec d) as [K|K].
    - exists d, adds. auto.
    - exists d, []. split; [exact E|]. split; [auto|]. rewrite <- W. apply load_rule_no_count. exact K.
  Qed.
End Top.
(** ** Keys *)
Definition key_of (a : added) : string := snd (fst a).
Lemma app_str_inv a : forall b c d, (a ++ b = c ++ d)%string ->
  (exists s, a = c ++ s /\ d = s ++ b)%string \/ (exists s, c = a ++ s /\ b = s ++ d)%string.
Proof.
  induction a as [|x a IH]; intros b c d E; cbn in E; [right; exists c; auto|]. destruct c as [|y c]; cbn in E; [left; exists (String x a); auto|].
  injection E as -> E. destruct (IH _ _ _ E) as [(s & -> & ->)|(s & -> & ->)]; [left|right]; exists s; auto.
Qed.
Lemma str_app_inj a b c : (a ++ b = a ++ c)%string -> b = c.
Proof. induction a as [|x a IH]; cbn; intro E; [exact E|]. injection E as E. auto. Qed.
Lemma str_app_assoc a b c : ((a ++ b) ++ c = a ++ b ++ c)%string.
Proof. induction a as [|x a IH]; cbn; [reflexivity|]. now rewrite IH. Qed.
Lemma arrow_shift s j k : (" → " ++ k = s ++ " → " ++ j)%string -> s = "" \/ exists t, s = (" →" ++ t)%string.
Proof.
  intro E. destruct s as [|a s]; [auto|right]. cbn in E. injection E as <- E. destruct s as [|b s]; [discriminate E|]. cbn in E. injection E as <- E. destruct s as [|c s]; [discriminate E|]. cbn in E. injection E as <- E.
  destruct s as [|d s]; [discriminate E|]. cbn in E. injection E as <- E. exists s. reflexivity.
Qed.
Lemma part_key_inj n k j : part_key n k = part_key n j -> k = j.
Proof. unfold part_key. intro E. apply str_app_inj in E. exact (str_app_inj " → " k j E). Qed.
Lemma nodup_app_intro {A} (l m : list A) : NoDup l -> NoDup m -> (forall x, In x l -> In x m -> False) -> NoDup (l ++ m).
Proof.
  intros N M D. induction l as [|x l IH]; [exact M|]. inversion N; subst. cbn. constructor; [|apply IH; [assumption|intros y I J; apply (D y); [right; exact I|exact J]]].
  rewrite in_app_iff. intros [I|I]; [contradiction|]. apply (D x); [left; reflexivity|exact I].
Qed.
Lemma NoDup_app_l {A} (l m : list A) : NoDup (l ++ m) -> NoDup l.
Proof. induction l as [|x l IH]; cbn; intro N; [constructor|]. inversion N; subst. constructor; [|auto]. intro I. match goal with X : ~ In _ _ |- _ => apply X end. apply in_app_iff. auto. Qed.
Lemma NoDup_app_r {A} (l m : list A) : NoDup (l ++ m) -> NoDup m.
Proof. induction l as [|x l IH]; cbn; intro N; [exact N|]. inversion N; subst. auto. Qed.
Lemma adds_keys e adds : emphasis_adds e adds -> distinct_requirements e ->
  exists name, em_name e = Some name /\ NoDup (map key_of adds) /\ forall a, In a adds -> key_of a = emphasis_key name \/ exists k, key_of a = part_key name k.
Proof.
  intros H D.
  assert (ND : forall name (d : list (string * rbody)), NoDup (map fst d) -> NoDup (map key_of (map (fun x : string * rbody => (name, part_key name (fst x), snd x)) d))).
  { intros name d N. rewrite map_map. unfold key_of. cbn [fst snd]. induction d as [|[k b] d IH]; cbn [map fst]; [constructor|]. inversion N; subst. constructor; [|auto]. intro I. apply in_map_iff in I. destruct I as ([k' b'] & E & I). cbn [fst] in E.
    apply part_key_inj in E. subst k'. match goal with X : ~ In _ _ |- _ => apply X end. apply in_map_iff. exists (k, b'). auto. }
  assert (PK : forall name (d : list (string * rbody)) a, In a (map (fun x : string * rbody => (name, part_key name (fst x), snd x)) d) -> key_of a = emphasis_key name \/ exists k, key_of a = part_key name k).
  { intros name d a I. apply in_map_iff in I. destruct I as (x & <- & _). right. exists (fst x). reflexivity. }
  destruct H as [name l reqs N _ R|name l xs d N _ R _ _ DI|name d N _ _]; exists name; (split; [exact N|]).
  - split; [apply ND, D, R|apply PK].
  - split; [apply ND; apply (firsts_ok _ _ (proj1 DI))|apply PK].
  - split; [constructor; [intros []|constructor]|]. intros a [<-|[]]. left. reflexivity.
Qed.
Lemma keys_clash n m a b : (a = emphasis_key n \/ exists k, a = part_key n k) -> (b = emphasis_key m \/ exists k, b = part_key m k) -> a = b ->
  n = m \/ (exists s, m = (n ++ " →" ++ s)%string) \/ (exists s, n = (m ++ " →" ++ s)%string).
Proof.
  assert (W : forall n m k, emphasis_key n = part_key m k -> exists s, n = (m ++ " →" ++ s)%string).
  { intros n0 m0 k E. unfold part_key, emphasis_key in E. rewrite str_app_assoc in E. apply (str_app_inj "Emphasis: ") in E. exists (" " ++ k)%string. exact E. }
  intros [->|[k ->]] [->|[j ->]] E.
  - left. unfold emphasis_key in E. exact (str_app_inj "Emphasis: " _ _ E).
  - right. right. eapply W. exact E.
  - right. left. eapply W. symmetry. exact E.
  - unfold part_key, emphasis_key in E. rewrite !str_app_assoc in E. apply (str_app_inj "Emphasis: ") in E. destruct (app_str_inv _ _ _ _ E) as [(s & -> & F)|(s & -> & F)].
    + symmetry in F. destruct (arrow_shift s k j) as [->|(t & ->)]; [symmetry; exact F| |].
      * left. clear. induction m as [|x m IH]; cbn; [reflexivity|]. now rewrite IH.
      * right. right. eauto.
    + symmetry in F. destruct (arrow_shift s j k) as [->|(t & ->)]; [symmetry; exact F| |].
      * left. clear. induction n as [|x n IH]; cbn; [reflexivity|]. now rewrite <- IH.
      * right. left. eauto.
Qed.
Lemma added_keys_distinct l adds : distinct_names l -> (forall e, In e l -> distinct_requirements e) -> Forall2 emphasis_adds l adds -> NoDup (map key_of (List.concat adds)).
Proof.
  intros [N A] D F. induction F as [|e a l adds E F IH]; [constructor|]. cbn [List.concat]. rewrite map_app. inversion N as [|? ? NI N']; subst.
  destruct (adds_keys _ _ E (D e (or_introl eq_refl))) as (name & EN & ND & KS). apply nodup_app_intro; [exact ND|apply IH; [exact N'|intros a0 b0 n0 m0 s0 Ia Ib; apply A; right; assumption|intros; apply D; right; assumption]|].
  intros k I J. apply in_map_iff in I. destruct I as (x & <- & I). apply in_map_iff in J. destruct J as (y & EY & J). apply in_concat in J. destruct J as (a' & Ia & J).
  destruct (F2_in_r _ _ _ _ F Ia) as (e' & Ie & E'). destruct (adds_keys _ _ E' (D e' (or_intror Ie))) as (name' & EN' & _ & KS').
  destruct (keys_clash name name' _ _ (KS x I) (KS' y J) (eq_sym EY)) as [->|[[s S]|[s S]]].
  - apply NI. rewrite EN, <- EN'. apply in_map. exact Ie.
  - eapply (A e e'); [left; reflexivity|right; exact Ie|exact EN|exact EN'|exact S].
  - eapply (A e' e); [right; exact Ie|left; reflexivity|exact EN'|exact EN|exact S].
Qed.
Lemma dept_of_exact areas code o : dept_of areas code = o <-> department areas code o.
Proof.
  assert (F : department areas code (dept_of areas code)).
  { unfold dept_of. destruct (find _ (rev areas)) as [a|] eqn:E.
    - assert (X : exists pre post, rev areas = pre ++ a :: post /\ (a_code a =? code)%string = true /\ forall b, In b pre -> (a_code b =? code)%string = false).
      { clear - E. revert E. generalize (rev areas). induction l as [|b l IH]; cbn; [discriminate|]. destruct (a_code b =? code)%string eqn:B.
        - intros [= <-]. exists [], l. split; [reflexivity|]. split; [exact B|]. intros b' [].
        - intro H. destruct (IH H) as (pre & post & -> & C & N). exists (b :: pre), post. split; [reflexivity|]. split; [exact C|]. intros b' [<-|I]; auto. }
      destruct X as (pre & post & R & C & N). assert (RR := f_equal (@rev area_ptr) R). rewrite rev_involutive, rev_app_distr in RR. cbn in RR. rewrite <- app_assoc in RR. cbn in RR.
      eapply (dp_found areas code (rev post) a (rev pre)); [exact RR|apply String.eqb_eq; exact C|]. intros b I. apply in_rev in I. apply String.eqb_neq. auto.
    - apply dp_none. intros a I J. apply find_none with (x := a) in E; [|apply in_rev in I; exact I]. cbn in E. apply String.eqb_neq in E. contradiction. }
  split; [intros <-; exact F|]. intro G. destruct F as [pre a post E C N|N]; destruct G as [pre' a' post' E' C' N'|N']; try reflexivity.
  - rewrite E in E'. clear E. revert pre' E'. induction pre as [|x pre IH]; intros [|y pre'] E'; cbn in E'.
    + now injection E' as <-.
    + injection E' as <- E'. exfalso. apply (N a'); [rewrite E', in_app_iff; right; left; reflexivity|exact C'].
    + injection E' as -> E'. exfalso. apply (N' a); [rewrite <- E', in_app_iff; right; left; reflexivity|exact C].
    + injection E' as _ E'. eauto.
  - exfalso. apply (N' a); [rewrite E, in_app_iff; right; left; reflexivity|exact C].
  - exfalso. apply (N a'); [rewrite E', in_app_iff; right; left; reflexivity|exact C'].
Qed.
Lemma chosen_iff st all l e : In e (chosen_emphases st all l) <-> In e l /\ (declared st e \/ all = true).
Proof.
  unfold chosen_emphases. rewrite filter_In, orb_true_iff, existsb_exists. unfold declared. split.
  - intros [I [(x & J & E)|A]]; split; auto. left. apply in_map_iff in J. destruct J as (a & <- & J). apply filter_In in J. destruct J as [J K]. exists a. split; [exact J|].
    apply String.eqb_eq in E. split; [destruct (a_kind a); try discriminate; reflexivity|congruence].
  - intros [I [(a & J & K & E)|A]]; split; auto. left. exists (a_code a). split; [|rewrite E; apply String.eqb_refl]. apply in_map_iff. exists a. split; [reflexivity|]. apply filter_In. rewrite K. auto.
Qed.
