From Coq Require Import List ZArith QArith Bool String Lia Sorted Permutation Lqa.
From Verif Require Import Prelude Dec Status Course Claims Exceptions Op Context CondExpr Paths Predicate Apply Assertion Query CourseRule Tree Solve.
From Verif Require Import ListFacts ClaimsSpec ClaimsProofs PathsSpec PathsProofs ExceptionsProofs AssertionSpec AssertionProofs PredicateProofs QuerySpec QueryProofs CourseRuleSpec CourseRuleProofs TreeSpec TreeProofs TreeSolSpec TreeSolProofs TreeAuditSpec TreeAuditProofs SolveSpec.
Import ListNotations.
Local Open Scope list_scope.

Lemma nodup_snoc {A} (l : list A) x : NoDup l -> ~ In x l -> NoDup (l ++ [x]).
Proof. intros N I. eapply Permutation_NoDup; [apply Permutation_cons_append|]. constructor; auto. Qed.
Lemma complete_iff s : inS s WAIVED_AND_DONE = true <-> complete s.
Proof. rewrite inS_iff. unfold complete. cbn. split; intuition congruence. Qed.

(** ** the loop *)
Section Loop.
  Context (ord : list course -> list course) (cx : ctx).
  Notation cand := (candidate ord cx).
  Notation open := (unfinished ord cx).
  Lemma candidate_fun s r q t r' q' t' : cand s r q t -> cand s r' q' t' -> r = r' /\ q = q' /\ t = t'.
  Proof. intros [A [m B]] [A' [m' B']]. rewrite A in A'. injection A' as <- <-. rewrite B in B'. injection B' as <- _. auto. Qed.
  Definition inv (done : list node) (best : option (node * Q)) (inner : option claims) : Prop :=
    (done = [] /\ best = None /\ inner = None) \/
    exists pre s post r q t all z zr zq zt, done = pre ++ s :: post /\ cand s r q t /\ best = Some (r, q) /\
      (forall s' r' q' t', In s' pre -> cand s' r' q' t' -> (q' < q)%Q) /\
      (forall s' r' q' t', In s' post -> cand s' r' q' t' -> (q' <= q)%Q) /\
      done = all ++ [z] /\ cand z zr zq zt /\ inner = Some zt.
  Lemma loop_step done best inner s rest e : inv done best inner -> open s ->
    exists best' inner', inv (done ++ [s]) best' inner' /\ best_loop ord cx best inner (s :: rest) e = best_loop ord cx best' inner' rest e.
  Proof.
    intros I [r [q [t [C N]]]]. assert (C' := C). destruct C as [A [m B]]. cbn [best_loop]. rewrite A. cbn [bind]. rewrite B. cbn [bind].
    assert (NS : inS (status_of r) WAIVED_AND_DONE = false) by (destruct (inS (status_of r) WAIVED_AND_DONE) eqn:E; auto; apply complete_iff in E; contradiction).
    rewrite NS. destruct I as [[-> [-> ->]]|(pre & s0 & post & r0 & q0 & t0 & all & z & zr & zq & zt & D & C0 & -> & LT & LE & _ & _ & ->)].
    - exists (Some (r, q)), (Some t). split; [|reflexivity]. right. exists [], s, [], r, q, t, [], s, r, q, t. cbn. repeat (split; [auto; try (intros; contradiction)|]). auto.
    - destruct (Qle_bool q q0) eqn:E.
      + apply Qle_bool_iff in E. exists (Some (r0, q0)), (Some t). split; [|reflexivity]. right. exists pre, s0, (post ++ [s]), r0, q0, t0, done, s, r, q, t.
        split; [rewrite D, <- app_assoc; reflexivity|]. split; auto. split; auto. split; auto. split; [|auto].
        intros s' r' q' t' J K. apply in_app_iff in J. destruct J as [J|[<-|[]]]; [eauto|]. destruct (candidate_fun _ _ _ _ _ _ _ K C') as [_ [-> _]]. exact E.
      + assert (L : (q0 < q)%Q) by (apply Qnot_le_lt; intro H; apply Qle_bool_iff in H; congruence).
        exists (Some (r, q)), (Some t). split; [|reflexivity]. right. exists done, s, [], r, q, t, done, s, r, q, t.
        split; auto. split; auto. split; auto. split; [|split; [intros ? ? ? ? []|auto]].
        intros s' r' q' t' J K. rewrite D in J. apply in_app_iff in J. destruct J as [J|[<-|J]].
        * assert (X := LT _ _ _ _ J K). lra.
        * destruct (candidate_fun _ _ _ _ _ _ _ K C0) as [_ [-> _]]. exact L.
        * assert (X := LE _ _ _ _ J K). lra.
  Qed.
  Lemma loop_steps l : forall done best inner rest e, inv done best inner -> Forall open l ->
    exists best' inner', inv (done ++ l) best' inner' /\ best_loop ord cx best inner (l ++ rest) e = best_loop ord cx best' inner' rest e.
  Proof.
    induction l as [|s l IH]; intros done best inner rest e I F; [exists best, inner; rewrite app_nil_r; auto|]. inversion F; subst.
    destruct (loop_step done best inner s (l ++ rest) e I H1) as [b1 [i1 [I1 E1]]]. destruct (IH (done ++ [s]) b1 i1 rest e I1 H2) as [b2 [i2 [I2 E2]]].
    exists b2, i2. rewrite <- app_assoc in I2. split; auto. cbn [app]. congruence.
  Qed.
  Lemma inv_nil : inv [] None None. Proof. left. auto. Qed.
  Lemma classes l : Forall open l \/ exists pre s post, l = pre ++ s :: post /\ Forall open pre /\
    ((exists e, breaks ord cx s e) \/ (exists r q t, cand s r q t /\ complete (status_of r))).
  Proof.
    induction l as [|s l IH]; [left; constructor|].
    assert (S : open s \/ (exists e, breaks ord cx s e) \/ (exists r q t, cand s r q t /\ complete (status_of r))).
    { destruct (audit ord cx [] s) as [[r t]|e] eqn:A; [|right; left; exists e; left; exact A].
      destruct (rank_of r) as [[q m]|e] eqn:B; [|right; left; exists e; right; eauto].
      assert (C : cand s r q t) by (split; eauto). destruct (inS (status_of r) WAIVED_AND_DONE) eqn:E.
      - right. right. exists r, q, t. split; auto. apply complete_iff. exact E.
      - left. exists r, q, t. split; auto. intro H. apply complete_iff in H. congruence. }
    destruct S as [S|S]; [|right; exists [], s, l; auto]. destruct IH as [F|[pre [x [post [-> [F H]]]]]]; [left; constructor; auto|].
    right. exists (s :: pre), x, post. split; [reflexivity|]. split; auto.
  Qed.
  Lemma break_split pre s post e : breaks ord cx s e -> Forall open pre -> forall x, best_loop ord cx None None (pre ++ s :: post) x = Err e.
  Proof.
    intros B F x. destruct (loop_steps pre [] None None (s :: post) x inv_nil F) as [b [i [_ E]]]. rewrite E. cbn [best_loop].
    destruct B as [B|[r [t [B R]]]]; rewrite B; cbn [bind]; [reflexivity|]. rewrite R. reflexivity.
  Qed.
  Lemma complete_split pre s post r q t : cand s r q t -> complete (status_of r) -> Forall open pre ->
    forall x, best_loop ord cx None None (pre ++ s :: post) x = Ok (Some r, Some t).
  Proof.
    intros [A [m B]] K F x. destruct (loop_steps pre [] None None (s :: post) x inv_nil F) as [b [i [_ E]]]. rewrite E. cbn [best_loop]. rewrite A. cbn [bind]. rewrite B. cbn [bind].
    apply complete_iff in K. rewrite K. reflexivity.
  Qed.
  (** the loop, exactly *)
  Definition run_of (g : gen node) := best_loop ord cx None None (g_items g) (g_exn g).
  Lemma unique_max pre s post r q t pre' s' post' r' q' t' : pre ++ s :: post = pre' ++ s' :: post' -> Forall open (pre ++ s :: post) ->
    cand s r q t -> cand s' r' q' t' ->
    (forall x rx qx tx, In x pre -> cand x rx qx tx -> (qx < q)%Q) -> (forall x rx qx tx, In x post -> cand x rx qx tx -> (qx <= q)%Q) ->
    (forall x rx qx tx, In x pre' -> cand x rx qx tx -> (qx < q')%Q) -> (forall x rx qx tx, In x post' -> cand x rx qx tx -> (qx <= q')%Q) -> s = s'.
  Proof.
    intros E F C C' L1 L2 L1' L2'. 
    assert (D : forall pre pre' post' : list node, pre ++ s :: post = pre' ++ s' :: post' -> s = s' \/ (In s pre' /\ In s' post) \/ (In s' pre /\ In s post')).
    { clear. induction pre as [|x pre IH]; intros [|y pre'] post' E; cbn in E; injection E as E1 E2; subst; auto.
      - right. left. split; [simpl; auto|]. apply in_or_app. right. simpl. auto.
      - right. right. split; [simpl; auto|]. apply in_or_app. right. simpl. auto.
      - destruct (IH pre' post' E2) as [H|[[H1 H2]|[H1 H2]]]; [auto|right; left|right; right]; split; simpl; auto. }
    destruct (D _ _ _ E) as [H|[[H1 H2]|[H1 H2]]]; auto; exfalso.
    - assert (X := L1' _ _ _ _ H1 C). assert (Y := L2 _ _ _ _ H2 C'). lra.
    - assert (X := L1 _ _ _ _ H1 C'). assert (Y := L2' _ _ _ _ H2 C). lra.
  Qed.
  Lemma selected_run g r t z : selected ord cx g r t z -> run_of g = Ok (Some r, Some z).
  Proof.
    intro S. unfold run_of. destruct S as [pre s post r q t E F C K|pre s post r q t all z zr zq zt N E F C L1 L2 EZ CZ].
    - rewrite E. eapply complete_split; eauto.
    - destruct (loop_steps (g_items g) [] None None [] (g_exn g) inv_nil F) as [b [i [I R]]]. rewrite app_nil_r in R. rewrite R. cbn [app] in I. cbn [best_loop]. rewrite N.
      destruct I as [[H _]|(pre' & s' & post' & r' & q' & t' & all' & z' & zr' & zq' & zt' & D & C' & -> & L1' & L2' & D' & CZ' & ->)]; [rewrite H in E; destruct pre; discriminate|].
      assert (s = s') by (eapply (unique_max pre s post r q t pre' s' post' r' q' t'); eauto; [congruence|rewrite <- E; exact F]). subst s'.
      destruct (candidate_fun _ _ _ _ _ _ _ C C') as [-> _]. rewrite EZ in D'. apply app_inj_tail in D'. destruct D' as [_ <-].
      destruct (candidate_fun _ _ _ _ _ _ _ CZ CZ') as [_ [_ ->]]. reflexivity.
  Qed.
  Lemma raised_run g e : raised ord cx g e -> run_of g = Err e.
  Proof.
    intro S. unfold run_of. destruct S as [pre s post e E F B|e N F].
    - rewrite E. apply break_split; auto.
    - destruct (loop_steps (g_items g) [] None None [] (g_exn g) inv_nil F) as [b [i [I R]]]. rewrite app_nil_r in R. rewrite R. cbn [best_loop]. rewrite N. reflexivity.
  Qed.
  Lemma run_cases g : (exists r t z, selected ord cx g r t z) \/ (exists e, raised ord cx g e) \/ (g_items g = [] /\ g_exn g = None).
  Proof.
    destruct (classes (g_items g)) as [F|[pre [s [post [E [F [[e B]|[r [q [t [C K]]]]]]]]]]].
    - destruct (g_exn g) as [e|] eqn:N; [right; left; exists e; apply ra_generator; auto|].
      destruct (loop_steps (g_items g) [] None None [] None inv_nil F) as [b [i [I R]]]. cbn [app] in I.
      destruct I as [[H _]|(pre' & s' & post' & r' & q' & t' & all' & z' & zr' & zq' & zt' & D & C' & -> & L1' & L2' & D' & CZ' & ->)]; [right; right; split; auto; fail|].
      left. exists r', t', zt'. exact (sel_rank ord cx g pre' s' post' r' q' t' all' z' zr' zq' zt' N D F C' L1' L2' D' CZ').
    - right. left. exists e. eapply ra_candidate; eauto.
    - left. exists r, t, t. eapply sel_complete; eauto.
  Qed.
  Lemma empty_run g : g_items g = [] -> g_exn g = None -> run_of g = Ok (None, None).
  Proof. intros E N. unfold run_of. rewrite E, N. reflexivity. Qed.
  Lemma selected_table g r t z : selected ord cx g r t z -> exists s r' q, cand s r' q z.
  Proof. intros []; eauto. Qed.
End Loop.

(** ** the claim tables *)
Definition sound_table (t : claims) : Prop := NoDup (map fst t) /\ Forall (fun kv => snd kv <> []) t.
Lemma dset_sound t k v : sound_table t -> v <> [] -> sound_table (dset t k v).
Proof.
  intros [N F] V. assert (KEYS : forall t, map fst (dset t k v) = if existsb (String.eqb k) (map fst t) then map fst t else map fst t ++ [k]).
  { clear. induction t as [|[a w] t IH]; [reflexivity|]. cbn. destruct (String.eqb_spec k a); cbn; [reflexivity|]. rewrite IH. destruct (existsb _ _); reflexivity. }
  split.
  - rewrite KEYS. destruct (existsb (String.eqb k) (map fst t)) eqn:E; auto. apply nodup_snoc; auto. intro I.
    assert (X : existsb (String.eqb k) (map fst t) = true) by (apply existsb_exists; exists k; split; auto; apply String.eqb_refl). congruence.
  - clear - F V. induction F as [|[a w] t W F IH]; cbn; [constructor; auto|]. destruct (String.eqb k a); constructor; auto.
Qed.
Lemma record_sound t cl : sound_table t -> sound_table (record_claim t cl).
Proof. intro S. unfold record_claim. destruct (dget t _) as [l|]; apply dset_sound; auto; try discriminate. destruct l; discriminate. Qed.
Lemma audit_sound ord cx n r t' : audit ord cx [] n = Ok (r, t') -> sound_table t'.
Proof. intro A. apply audit_records in A. eapply rec_inv; [intros; apply record_sound; eassumption|exact A|split; constructor]. Qed.
Lemma dget_merged b : forall a k, NoDup (map fst b) -> dget (merged a b) k = match dget b k with Some l => Some l | None => dget a k end.
Proof.
  unfold merged. induction b as [|[j v] b IH]; intros a k N; [reflexivity|]. cbn [fold_left fst snd map] in *. inversion N as [|? ? NI N']; subst. rewrite IH by auto. cbn [dget].
  destruct (String.eqb_spec k j) as [->|D].
  - rewrite dget_dset_same. assert (X : dget b j = None). { clear - NI. induction b as [|[i w] b IH]; [reflexivity|]. cbn in *. destruct (String.eqb_spec j i); [subst; exfalso; auto|apply IH; auto]. }
    rewrite X. reflexivity.
  - rewrite dget_dset_other by auto. reflexivity.
Qed.
Lemma merged_recorded a b k : sound_table b -> (claimed b k -> recorded (merged a b) k = recorded b k) /\ (~ claimed b k -> recorded (merged a b) k = recorded a k).
Proof.
  intros [N F]. unfold claimed. rewrite !dget_recorded, dget_merged by auto. destruct (dget b k) as [l|] eqn:E; [|split; intro H; [destruct (H eq_refl)|reflexivity]].
  split; [reflexivity|]. intro H. exfalso. apply H. intro X. subst l.
  clear - F E. induction F as [|[a w] t W F IH]; [discriminate|]. cbn in *. destruct (String.eqb k a); [injection E as ->; auto|auto].
Qed.

(** ** classification *)
Lemma pairs_in {A} (l : list A) x y : NoDup l -> In (x, y) (pairs l) -> In x l /\ In y l /\ x <> y.
Proof.
  induction l as [|a l IH]; intros N H; [destruct H|]. cbn in H. inversion N; subst. apply in_app_iff in H. destruct H as [H|H].
  - apply in_map_iff in H. destruct H as [b [E I]]. injection E as <- <-. split; [simpl; auto|]. split; [simpl; auto|]. intro; subst; auto.
  - destruct (IH H3 H) as [? [? ?]]. simpl. auto.
Qed.
Lemma pairs_all {A} (l : list A) x y : In x l -> In y l -> x <> y -> In (x, y) (pairs l) \/ In (y, x) (pairs l).
Proof.
  induction l as [|a l IH]; intros H K D; [destruct H|]. cbn. rewrite !in_app_iff, !in_map_iff. destruct H as [->|H], K as [->|K]; [congruence|left; left; eauto|right; left; eauto|].
  destruct (IH H K D); auto.
Qed.
Lemma overlap_iff a b : overlap a b = true <-> exists x, In x a /\ In x b.
Proof.
  unfold overlap. rewrite existsb_exists. split; intros [x [H K]]; exists x; split; auto.
  - apply existsb_exists in K. destruct K as [y [K E]]. apply item_eqb_iff in E. subst. exact K.
  - apply existsb_exists. exists x. split; auto. apply item_eqb_iff. reflexivity.
Qed.
Lemma in_nodes_iff n l : in_nodes n l = true <-> In (path_of n) (map path_of l).
Proof. apply path_in_iff. Qed.
Lemma add_paths n l p : In p (map path_of (add_node n l)) <-> In p (map path_of l) \/ p = path_of n.
Proof.
  unfold add_node. destruct (in_nodes n l) eqn:E; [apply in_nodes_iff in E; split; [auto|intros [H| ->]; auto]|].
  rewrite map_app, in_app_iff. cbn. intuition.
Qed.
Lemma add_in n l x : In x (add_node n l) -> In x l \/ x = n.
Proof. unfold add_node. destruct (in_nodes n l); auto. rewrite in_app_iff. cbn. intuition. Qed.
Lemma add_nodup n l : NoDup (map path_of l) -> NoDup (map path_of (add_node n l)).
Proof.
  intro N. unfold add_node. destruct (in_nodes n l) eqn:E; auto. rewrite map_app. apply nodup_snoc; auto. intro I. apply in_nodes_iff in I. congruence.
Qed.
Notation pairn := ((node * list item) * (node * list item))%type.
Definition apart (p : pairn) : bool := (always_disjoint (fst (fst p)) && always_disjoint (fst (snd p))) || negb (overlap (snd (fst p)) (snd (snd p))).
Definition touches (p : pairn) (x : path) : Prop := x = path_of (fst (fst p)) \/ x = path_of (fst (snd p)).
Lemma compare_fold ps : forall d n d' n', fold_left compare_pair ps (d, n) = (d', n') ->
  (forall x, In x (map path_of d') <-> In x (map path_of d) \/ exists p, In p ps /\ apart p = true /\ touches p x) /\
  (forall x, In x (map path_of n') <-> In x (map path_of n) \/ exists p, In p ps /\ apart p = false /\ touches p x) /\
  (forall x, In x d' \/ In x n' -> In x d \/ In x n \/ exists p, In p ps /\ (x = fst (fst p) \/ x = fst (snd p))) /\
  (NoDup (map path_of d) -> NoDup (map path_of d')) /\ (NoDup (map path_of n) -> NoDup (map path_of n')).
Proof.
  induction ps as [|[[a am] [b bm]] ps IH]; intros d n d' n' H; cbn [fold_left] in H.
  - injection H as <- <-. split; [|split; [|split; [|split]]]; auto.
    + intro x. split; [auto|intros [?|[p [[] _]]]; auto].
    + intro x. split; [auto|intros [?|[p [[] _]]]; auto].
    + intros x [?|?]; auto.
  - assert (S : compare_pair (d, n) (a, am, (b, bm)) = if apart (a, am, (b, bm)) then (add_node b (add_node a d), n) else (d, add_node b (add_node a n))).
    { unfold compare_pair, apart. cbn [fst snd]. destruct (always_disjoint a && always_disjoint b)%bool; [reflexivity|]. cbn [orb]. reflexivity. }
    rewrite S in H. destruct (apart (a, am, (b, bm))) eqn:AP; destruct (IH _ _ _ _ H) as [H1 [H2 [H3 [H4 H5]]]]; clear IH H S.
    + split; [|split; [|split; [|split]]].
      * intro x. rewrite H1, !add_paths. unfold touches. split.
        -- intros [[[I| ->]| ->]|[p [I [J K]]]]; [auto|right..]; [exists (a, am, (b, bm)); cbn; auto..|exists p; cbn; auto].
        -- intros [I|[p [[<-|I] [J [K|K]]]]]; cbn in *; auto; right; exists p; auto.
      * intro x. rewrite H2. split; (intros [I|[p [I [J K]]]]; [auto|]); right; exists p; [cbn; auto|]. destruct I as [<-|I]; [congruence|auto].
      * intros x I. apply H3 in I. destruct I as [I|[I|[p [I J]]]]; [|auto|right; right; exists p; cbn; auto].
        apply add_in in I. destruct I as [I| ->]; [|right; right; exists (a, am, (b, bm)); cbn; auto]. apply add_in in I. destruct I as [I| ->]; [auto|right; right; exists (a, am, (b, bm)); cbn; auto].
      * intro N. apply H4. apply add_nodup, add_nodup, N.
      * auto.
    + split; [|split; [|split; [|split]]].
      * intro x. rewrite H1. split; (intros [I|[p [I [J K]]]]; [auto|]); right; exists p; [cbn; auto|]. destruct I as [<-|I]; [congruence|auto].
      * intro x. rewrite H2, !add_paths. unfold touches. split.
        -- intros [[[I| ->]| ->]|[p [I [J K]]]]; [auto|right..]; [exists (a, am, (b, bm)); cbn; auto..|exists p; cbn; auto].
        -- intros [I|[p [[<-|I] [J [K|K]]]]]; cbn in *; auto; right; exists p; auto.
      * intros x I. apply H3 in I. destruct I as [I|[I|[p [I J]]]]; [auto| |right; right; exists p; cbn; auto].
        apply add_in in I. destruct I as [I| ->]; [|right; right; exists (a, am, (b, bm)); cbn; auto]. apply add_in in I. destruct I as [I| ->]; [auto|right; right; exists (a, am, (b, bm)); cbn; auto].
      * auto.
      * intro N. apply H5. apply add_nodup, add_nodup, N.
Qed.
Definition alone (cx : ctx) (items : list node) (c : node) : Prop :=
  (forall d, In d items -> d = c) \/ (never_disjoint c = false /\ forall d, In d items -> d <> c -> ~ competes cx c d).
Lemma competes_sym cx a b : competes cx a b -> competes cx b a.
Proof. intros [[am [bm [x [A [B [I J]]]]]] N]. split; [exists bm, am, x; auto|tauto]. Qed.
Lemma in_map_path items x : NoDup (map path_of items) -> forall l, (forall y, In y l -> In y items) -> In x items -> (In (path_of x) (map path_of l) <-> In x l).
Proof.
  intros N l S I. split; [|apply in_map]. intro H. apply in_map_iff in H. destruct H as [y [E J]]. rewrite (same_sibling items x y); auto.
Qed.
Lemma classify_ok cx ms dis non : NoDup (map path_of (map fst ms)) -> (forall n m, In (n, m) ms -> matches_of cx n = Ok m) -> classify ms = (dis, non) ->
  (forall n, In n dis <-> In n (map fst ms) /\ alone cx (map fst ms) n) /\
  (forall n, In n non <-> In n (map fst ms) /\ ~ alone cx (map fst ms) n) /\ NoDup (map path_of dis) /\ NoDup (map path_of non).
Proof.
  intros N M H. destruct ms as [|[n0 m0] [|p1 ms']] eqn:EMS.
  - cbn in H. injection H as <- <-. cbn. repeat split; try constructor; try tauto; intros [[] _].
  - cbn in H. injection H as <- <-. cbn. split; [|split; [|split; repeat constructor; auto]].
    + intro n. split; [intros [<-|[]]; split; auto; left; intros d [<-|[]]; auto|tauto].
    + intro n. split; [tauto|]. intros [[<-|[]] X]. apply X. left. intros d [<-|[]]. auto.
  - rewrite <- EMS in *. assert (TWO : exists a b, In a (map fst ms) /\ In b (map fst ms) /\ a <> b).
    { rewrite EMS in N |- *. exists n0, (fst p1). cbn [map fst] in N |- *. split; [simpl; auto|]. split; [simpl; auto|]. intro EQ. inversion N as [|? ? X _]. apply X. rewrite EQ. simpl. auto. }
    assert (H' : (let '(d, n) := fold_left compare_pair (pairs ms) ([], filter never_disjoint (map fst ms)) in (filter (fun x => negb (in_nodes x n)) d, n)) = (dis, non)) by (rewrite EMS in H |- *; exact H).
    clear H. destruct (fold_left _ _ _) as [d n] eqn:FO. injection H' as <- <-. apply compare_fold in FO. destruct FO as [F1 [F2 [F3 [F4 F5]]]].
    clear EMS. set (items := map fst ms) in *.
    assert (NMS : NoDup ms) by (apply NoDup_map_inv with (f := fun p => path_of (fst p)); rewrite <- map_map; exact N).
    assert (SUB : forall x, In x d \/ In x n -> In x items).
    { intros x I. destruct (F3 x I) as [[]|[J|[p [J K]]]]; [apply filter_In in J; apply J|]. destruct p as [a b]. apply pairs_in in J; auto. destruct J as [J1 [J2 _]].
      destruct K as [-> | ->]; apply in_map; auto. }
    assert (ME : forall x, In x items -> exists m, In (x, m) ms) by (intros x I; apply in_map_iff in I; destruct I as [[y m] [<- I]]; eauto).
    assert (AP : forall a am b bm, In (a, am) ms -> In (b, bm) ms -> (apart ((a, am), (b, bm)) = false <-> competes cx a b)).
    { intros a am b bm A B. unfold apart, competes, shares. cbn [fst snd]. rewrite orb_false_iff, negb_false_iff, overlap_iff, andb_false_iff. split.
      - intros [D [x [I J]]]. split; [exists am, bm, x; auto|]. intros [E F]. destruct D; congruence.
      - intros [[am' [bm' [x [A' [B' [I J]]]]]] D]. rewrite (M _ _ A) in A'. rewrite (M _ _ B) in B'. injection A' as <-. injection B' as <-. split; [|eauto].
        destruct (always_disjoint a); auto. destruct (always_disjoint b); auto. destruct D; auto. }
    assert (NON : forall x, In x items -> (In x n <-> never_disjoint x = true \/ exists y, In y items /\ y <> x /\ competes cx x y)).
    { intros x I. rewrite <- (in_map_path items x N n) by auto. rewrite F2, (in_map_path items x N) by (auto; intros y J; apply filter_In in J; apply J). rewrite filter_In. split.
      - intros [[_ K]|[[[a am] [b bm]] [J [K T]]]]; [auto|]. right. apply pairs_in in J; auto. destruct J as [A [B D]]. cbn in T.
        assert (IA : In a items) by (apply (in_map fst) in A; exact A). assert (IB : In b items) by (apply (in_map fst) in B; exact B).
        assert (DAB : a <> b). { intro E. subst b. apply D. f_equal. assert (X := M _ _ A). rewrite (M _ _ B) in X. congruence. }
        apply (AP _ _ _ _ A B) in K. destruct T as [T|T]; apply (same_sibling items) in T; auto; subst x; [exists b|exists a]; auto using competes_sym.
      - intros [K|[y [J [D C]]]]; [auto|]. right. destruct (ME x I) as [xm X]. destruct (ME y J) as [ym Y].
        assert (P : (x, xm) <> (y, ym)) by congruence. destruct (pairs_all ms _ _ X Y P) as [Q|Q]; eexists; (split; [exact Q|]); (split; [|unfold touches; cbn; auto]).
        + apply (AP _ _ _ _ X Y). exact C.
        + apply (AP _ _ _ _ Y X). apply competes_sym. exact C. }
    assert (AL : forall x, In x items -> (alone cx items x <-> ~ In x n)).
    { intros x I. rewrite NON by auto. split.
      - intros [S|[K S]]; [|intros [E|[y [J [D C]]]]; [congruence|exact (S y J D C)]]. exfalso. destruct TWO as [a [b [A [B D]]]]. apply D. rewrite (S a A), (S b B). reflexivity.
      - intro H. right. split; [destruct (never_disjoint x); [exfalso; auto|reflexivity]|]. intros y J D C. apply H. right. eauto. }
    assert (DIS : forall x, In x items -> ~ In x n -> In x d).
    { intros x I K. rewrite <- (in_map_path items x N d) by auto. apply F1. right.
      assert (O : exists y, In y items /\ y <> x).
      { destruct TWO as [a [b [A [B D]]]]. destruct (path_eqb (path_of x) (path_of a)) eqn:E.
        - apply path_eqb_iff in E. assert (x = a) by (apply (same_sibling items); auto). subst. exists b. auto.
        - exists a. split; auto. intro; subst. assert (X : path_eqb (path_of x) (path_of x) = true) by (apply path_eqb_iff; reflexivity). congruence. }
      destruct O as [y [J D]]. destruct (ME x I) as [xm X]. destruct (ME y J) as [ym Y].
      assert (NC : ~ competes cx x y) by (intro C; apply K, NON; auto; right; eauto).
      assert (P : (x, xm) <> (y, ym)) by congruence. destruct (pairs_all ms _ _ X Y P) as [Q|Q]; eexists; (split; [exact Q|]); (split; [|unfold touches; cbn; auto]).
      - destruct (apart (x, xm, (y, ym))) eqn:E; auto. apply (AP _ _ _ _ X Y) in E. contradiction.
      - destruct (apart (y, ym, (x, xm))) eqn:E; auto. apply (AP _ _ _ _ Y X) in E. apply competes_sym in E. contradiction. }
    assert (NI : forall x, In x items -> (in_nodes x n = true <-> In x n)) by (intros x I; rewrite in_nodes_iff; apply (in_map_path items); auto).
    split; [|split; [|split]].
    + intro x. rewrite filter_In, negb_true_iff. split.
      * intros [I E]. assert (J := SUB x (or_introl I)). split; auto. apply AL; auto. intro C. apply NI in C; auto. congruence.
      * intros [I A]. apply AL in A; auto. split; auto. destruct (in_nodes x n) eqn:E; auto. apply NI in E; auto. contradiction.
    + intro x. split; [intro I; assert (J := SUB x (or_intror I)); split; auto; rewrite AL by auto; auto|].
      intros [I A]. rewrite AL in A by auto. destruct (in_nodes x n) eqn:E; [apply NI; auto|]. exfalso. apply A. intro C. apply NI in C; auto. congruence.
    + apply NoDup_map_filter. apply F4. constructor.
    + apply F5. apply NoDup_map_filter. exact N.
Qed.

(** ** solving the independent children *)
Definition best_of ord cx (c r : node) : Prop := exists t z, selected ord cx (solutions ord cx c) r t z.
Lemma selected_fun ord cx g r t z r' t' z' : selected ord cx g r t z -> selected ord cx g r' t' z' -> r = r' /\ z = z'.
Proof. intros A B. apply selected_run in A, B. rewrite A in B. injection B as <- <-. auto. Qed.
Lemma find_best_merge ord cx t c o t' : find_best_solution ord cx t c true = Ok (o, t') ->
  exists r own z, o = Some r /\ selected ord cx (solutions ord cx c) r own z /\ t' = merged t z.
Proof.
  unfold find_best_solution. fold (run_of ord cx (solutions ord cx c)). destruct (run_cases ord cx (solutions ord cx c)) as [[r [own [z S]]]|[[e S]|[E N]]].
  - rewrite (selected_run _ _ _ _ _ _ S). cbn [bind]. intro H. injection H as <- <-. eauto 6.
  - rewrite (raised_run _ _ _ _ S). discriminate.
  - rewrite (empty_run _ _ _ E N). discriminate.
Qed.
Lemma solve_independent_ok ord cx l : forall t solved t', solve_independent ord cx t l = Ok (solved, t') ->
  solved_rules solved = l /\ Forall2 (best_of ord cx) l (solved_results solved).
Proof.
  induction l as [|c l IH]; intros t solved t' H; cbn [solve_independent] in H; [injection H as <- <-; split; [reflexivity|constructor]|].
  destruct (find_best_solution ord cx t c true) as [[o t1]|] eqn:F; cbn [bind] in H; [|discriminate].
  destruct (solve_independent ord cx t1 l) as [[rs t2]|] eqn:E; cbn [bind] in H; [|discriminate]. injection H as <- <-.
  destruct (find_best_merge _ _ _ _ _ _ F) as [r [own [z [-> [S _]]]]]. destruct (IH _ _ _ E) as [A B].
  unfold solved_rules, solved_results. cbn [flat_map snd fst app]. split; [f_equal; exact A|]. constructor; [unfold best_of; eauto|exact B].
Qed.
Lemma perm_forall2 {A B} (R : A -> B -> Prop) l l' : Permutation l l' -> forall m, Forall2 R l m -> exists m', Forall2 R l' m' /\ Permutation m m'.
Proof.
  induction 1 as [|x l l' P IH|x y l|l l' l'' P1 IH1 P2 IH2]; intros m F.
  - inversion F; subst. exists []. auto.
  - inversion F as [|? b ? m0 Rb F0]; subst. destruct (IH _ F0) as [m' [F' P']]. exists (b :: m'). auto.
  - inversion F as [|? b ? m0 Rb F0]; subst. inversion F0 as [|? c ? m1 Rc F1]; subst. exists (c :: b :: m1). split; [auto|apply perm_swap].
  - destruct (IH1 _ F) as [m1 [F1 Q1]]. destruct (IH2 _ F1) as [m2 [F2 Q2]]. exists m2. split; auto. eapply perm_trans; eauto.
Qed.
Lemma weave {A B} (p : A -> bool) (R1 R2 : A -> B -> Prop) items : forall l0 l1,
  Forall2 R1 (filter (fun x => negb (p x)) items) l0 -> Forall2 R2 (filter p items) l1 ->
  exists l, Forall2 (fun c x => (p c = true /\ R2 c x) \/ (p c = false /\ R1 c x)) items l /\ Permutation l (l0 ++ l1).
Proof.
  induction items as [|a items IH]; intros l0 l1 F0 F1; cbn [filter] in *; [inversion F0; inversion F1; exists []; auto|].
  destruct (p a) eqn:E; cbn [negb] in F0.
  - inversion F1 as [|? b ? m Rb F]; subst. destruct (IH _ _ F0 F) as [l [G P]]. exists (b :: l). split; [constructor; auto|]. apply Permutation_cons_app. exact P.
  - inversion F0 as [|? b ? m Rb F]; subst. destruct (IH _ _ F F1) as [l [G P]]. exists (b :: l). split; [constructor; auto|]. cbn. constructor. exact P.
Qed.
Lemma unweave {A B} (p : A -> bool) (R1 R2 : A -> B -> Prop) items : forall l,
  Forall2 (fun c x => (p c = true /\ R2 c x) \/ (p c = false /\ R1 c x)) items l ->
  exists l0 l1, Forall2 R1 (filter (fun x => negb (p x)) items) l0 /\ Forall2 R2 (filter p items) l1 /\ Permutation l (l0 ++ l1).
Proof.
  induction items as [|a items IH]; intros l F; inversion F as [|? b ? m Rb F']; subst; cbn [filter]; [exists [], []; auto|].
  destruct (IH _ F') as [l0 [l1 [G0 [G1 P]]]]. destruct Rb as [[E Rb]|[E Rb]]; rewrite E; cbn [negb].
  - exists l0, (b :: l1). split; auto. split; [constructor; auto|]. apply Permutation_cons_app. exact P.
  - exists (b :: l0), l1. split; [constructor; auto|]. split; auto. cbn. constructor. exact P.
Qed.
Lemma audit_path ord cx t n r t' : audit ord cx t n = Ok (r, t') -> path_of r = path_of n.
Proof.
  destruct n as [k c|k q|k i items|k i o|k i b f|k i c]; cbn [audit]; intro H.
  - destruct (c_audit _ t c) as [[x t1]|] eqn:A; cbn [bind] in H; [|discriminate]. injection H as <- <-. destruct (course_history _ _ _ _ _ A) as (h & o & _ & _ & _ & P & _). exact P.
  - destruct (q_audit cx t q) as [[x t1]|] eqn:A; cbn [bind] in H; [|discriminate]. injection H as <- <-. destruct (query_history _ _ _ _ _ A) as (h & o & _ & _ & _ & P & _). exact P.
  - destruct (n_overridden i); [injection H as <- <-; reflexivity|]. destruct (audit_each _ t items) as [[rs t1]|]; cbn [bind] in H; [|discriminate].
    destruct (mapr _ (n_audits i)); cbn [bind] in H; [|discriminate]. injection H as <- <-. reflexivity.
  - destruct (e_overridden i); [injection H as <- <-; reflexivity|]. destruct o as [x|]; [|injection H as <- <-; reflexivity].
    destruct (kind_of x); [injection H as <- <-; reflexivity| |discriminate]. destruct (audit ord cx t x) as [[y t1]|]; cbn [bind] in H; [|discriminate]. injection H as <- <-. reflexivity.
  - destruct (e_result (d_cond i)) as [[|]|]; [|destruct f as [x|]|destruct f; injection H as <- <-; reflexivity].
    + destruct (kind_of b); [injection H as <- <-; reflexivity| |injection H as <- <-; reflexivity]. destruct (audit ord cx t b) as [[y t1]|]; cbn [bind] in H; [|discriminate]. injection H as <- <-. reflexivity.
    + destruct (kind_of x); [injection H as <- <-; reflexivity| |injection H as <- <-; reflexivity]. destruct (audit ord cx t x) as [[y t1]|]; cbn [bind] in H; [|discriminate]. injection H as <- <-. reflexivity.
    + injection H as <- <-; reflexivity.
  - destruct (f_overridden i); [injection H as <- <-; reflexivity|]. destruct (proficiency_status _ _ _); cbn [bind] in H; [|discriminate].
    destruct c as [[[| |] c]|]; cbn [bind] in H; try (injection H as <- <-; reflexivity). destruct (c_audit _ t c) as [[x t1]|]; cbn [bind] in H; [|discriminate]. injection H as <- <-. reflexivity.
Qed.
Lemma selected_in ord cx g r t z : selected ord cx g r t z -> exists s q, In s (g_items g) /\ candidate ord cx s r q t.
Proof. intros [pre s post r' q t' E|pre s post r' q t' all z' zr zq zt N E]; exists s, q; (split; [rewrite E; apply in_or_app; right; simpl; auto|auto]). Qed.
Lemma best_of_path ord cx c r : best_of ord cx c r -> path_of r = path_of c.
Proof.
  intros [t [z S]]. apply selected_in in S. destruct S as [s [q [I [A _]]]]. rewrite (audit_path _ _ _ _ _ _ A). eapply proj1, solutions_keep, I.
Qed.
Lemma mapr_pairs cx l ms : mapr (fun n => let! m := matches_of cx n in Ok (n, m)) l = Ok ms ->
  map fst ms = l /\ forall n m, In (n, m) ms -> matches_of cx n = Ok m.
Proof.
  revert ms. induction l as [|x l IH]; intros ms H; cbn [mapr] in H; [injection H as <-; split; [reflexivity|intros ? ? []]|].
  destruct (matches_of cx x) as [mx|] eqn:M; cbn [bind] in H; [|discriminate]. destruct (mapr _ l) as [ys|]; cbn [bind] in H; [|discriminate]. injection H as <-.
  destruct (IH _ eq_refl) as [E F]. split; [cbn; congruence|]. intros n m [K|K]; [congruence|auto].
Qed.
Lemma filter_ext_sub {A} (f g : A -> bool) l : (forall x, In x l -> f x = g x) -> filter f l = filter g l.
Proof. induction l as [|x l IH]; intro H; [reflexivity|]. cbn. rewrite H by (simpl; auto). rewrite IH by (intros; apply H; simpl; auto). reflexivity. Qed.
Lemma siblings_filter p items : siblings items -> siblings (filter p items).
Proof. intros [N F]. split; [apply NoDup_map_filter, N|]. apply Forall_forall. intros x I. apply filter_In in I. rewrite Forall_forall in F. apply F, I. Qed.

Section TopCount.
  Context (ord : list course -> list course) (nord : list node -> list node) (cx : ctx).
  Context (i : count_info) (items : list node).
  Hypothesis NO : forall l, Permutation (nord l) l.
  Hypothesis SB : siblings items.
  Hypothesis C0 : (0 <= n_count i)%Z.
  Hypothesis W : waived cx (n_path i) = false.
  Hypothesis NA : n_audits i = [].
  Let us := filter (has_potential cx) items.
  Hypothesis NE : us <> [].
  Lemma us_iff c : In c us <-> usable cx items c.
  Proof. unfold us, usable. rewrite filter_In, potential_iff. reflexivity. Qed.
  Lemma nodup_items : NoDup items.
  Proof. eapply NoDup_map_inv. apply SB. Qed.
  Lemma top_shape t : (exists e, top_count_solutions ord nord cx t i items = (gfail e, t)) \/
    exists ms dis non solved t', mapr (fun n => let! m := matches_of cx n in Ok (n, m)) (nord us) = Ok ms /\ classify ms = (dis, non) /\
      solve_independent ord cx t (nord dis) = Ok (solved, t') /\
      (forall c, In c items -> exists b, potential cx c = Ok b) /\
      top_count_solutions ord nord cx t i items =
        (count_run i (Z.of_nat (List.length items)) (map (child_of ord cx) (sort_by_path path_of (filter (fun c => in_nodes c non) us)))
           (sort_by_path path_of (solved_results solved)) (filter (fun n => negb (in_nodes n (solved_rules solved))) items), t').
  Proof.
    unfold top_count_solutions. rewrite W. change (map (fun c => (c, solutions ord cx c)) items) with (map (child_of ord cx) items).
    destruct (potential_children cx (map (child_of ord cx) items)) as [pot|e] eqn:PC; [|left; eauto].
    destruct (potential_children_ok ord cx items pot (proj1 SB) PC) as [-> T]. fold us. rewrite NA.
    assert (MF : map fst (map (child_of ord cx) us) = us) by (rewrite map_map; apply map_id). rewrite MF.
    destruct (map (child_of ord cx) us) as [|p0 ps] eqn:EP; [destruct us; [congruence|discriminate]|]. rewrite <- EP in *. clear p0 ps EP.
    destruct (mapr _ (nord us)) as [ms|e] eqn:M; cbn [bind]; [|left; eauto]. destruct (classify ms) as [dis non] eqn:CL.
    destruct (solve_independent ord cx t (nord dis)) as [[solved t']|e] eqn:SI; cbn [bind]; [|left; eauto].
    right. exists ms, dis, non, solved, t'. split; [reflexivity|]. split; auto. split; auto. split; auto. f_equal.
    rewrite filter_map, sort_map. assert (CS : children_set items = items) by (apply dedup_by; apply SB). rewrite CS. reflexivity.
  Qed.
  Lemma top_count_ok t s : g_exn (fst (top_count_solutions ord nord cx t i items)) = None ->
    (In s (g_items (fst (top_count_solutions ord nord cx t i items))) <-> top_choice ord cx i items s) /\
    g_items (fst (top_count_solutions ord nord cx t i items)) <> [].
  Proof.
    intro N. destruct (top_shape t) as [[e E]|(ms & dis & non & solved & t' & M & CL & SI & T & E)]; rewrite E in *; cbn [fst] in *; [discriminate|].
    destruct (mapr_pairs _ _ _ M) as [MF MM]. destruct (solve_independent_ok _ _ _ _ _ _ SI) as [RU RE]. rewrite RU in *.
    assert (PU : Permutation (map fst ms) us) by (rewrite MF; apply NO).
    assert (NDU : NoDup (map path_of us)) by (apply NoDup_map_filter, SB).
    assert (NM : NoDup (map path_of (map fst ms))) by (eapply Permutation_NoDup; [|exact NDU]; apply Permutation_map; symmetry; exact PU).
    destruct (classify_ok cx ms dis non NM MM CL) as [D1 [D2 [D3 D4]]].
    assert (INU : forall c, In c (map fst ms) <-> usable cx items c) by (intro c; rewrite <- us_iff; split; apply Permutation_in; [exact PU|symmetry; exact PU]).
    assert (AI : forall c, In c dis <-> independent cx items c).
    { intro c. rewrite D1, INU. unfold independent, alone. split; (intros [U [A|[K A]]]; split; auto; [left|right; split; auto]).
      - intros d X. apply A, INU, X.
      - intros d X. apply A, INU, X.
      - intros d X. apply A, INU, X.
      - intros d X. apply A, INU, X. }
    assert (BI : forall c, In c non <-> usable cx items c /\ ~ independent cx items c).
    { intro c. rewrite D2, INU. split; intros [U A]; split; auto; intro X; apply A; [apply AI, D1 in X; apply X|]. apply AI, D1. split; [apply INU; exact U|exact X]. }
    set (ind := fun n => in_nodes n (nord dis)).
    assert (INDI : forall c, In c items -> (ind c = true <-> independent cx items c)).
    { intros c I. unfold ind. rewrite in_nodes_iff, <- AI. rewrite (in_map_path items c (proj1 SB)); auto.
      - split; apply Permutation_in; [apply NO|symmetry; apply NO].
      - intros y J. apply (Permutation_in _ (NO dis)), AI in J. apply J. }
    set (co := filter (fun c => in_nodes c non) us) in *.
    assert (COI : forall c, In c co <-> usable cx items c /\ ~ independent cx items c).
    { intro c. unfold co. rewrite filter_In, us_iff, in_nodes_iff. split.
      - intros [U I]. apply BI. apply (in_map_path items c (proj1 SB)) in I; auto; [|apply U]. intros y J. apply BI in J. apply J.
      - intros [U I]. split; auto. apply in_map, BI. auto. }
    set (items0 := filter (fun n => negb (in_nodes n (nord dis))) items) in *.
    change items0 with (filter (fun n => negb (ind n)) items) in *. clear items0. set (items0 := filter (fun n => negb (ind n)) items) in *.
    assert (I0 : forall c, In c items0 <-> In c items /\ ~ independent cx items c).
    { intro c. unfold items0. rewrite filter_In, negb_true_iff. split; intros [I X]; split; auto.
      - intro Y. apply INDI in Y; auto. congruence.
      - destruct (ind c) eqn:Z; auto. apply INDI in Z; auto. contradiction. }
    set (sorted := sort_by_path path_of co) in *. assert (PS : Permutation sorted co) by apply perm_sort.
    assert (LS : List.length (map (child_of ord cx) sorted) = List.length co) by (rewrite map_length; apply Permutation_length, PS).
    assert (LE : (List.length co <= List.length items)%nat) by (unfold co, us; eapply Nat.le_trans; apply filter_len).
    assert (COE : co = filter (fun c => has_potential cx c && negb (ind c))%bool items).
    { unfold co, us. rewrite filter_filter. apply filter_ext_sub. intros c I.
      destruct (has_potential cx c) eqn:HP; cbn [andb]; [|reflexivity]. apply potential_iff in HP.
      destruct (in_nodes c non) eqn:X, (ind c) eqn:Y; cbn; auto.
      - apply INDI in Y; auto. apply in_nodes_iff, (in_map_path items c (proj1 SB)) in X; auto; [apply BI in X; tauto|]. intros y J. apply BI in J. apply J.
      - exfalso. assert (Z : In c non) by (apply BI; split; [split; auto|]; intro Z; apply INDI in Z; auto; congruence). apply (in_map path_of), in_nodes_iff in Z. congruence. }
    set (results := sort_by_path path_of (solved_results solved)) in *.
    assert (PR : Permutation results (solved_results solved)) by apply perm_sort.
    (* the results, in the order of the children *)
    assert (PD : Permutation (nord dis) (filter ind items)).
    { apply NoDup_Permutation.
      - eapply NoDup_map_inv with (f := path_of). eapply Permutation_NoDup; [|exact D3]. apply Permutation_map. symmetry. apply NO.
      - apply NoDup_filter, nodup_items.
      - intro c. rewrite filter_In. split.
        + intro I. apply (Permutation_in _ (NO dis)), AI in I. assert (J : In c items) by apply I. split; auto. apply INDI; auto.
        + intros [I J]. apply INDI, AI in J; auto. apply (Permutation_in _ (Permutation_sym (NO dis))). exact J. }
    destruct (perm_forall2 _ _ _ PD _ RE) as [l1 [FB PB]].
    assert (UNIQ : forall l, Forall2 (best_of ord cx) (filter ind items) l -> l = l1).
    { clear - FB. revert l1 FB. induction (filter ind items) as [|c cs IH]; intros l1 FB l F; inversion FB as [|? ? ? ? [t1 [z1 S1]] ?]; inversion F as [|? ? ? ? [t2 [z2 S2]] ?]; subst; [reflexivity|].
      f_equal; [eapply selected_fun; eauto|auto]. }
    assert (SB0 : siblings items0) by (apply siblings_filter; exact SB).
    assert (ND0 : NoDup items0) by (apply NoDup_filter, nodup_items).
    assert (NDCO : NoDup co) by (rewrite COE; apply NoDup_filter, nodup_items).
    assert (NDS : NoDup sorted) by (eapply Permutation_NoDup; [symmetry; exact PS|exact NDCO]).
    assert (SHAPE : forall sel, map child_path (map (child_of ord cx) sel) = map path_of sel) by (intro sel; rewrite map_map; reflexivity).
    assert (STANDS : forall chosen, (forall c x, In c items -> ((ind c = true /\ best_of ord cx c x) \/ (ind c = false /\ stands ord cx chosen c x)) <-> top_stands ord cx items chosen c x)).
    { intros chosen c x I. unfold top_stands, stands. assert (X := INDI c I). fold (best_of ord cx c x). destruct (ind c).
      - assert (Y : independent cx items c) by (apply X; reflexivity). split; [intros [[_ B]|[D _]]; [auto|discriminate]|]. intros [[_ B]|[[B _]|[B _]]]; [auto|contradiction..].
      - assert (Y : ~ independent cx items c) by (intro Z; apply X in Z; discriminate). split; [intros [[D _]|[_ [[A B]|[A B]]]]; [discriminate|auto..]|]. intros [[B _]|[[_ B]|[_ B]]]; [contradiction|auto..]. }
    assert (WELL : forall chosen l, Forall2 (top_stands ord cx items chosen) items l -> NoDup (map path_of l) /\ Forall (fun x => wf_path (path_of x)) l).
    { intros chosen l F. assert (EP : map path_of l = map path_of items).
      { clear - F. assert (G : forall its, Forall2 (top_stands ord cx items chosen) its l -> map path_of l = map path_of its); [|apply G; exact F]. clear F.
        intros its F. induction F as [|c x cs xs S F IH]; [reflexivity|]. cbn. f_equal; [|exact IH]. destruct S as [[_ B]|[[_ [_ J]]|[_ [_ ->]]]]; [apply (best_of_path ord cx c x B)| |reflexivity]. eapply proj1, solutions_keep, J. }
      split; [rewrite EP; apply SB|]. destruct SB as [_ WF]. clear - EP WF.
      revert EP WF. generalize items. induction l as [|x l IH]; intros [|y its] EP WF; cbn in EP; try discriminate; constructor; inversion WF; subst; injection EP as E1 E2; [rewrite E1; auto|eapply IH; eauto]. }
    assert (F2SUB : forall (R R' : node -> node -> Prop) l, (forall c x, In c items -> R c x -> R' c x) -> Forall2 R items l -> Forall2 R' items l).
    { clear. intros R R' l H F. assert (G : forall its, (forall c, In c its -> In c items) -> Forall2 R its l -> Forall2 R' its l); [|apply G; auto]. clear F.
      intros its S F. induction F; constructor; auto; [apply H; auto; apply S; simpl; auto|apply IHF; intros; apply S; simpl; auto]. }
    destruct (count_run_ok i (Z.of_nat (List.length items)) (map (child_of ord cx) sorted) results items0 s C0 ltac:(rewrite LS; lia) N) as [IFF NEM].
    split; [|exact NEM]. rewrite IFF. clear IFF. rewrite LS.
    assert (TALLY : tally (fun c => potential cx c = Ok true /\ ~ independent cx items c) items (List.length co)).
    { rewrite COE. assert (G : forall its, (forall c, In c its -> In c items) -> tally (fun c => potential cx c = Ok true /\ ~ independent cx items c) its (List.length (filter (fun c => has_potential cx c && negb (ind c))%bool its))); [|apply G; auto].
      induction its as [|c its IH]; intro S; cbn [filter]; [constructor|]. assert (IC : In c items) by (apply S; simpl; auto). assert (X := INDI c IC). assert (Y := potential_iff cx c).
      destruct (has_potential cx c && negb (ind c))%bool eqn:Z.
      - cbn [List.length]. apply t_yes; [|apply IH; intros; apply S; simpl; auto]. apply andb_true_iff in Z. destruct Z as [Z1 Z2]. split; [apply Y; auto|]. intro Q. apply X in Q. rewrite Q in Z2. discriminate.
      - apply t_no; [|apply IH; intros; apply S; simpl; auto]. intros [Q1 Q2]. apply Y in Q1. rewrite Q1 in Z. cbn in Z. apply negb_false_iff in Z. apply Q2, X, Z. }
    split.
    - intros [sel [sols [S [F [SO ->]]]]]. apply subseq_map_inv in S. destruct S as [chosen [S ->]]. rewrite map_length in F. apply solves_nodes in SO.
      assert (INC : forall c, In c chosen -> In c co) by (intros c I; apply (subseq_in _ _ c S) in I; apply (Permutation_in _ PS I)).
      assert (INC0 : forall c, In c chosen -> In c items0) by (intros c I; apply INC, COI in I; apply I0; destruct I as [[I _] J]; auto).
      assert (NC : NoDup chosen) by (eapply subseq_NoDup; eauto).
      destruct (assemble ord cx items0 chosen SB0 NC INC0 sols SO) as [l0 [FL P]].
      destruct (weave ind (stands ord cx chosen) (best_of ord cx) items l0 l1 FL FB) as [l [FW PW]].
      assert (FT : Forall2 (top_stands ord cx items chosen) items l) by (eapply F2SUB; [|exact FW]; intros c x I; apply STANDS; exact I).
      destruct (WELL chosen l FT) as [NL WL].
      assert (PALL : Permutation l (sols ++ filter (fun n => negb (path_in (path_of n) (map path_of chosen))) items0 ++ results)).
      { eapply perm_trans; [exact PW|]. rewrite app_assoc. apply Permutation_app; [exact P|]. eapply perm_trans; [symmetry; exact PB|symmetry; exact PR]. }
      destruct (sort_by_path_lemma path_of l _ WL NL PALL) as [E1 [E2 E3]].
      exists chosen, (sort_by_path path_of l), (List.length co), l. split; auto. split; [intros c I; apply COI, INC, I|]. split; [exact TALLY|]. split; [exact F|].
      split; [exact FT|]. split; [symmetry; exact E2|]. split; [exact E3|]. unfold built, unselected, count_solution. rewrite SHAPE, E1. reflexivity.
    - intros (chosen & out & n & l & NC & CH & TL & F & FT & P & S & ->).
      assert (n = List.length co) by (eapply tally_fun; [exact TL|exact TALLY]). subst n.
      set (sel := filter (fun c => path_in (path_of c) (map path_of chosen)) sorted).
      assert (INI : forall c, In c chosen -> In c items) by (intros c I; apply CH; auto).
      assert (SELIN : forall c, In c sel <-> In c chosen).
      { intro c. unfold sel. rewrite filter_In, path_in_iff. split.
        - intros [I J]. apply (in_map_path items c (proj1 SB)) in J; auto. apply (Permutation_in _ PS), COI in I. apply I.
        - intro I. split; [|apply in_map; auto]. apply (Permutation_in _ (Permutation_sym PS)), COI, CH, I. }
      assert (NDSEL : NoDup sel) by (apply NoDup_filter; exact NDS).
      assert (PSEL : Permutation sel chosen) by (apply NoDup_Permutation; auto).
      assert (FW : Forall2 (fun c x => (ind c = true /\ best_of ord cx c x) \/ (ind c = false /\ stands ord cx sel c x)) items l).
      { eapply F2SUB; [|exact FT]. intros c x I H. apply STANDS in H; auto. destruct H as [H|[H1 H2]]; [auto|]. right. split; auto. unfold stands in *. rewrite SELIN. exact H2. }
      destruct (unweave ind (stands ord cx sel) (best_of ord cx) items l FW) as [l0 [l1' [FL [FB' PW]]]]. apply UNIQ in FB'. subst l1'.
      destruct (disassemble ord cx items0 sel l0 SB0 NDSEL) as [sols [SO PL]]; [|exact FL|].
      { intros c I. apply SELIN in I. apply I0. destruct (CH c I) as [[I' _] J]. auto. }
      exists (map (child_of ord cx) sel), sols. split; [apply subseq_map; apply subseq_filter|]. split; [|split].
      + rewrite map_length. eapply fits_length; [exact F|]. apply Permutation_length. symmetry. exact PSEL.
      + apply solves_nodes. exact SO.
      + unfold built, unselected, count_solution. rewrite SHAPE. f_equal.
        destruct (WELL chosen l FT) as [NL WL].
        assert (PALL : Permutation l (sols ++ filter (fun n => negb (path_in (path_of n) (map path_of sel))) items0 ++ results)).
        { eapply perm_trans; [exact PW|]. rewrite app_assoc. apply Permutation_app; [exact PL|]. eapply perm_trans; [symmetry; exact PB|symmetry; exact PR]. }
        destruct (sort_by_path_lemma path_of l _ WL NL PALL) as [E1 [E2 E3]]. rewrite <- E1.
        apply sorted_before_unique; auto; [|eapply perm_trans; [symmetry; exact P|symmetry; exact E2]]. eapply Permutation_NoDup; [|exact NL]. apply Permutation_map. exact P.
  Qed.
End TopCount.
