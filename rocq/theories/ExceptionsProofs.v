From Coq Require Import List ZArith Bool String Permutation Lia.
From Verif Require Import Prelude Dec Status Exceptions ListFacts Claims ClaimsProofs.
Import ListNotations.

Lemma path_eqb_iff p q : path_eqb p q = true <-> p = q.
Proof. exact (path_eqb_spec p q). Qed.
Lemma path_eqb_refl p : path_eqb p p = true.
Proof. apply path_eqb_iff. reflexivity. Qed.
Lemma path_eqb_neq p q : path_eqb p q = false <-> p <> q.
Proof. rewrite <- path_eqb_iff. destruct (path_eqb p q); split; congruence. Qed.

(** the dictionary as the grouping of the list [l] *)
Definition groups (l : list exc) (d : exc_dict) : Prop :=
  NoDup (map fst d) /\
  (forall p, exc_at d p = filter (fun e => path_eqb (ex_path e) p) l) /\
  (forall p es, In (p, es) d -> es <> [] /\ Forall (fun e => ex_path e = p) es) /\
  Permutation (flat_map snd d) l.

Lemma xget_at d p l : xget d p = Some l -> exc_at d p = l.
Proof. unfold exc_at. intros ->. reflexivity. Qed.

Lemma xadd_at d e p :
  exc_at (xadd d e) p = if path_eqb (ex_path e) p then exc_at d p ++ [e] else exc_at d p.
Proof.
  unfold exc_at. induction d as [|[q l] t IH]; simpl.
  - destruct (path_eqb p (ex_path e)) eqn:E.
    + apply path_eqb_iff in E as ->. rewrite path_eqb_refl. reflexivity.
    + destruct (path_eqb (ex_path e) p) eqn:E2; [|reflexivity].
      apply path_eqb_iff in E2. subst. rewrite path_eqb_refl in E. discriminate.
  - destruct (path_eqb (ex_path e) q) eqn:E1; simpl.
    + apply path_eqb_iff in E1. subst q. destruct (path_eqb p (ex_path e)) eqn:E2.
      * apply path_eqb_iff in E2 as ->. rewrite path_eqb_refl. reflexivity.
      * destruct (path_eqb (ex_path e) p) eqn:E3; [|reflexivity].
        apply path_eqb_iff in E3. subst. rewrite path_eqb_refl in E2. discriminate.
    + destruct (path_eqb p q) eqn:E2.
      * apply path_eqb_iff in E2. subst q. rewrite E1. reflexivity.
      * exact IH.
Qed.

Lemma xadd_keys d e : map fst (xadd d e) = if existsb (path_eqb (ex_path e)) (map fst d) then map fst d else map fst d ++ [ex_path e].
Proof.
  induction d as [|[q l] t IH]; simpl; [reflexivity|].
  destruct (path_eqb (ex_path e) q); simpl; [reflexivity|]. rewrite IH. destruct existsb; reflexivity.
Qed.

Lemma xadd_in d e p es : In (p, es) (xadd d e) ->
  In (p, es) d \/ (p = ex_path e /\ exists es0, es = es0 ++ [e] /\ (es0 = [] \/ In (p, es0) d)).
Proof.
  induction d as [|[q l] t IH]; simpl.
  - intros [E|[]]. injection E as <- <-. right. split; [reflexivity|]. exists []. auto.
  - destruct (path_eqb (ex_path e) q) eqn:E1; simpl.
    + apply path_eqb_iff in E1. intros [E|H]; [|auto]. injection E as <- <-. right. split; [auto|]. exists l. auto.
    + intros [E|H]; [auto|]. destruct (IH H) as [H'|(E & es0 & E0 & [E'|H'])]; [auto| |]; right; (split; [exact E|]); exists es0; auto.
Qed.

Lemma xadd_perm d e : Permutation (flat_map snd (xadd d e)) (flat_map snd d ++ [e]).
Proof.
  induction d as [|[q l] t IH]; simpl; [reflexivity|].
  destruct (path_eqb (ex_path e) q); simpl.
  - rewrite <- !app_assoc. apply Permutation_app_head. apply Permutation_app_comm.
  - rewrite <- app_assoc. apply Permutation_app_head. exact IH.
Qed.

Lemma groups_step l d e : groups l d -> groups (l ++ [e]) (xadd d e).
Proof.
  intros (N & A & B & P). repeat split.
  - rewrite xadd_keys. destruct existsb eqn:E; [exact N|].
    apply NoDup_app; [exact N|repeat constructor; simpl; tauto|].
    intros p H1 [<-|[]]. assert (existsb (path_eqb (ex_path e)) (map fst d) = true); [|congruence].
    apply existsb_exists. exists (ex_path e). split; [exact H1|apply path_eqb_refl].
  - intro p. rewrite xadd_at, A, filter_app. simpl. destruct path_eqb; [reflexivity|]. rewrite app_nil_r. reflexivity.
  - apply xadd_in in H as [H|(E & es0 & -> & _)]; [apply (B _ _ H)|]. destruct es0; discriminate.
  - apply xadd_in in H as [H|(E & es0 & -> & [-> | H])]; [apply (B _ _ H)| |].
    + repeat constructor. congruence.
    + apply Forall_app. split; [apply (B _ _ H)|repeat constructor; congruence].
  - rewrite xadd_perm. apply Permutation_app_tail. exact P.
Qed.

Lemma groups_ok l : groups l (group_exceptions l).
Proof.
  unfold group_exceptions.
  assert (G : forall l2 l1 d, groups l1 d -> groups (l1 ++ l2) (fold_left xadd l2 d)).
  { induction l2 as [|e l2 IH]; intros l1 d H; simpl; [rewrite app_nil_r; exact H|].
    replace (l1 ++ e :: l2) with ((l1 ++ [e]) ++ l2) by (rewrite <- app_assoc; reflexivity).
    apply IH. apply groups_step. exact H. }
  apply (G l [] []). split; [constructor|]. split; [reflexivity|]. split; [simpl; tauto|constructor].
Qed.

Lemma filter_filter {A} (f g : A -> bool) l : filter f (filter g l) = filter (fun x => g x && f x) l.
Proof. induction l; simpl; [reflexivity|]. destruct (g a); simpl; [destruct (f a); rewrite IHl; reflexivity|exact IHl]. Qed.

Lemma find_filter {A} (f : A -> bool) l : find f l = hd_error (filter f l).
Proof. induction l; simpl; [reflexivity|]. destruct (f a); [reflexivity|exact IHl]. Qed.

Lemma prefix_iff p q : prefix_eqb p q = true <-> exists r, q = p ++ r.
Proof.
  unfold prefix_eqb. rewrite path_eqb_iff. split.
  - intro E. exists (skipn (List.length p) q). rewrite <- E at 1. symmetry. apply firstn_skipn.
  - intros [r ->]. rewrite firstn_app, Nat.sub_diag, firstn_all. simpl. apply app_nil_r.
Qed.

Lemma beneath_iff l p :
  has_exception_beneath (group_exceptions l) p = true <-> exists e r, In e l /\ ex_path e = p ++ r.
Proof.
  destruct (groups_ok l) as (N & A & B & P). unfold has_exception_beneath.
  assert (H2 : existsb (fun e => prefix_eqb p (ex_path e)) (flat_map snd (group_exceptions l)) = true <-> exists e r, In e l /\ ex_path e = p ++ r).
  { rewrite existsb_exists. split.
    - intros (e & I & E). apply prefix_iff in E as [r E]. exists e, r. split; [|exact E]. eapply Permutation_in; eauto.
    - intros (e & r & I & E). exists e. split; [eapply Permutation_in; [symmetry|]; eauto|]. apply prefix_iff. eauto. }
  rewrite orb_true_iff, H2. split; [|auto]. intros [H|H]; [|exact H].
  destruct (xget (group_exceptions l) p) as [es|] eqn:X; [|discriminate].
  assert (I : In (p, es) (group_exceptions l)).
  { clear -X. induction (group_exceptions l) as [|[q es'] t IH]; simpl in *; [discriminate|].
    destruct (path_eqb p q) eqn:E; [apply path_eqb_iff in E; injection X as <-; subst; auto|auto]. }
  destruct (B _ _ I) as [NE F]. destruct es as [|e es]; [congruence|].
  inversion F; subst. exists e, []. split; [|rewrite app_nil_r; reflexivity].
  eapply Permutation_in; [exact P|]. apply in_flat_map. exists (ex_path e, e :: es). simpl. auto.
Qed.

Definition cache_ok (d : exc_dict) (c : beneath_cache) : Prop :=
  forall p b, cget c p = Some b -> b = has_exception_beneath d p.

Lemma cget_app c p q b : cget (c ++ [(q, b)]) p = match cget c p with Some x => Some x | None => if path_eqb p q then Some b else None end.
Proof. induction c as [|[r x] c IH]; simpl; [reflexivity|]. destruct (path_eqb p r); [reflexivity|exact IH]. Qed.

Lemma cached_step d c p : cache_ok d c ->
  fst (has_exception_beneath_cached d c p) = has_exception_beneath d p /\
  cache_ok d (snd (has_exception_beneath_cached d c p)).
Proof.
  intro H. unfold has_exception_beneath_cached. destruct (cget c p) eqn:E; simpl.
  - split; [apply H; exact E|exact H].
  - split; [reflexivity|]. intros q b. rewrite cget_app. destruct (cget c q) eqn:E2.
    + injection 1 as <-. apply H. exact E2.
    + destruct (path_eqb q p) eqn:E3; [|discriminate]. apply path_eqb_iff in E3 as ->. congruence.
Qed.

Lemma queries_ok d ps : forall c, cache_ok d c -> cache_ok d (beneath_queries d c ps).
Proof. induction ps; intros c H; simpl; [exact H|]. apply IHps. apply cached_step. exact H. Qed.

Lemma inserts_beneath_perm l p :
  Permutation (get_inserts_beneath (group_exceptions l) p)
              (filter (fun e => prefix_eqb p (ex_path e) && is_insert e) l).
Proof.
  destruct (groups_ok l) as (N & A & B & P). unfold get_inserts_beneath.
  assert (E : flat_map (fun g => if prefix_eqb p (fst g) then filter is_insert (snd g) else []) (group_exceptions l)
            = filter (fun e => prefix_eqb p (ex_path e) && is_insert e) (flat_map snd (group_exceptions l))).
  { clear N A P. induction (group_exceptions l) as [|[q es] d IH]; simpl; [reflexivity|].
    rewrite filter_app, <- IH by (intros; apply B; simpl; auto). f_equal.
    destruct (B q es) as [_ F]; [simpl; auto|]. clear -F.
    induction F as [|e es E _ IH]; simpl; [destruct prefix_eqb; reflexivity|]. rewrite E.
    destruct (prefix_eqb p q); simpl; [rewrite IH; reflexivity|exact IH]. }
  assert (Q : Permutation (filter (fun e => prefix_eqb p (ex_path e) && is_insert e) (flat_map snd (group_exceptions l)))
                (filter (fun e => prefix_eqb p (ex_path e) && is_insert e) l)).
  { clear -P. induction P; simpl; [constructor| | |].
    - destruct (_ && _); [constructor; exact IHP|exact IHP].
    - destruct (prefix_eqb p (ex_path x) && is_insert x), (prefix_eqb p (ex_path y) && is_insert y); try reflexivity. constructor.
    - etransitivity; eauto. }
  destruct (has_exception_beneath (group_exceptions l) p) eqn:H.
  - rewrite E. exact Q.
  - replace (filter (fun e => prefix_eqb p (ex_path e) && is_insert e) l) with (@nil exc); [constructor|].
    symmetry. clear -H. destruct (filter _ l) as [|e t] eqn:F; [reflexivity|]. exfalso.
    assert (I : In e (filter (fun e => prefix_eqb p (ex_path e) && is_insert e) l)) by (rewrite F; simpl; auto).
    apply filter_In in I as [I X]. apply andb_true_iff in X as [X _]. apply prefix_iff in X as [r X].
    assert (has_exception_beneath (group_exceptions l) p = true) by (apply beneath_iff; eauto). congruence.
Qed.
