From Coq Require Import List ZArith QArith Bool String Lia.
From Verif Require Import Prelude Dec Course Op OpMemo OpSpec OpProofs ListFacts.
Import ListNotations.

(** ** python equality and the operators *)
Lemma py_eq_str_l s b : py_eq (SStr s) b = true -> b = SStr s.
Proof. destruct b; cbn [py_eq num]; try discriminate. intro E. apply String.eqb_eq in E. congruence. Qed.

Lemma py_eq_is_str a b : py_eq a b = true -> is_str a = is_str b.
Proof. destruct a as [|[]| | | | |], b as [|[]| | | | |]; cbn [py_eq num]; try discriminate; reflexivity. Qed.
Lemma py_eq_is_none a b : py_eq a b = true -> is_none a = is_none b.
Proof. destruct a as [|[]| | | | |], b as [|[]| | | | |]; cbn [py_eq num]; try discriminate; reflexivity. Qed.

Lemma py_eq_num a b : py_eq a b = true ->
  (exists x y, num a = Some x /\ num b = Some y /\ x == y) \/ (num a = None /\ a = b).
Proof.
  destruct a as [|[]| | |s|g|o]; destruct b as [|[]| | |s'|g'|o']; cbn [py_eq num]; try discriminate; intro E;
    try (left; do 2 eexists; split; [reflexivity|]; split; [reflexivity|]; apply Qeqb_spec; exact E);
    right; (split; [reflexivity|]);
    [ reflexivity
    | apply String.eqb_eq in E; congruence
    | apply grade_eqb_spec in E; congruence
    | apply opt_eqb_spec in E; congruence ].
Qed.

Lemma num_some_eq a x b : num a = Some x ->
  py_eq a b = match num b with Some y => Qeqb x y | None => false end /\
  py_cmp a b = match num b with Some y => Ok (Qcompare x y) | None => Err TypeErr end.
Proof. destruct a as [|[]| | | | |]; simpl; try discriminate; injection 1 as <-; destruct b as [|[]| | | | |]; split; reflexivity. Qed.
Lemma num_some_eq_r a y b : num b = Some y ->
  py_eq a b = match num a with Some x => Qeqb x y | None => false end /\
  py_cmp a b = match num a with Some x => Ok (Qcompare x y) | None => Err TypeErr end.
Proof. destruct b as [|[]| | | | |]; simpl; try discriminate; injection 1 as <-; destruct a as [|[]| | | | |]; split; reflexivity. Qed.

Lemma Qeqb_mor x x' y y' : x == x' -> y == y' -> Qeqb x y = Qeqb x' y'.
Proof. intros E F. apply eq_true_iff_eq. rewrite !Qeqb_spec, E, F. reflexivity. Qed.
Lemma Qcompare_mor x x' y y' : x == x' -> y == y' -> Qcompare x y = Qcompare x' y'.
Proof. intros E F. rewrite E, F. reflexivity. Qed.

Lemma py_ops_respect a a' b b' : py_eq a a' = true -> py_eq b b' = true ->
  py_eq a b = py_eq a' b' /\ py_cmp a b = py_cmp a' b'.
Proof.
  intros Ea Eb.
  apply py_eq_num in Ea as [(x & x' & Nx & Nx' & Exx)|[Na <-]].
  - destruct (num_some_eq a x b Nx) as [-> ->]. destruct (num_some_eq a' x' b' Nx') as [-> ->].
    apply py_eq_num in Eb as [(y & y' & -> & -> & Eyy)|[Nb <-]].
    + rewrite (Qeqb_mor _ _ _ _ Exx Eyy), (Qcompare_mor _ _ _ _ Exx Eyy). auto.
    + rewrite Nb. auto.
  - apply py_eq_num in Eb as [(y & y' & Ny & Ny' & Eyy)|[_ <-]]; [|auto].
    destruct (num_some_eq_r a y b Ny) as [-> ->]. destruct (num_some_eq_r a y' b' Ny') as [-> ->].
    rewrite Na. auto.
Qed.

(** a scalar pair without coercion *)
Definition pair_ok (a b : scalar) : Prop := is_str a = is_str b.

Lemma op_scalar_respects op a a' b b' : pair_ok a b -> py_eq a a' = true -> py_eq b b' = true ->
  op_scalar op a b = op_scalar op a' b'.
Proof.
  unfold pair_ok. intros P Ea Eb. pose proof (py_eq_is_str _ _ Ea) as Sa. pose proof (py_eq_is_str _ _ Eb) as Sb.
  destruct (py_ops_respect _ _ _ _ Ea Eb) as [E C].
  unfold op_scalar, none_mismatch.
  rewrite <- (py_eq_is_none _ _ Ea), <- (py_eq_is_none _ _ Eb), <- E, <- Sa, <- Sb, <- P.
  destruct (is_str a) eqn:Ia; cbn [andb negb].
  - rewrite <- E, <- C. reflexivity.
  - rewrite <- Sb, <- P. cbn [andb]. rewrite <- E, <- C. reflexivity.
Qed.

Lemma list_eqb_forall2 l l' : list_eqb py_eq l l' = true -> Forall2 (fun a b => py_eq a b = true) l l'.
Proof.
  revert l'. induction l as [|a l IH]; intros [|b l']; simpl; try discriminate; [constructor|].
  intro E. apply andb_true_iff in E as [E1 E2]. constructor; auto.
Qed.

Lemma any_res_forall2 {A} (f g : A -> res bool) (R : A -> A -> Prop) l l' :
  Forall2 R l l' -> (forall x y, In x l -> R x y -> f x = g y) -> any_res f l = any_res g l'.
Proof.
  induction 1 as [|x y l l' Hxy _ IH]; intro H; simpl; [reflexivity|].
  rewrite (H x y) by (simpl; auto). destruct (g y) as [[]|]; simpl; auto. apply IH. intros; apply H; simpl; auto.
Qed.
Lemma all_res_forall2 {A} (f g : A -> res bool) (R : A -> A -> Prop) l l' :
  Forall2 R l l' -> (forall x y, In x l -> R x y -> f x = g y) -> all_res f l = all_res g l'.
Proof.
  induction 1 as [|x y l l' Hxy _ IH]; intro H; simpl; [reflexivity|].
  rewrite (H x y) by (simpl; auto). destruct (g y) as [[]|]; simpl; auto. apply IH. intros; apply H; simpl; auto.
Qed.

Lemma uncoerced_pair l r : uncoerced l r ->
  forall a b, In a (scalars l) -> In b (scalars r) -> pair_ok a b.
Proof.
  intros [[Hl Hr]|(Hl & Hr & _)] a b Ha Hb; rewrite Forall_forall in *; unfold pair_ok;
    rewrite (Hl a Ha), (Hr b Hb); reflexivity.
Qed.

Lemma py_eq_strs l l' : Forall2 (fun a b => py_eq a b = true) l l' ->
  Forall (fun s => is_str s = true) l -> l = l'.
Proof.
  induction 1 as [|a b l l' E _ IH]; intro F; [reflexivity|]. inversion F; subst.
  destruct a; try discriminate. rewrite (py_eq_str_l _ _ E), IH; auto.
Qed.

Lemma half_l_respects op l l' r r' :
  Forall2 (fun a b => py_eq a b = true) l l' -> py_eq r r' = true ->
  (forall a, In a l -> pair_ok a r) -> op_half_l op l r = op_half_l op l' r'.
Proof.
  intros F E P.
  assert (A : forall op, any_res (fun v => op_scalar op v r) l = any_res (fun v => op_scalar op v r') l').
  { intro o. eapply any_res_forall2; [exact F|]. intros x y Hx Hxy. apply op_scalar_respects; auto. }
  assert (B : forall op, all_res (fun v => op_scalar op v r) l = all_res (fun v => op_scalar op v r') l').
  { intro o. eapply all_res_forall2; [exact F|]. intros x y Hx Hxy. apply op_scalar_respects; auto. }
  unfold op_half_l. destruct op; try reflexivity; auto.
  destruct F as [|x y l l' Hxy F]; [reflexivity|].
  destruct F as [|x2 y2 l l' Hxy2 F]; [|apply A]. apply op_scalar_respects; simpl; auto. apply P. simpl; auto.
Qed.
Lemma half_r_respects op l l' r r' :
  Forall2 (fun a b => py_eq a b = true) r r' -> py_eq l l' = true ->
  (forall a, In a r -> pair_ok l a) -> op_half_r op l r = op_half_r op l' r'.
Proof.
  intros F E P.
  assert (A : forall op, any_res (fun v => op_scalar op l v) r = any_res (fun v => op_scalar op l' v) r').
  { intro o. eapply any_res_forall2; [exact F|]. intros x y Hx Hxy. apply op_scalar_respects; auto. }
  assert (B : forall op, all_res (fun v => op_scalar op l v) r = all_res (fun v => op_scalar op l' v) r').
  { intro o. eapply all_res_forall2; [exact F|]. intros x y Hx Hxy. apply op_scalar_respects; auto. }
  unfold op_half_r. destruct op; try reflexivity; auto.
  destruct F as [|x y r r' Hxy F]; [reflexivity|].
  destruct F as [|x2 y2 r r' Hxy2 F]; [|apply A]. apply op_scalar_respects; simpl; auto. apply P. simpl; auto.
Qed.

(** what apply_operator__half_tuple computes without memo *)
Definition half_pure (op : operator) (l r : value) : res bool :=
  match l, r with
  | VT a, VS b => op_half_l op a b
  | VS a, VT b => op_half_r op a b
  | _, _ => Err TypeErr
  end.
Definition tuples_pure (op : operator) (l r : value) : res bool :=
  match l, r with VT a, VT b => op_tuples op a b | _, _ => Err TypeErr end.

Lemma op_eqb_eq a b : op_eqb a b = true -> a = b.
Proof. destruct a, b; simpl; congruence. Qed.

Definition unc (k : key) : Prop := uncoerced (snd (fst k)) (snd k).
Definition on_key {A} (f : operator -> value -> value -> A) (k : key) : A := f (fst (fst k)) (snd (fst k)) (snd k).

Lemma value_eqb_spec v v' : value_eqb v v' = true ->
  (exists a b, v = VS a /\ v' = VS b /\ py_eq a b = true) \/
  (exists a b, v = VT a /\ v' = VT b /\ Forall2 (fun x y => py_eq x y = true) a b).
Proof.
  destruct v, v'; simpl; try discriminate; intro E; [left; eauto 6|right].
  do 2 eexists. split; [reflexivity|]. split; [reflexivity|]. apply list_eqb_forall2. exact E.
Qed.

Lemma key_respects k k' : unc k -> key_eqb k k' = true ->
  on_key apply_operator k = on_key apply_operator k' /\
  on_key half_pure k = on_key half_pure k' /\
  on_key tuples_pure k = on_key tuples_pure k'.
Proof.
  destruct k as [[op l] r], k' as [[op' l'] r']. unfold unc, key_eqb, on_key. cbn [fst snd].
  intros U E. apply andb_true_iff in E as [E Er]. apply andb_true_iff in E as [E El].
  apply op_eqb_eq in E as <-.
  pose proof (uncoerced_pair _ _ U) as P.
  destruct (value_eqb_spec _ _ El) as [(a & a' & -> & -> & Ea)|(a & a' & -> & -> & Fa)];
    destruct (value_eqb_spec _ _ Er) as [(b & b' & -> & -> & Eb)|(b & b' & -> & -> & Fb)]; cbn [scalars] in P.
  - repeat split. cbn [apply_operator]. apply op_scalar_respects; auto. apply P; simpl; auto.
  - assert (op_half_r op a b = op_half_r op a' b') as H.
    { apply half_r_respects; auto. intros x Hx. apply P; simpl; auto. }
    repeat split; cbn [apply_operator half_pure]; auto. rewrite H, (py_eq_is_none _ _ Ea). reflexivity.
  - assert (op_half_l op a b = op_half_l op a' b') as H.
    { apply half_l_respects; auto. intros x Hx. apply P; simpl; auto. }
    repeat split; cbn [apply_operator half_pure]; auto. rewrite H, (py_eq_is_none _ _ Eb). reflexivity.
  - destruct U as [[Ul Ur]|(_ & _ & C)]; [|exfalso; apply C; eauto].
    cbn [scalars] in Ul, Ur. rewrite (py_eq_strs _ _ Fa Ul), (py_eq_strs _ _ Fb Ur). auto.
Qed.

(** ** every remembered answer is the fresh answer *)
Definition table_ok (f : operator -> value -> value -> res bool) (t : table) : Prop :=
  forall k b, In (k, b) t -> unc k /\ on_key f k = Ok b.
Definition memo_ok (m : memo) : Prop :=
  table_ok apply_operator (m_op m) /\ table_ok tuples_pure (m_tuples m) /\ table_ok half_pure (m_half m).

Lemma in_firstn {A} n (x : A) l : In x (firstn n l) -> In x l.
Proof. revert l. induction n; intros [|y l]; simpl; try tauto. intros [->|H]; auto. Qed.

Lemma remember_ok f t k b : table_ok f t -> unc k -> on_key f k = Ok b -> table_ok f (remember t k b).
Proof.
  intros T U E k' b' H. unfold remember in H. apply in_firstn in H. destruct H as [H|H].
  - injection H as <- <-. auto.
  - apply filter_In in H as [H _]. apply T. exact H.
Qed.

Lemma lookup_ok f t k b : table_ok f t ->
  (forall k', unc k' -> key_eqb k' k = true -> on_key f k' = on_key f k) ->
  lookup t k = Some b -> on_key f k = Ok b.
Proof.
  intros T R. unfold lookup. destruct (find _ t) as [[k' b']|] eqn:F; [|discriminate]. injection 1 as <-.
  apply find_some in F as [I E]. simpl in E. destruct (T _ _ I) as [U V]. rewrite <- V. symmetry. auto.
Qed.

Definition sound (c : st) (v : res bool) : Prop := forall m, memo_ok m -> fst (c m) = v /\ memo_ok (snd (c m)).

Lemma sound_pure v : sound (fun m => (v, m)) v.
Proof. intros m H. auto. Qed.

Lemma cached_op_sound k body v : unc k -> on_key apply_operator k = v -> sound body v ->
  sound (cached m_op set_op k body) v.
Proof.
  intros U E B m (M1 & M2 & M3). unfold cached. destruct (lookup (m_op m) k) as [b|] eqn:L.
  - assert (on_key apply_operator k = Ok b) as Eb.
    { eapply lookup_ok; eauto. intros k' U' E'. apply key_respects; auto. }
    split; [simpl; congruence|]. split; [|auto]. simpl. apply remember_ok; auto.
  - destruct (B m) as [Bv (N1 & N2 & N3)]; [exact (conj M1 (conj M2 M3))|]. destruct (body m) as [[b2|e2] m2]; simpl in *.
    + split; [auto|]. split; [|auto]. apply remember_ok; auto. congruence.
    + split; [auto|]. split; auto.
Qed.
Lemma cached_half_sound k body v : unc k -> on_key half_pure k = v -> sound body v ->
  sound (cached m_half set_half k body) v.
Proof.
  intros U E B m (M1 & M2 & M3). unfold cached. destruct (lookup (m_half m) k) as [b|] eqn:L.
  - assert (on_key half_pure k = Ok b) as Eb.
    { eapply lookup_ok; eauto. intros k' U' E'. apply key_respects; auto. }
    split; [simpl; congruence|]. split; [auto|]. split; [auto|]. simpl. apply remember_ok; auto.
  - destruct (B m) as [Bv (N1 & N2 & N3)]; [exact (conj M1 (conj M2 M3))|]. destruct (body m) as [[b2|e2] m2]; simpl in *.
    + split; [auto|]. split; [auto|]. split; [auto|]. apply remember_ok; auto. congruence.
    + split; [auto|]. split; auto.
Qed.
Lemma cached_tuples_sound k body v : unc k -> on_key tuples_pure k = v -> sound body v ->
  sound (cached m_tuples set_tuples k body) v.
Proof.
  intros U E B m (M1 & M2 & M3). unfold cached. destruct (lookup (m_tuples m) k) as [b|] eqn:L.
  - assert (on_key tuples_pure k = Ok b) as Eb.
    { eapply lookup_ok; eauto. intros k' U' E'. apply key_respects; auto. }
    split; [simpl; congruence|]. split; [auto|]. split; [|auto]. simpl. apply remember_ok; auto.
  - destruct (B m) as [Bv (N1 & N2 & N3)]; [exact (conj M1 (conj M2 M3))|]. destruct (body m) as [[b2|e2] m2]; simpl in *.
    + split; [auto|]. split; [auto|]. split; [|auto]. apply remember_ok; auto. congruence.
    + split; [auto|]. split; auto.
Qed.

Lemma any_m_sound {A} (f : A -> st) (g : A -> res bool) l :
  (forall x, In x l -> sound (f x) (g x)) -> sound (any_m f l) (any_res g l).
Proof.
  induction l as [|x l IH]; intros H; simpl; [apply sound_pure|].
  intros m M. destruct (H x) with (m := m) as [E M']; [simpl; auto|exact M|idtac].
  destruct (f x m) as [[bb|ee] m'] eqn:F; simpl in *; rewrite <- E; [|auto]. destruct bb; simpl; auto.
  all: apply IH; auto; intros y Hy; apply H; auto.
Qed.
Lemma all_m_sound {A} (f : A -> st) (g : A -> res bool) l :
  (forall x, In x l -> sound (f x) (g x)) -> sound (all_m f l) (all_res g l).
Proof.
  induction l as [|x l IH]; intros H; simpl; [apply sound_pure|].
  intros m M. destruct (H x) with (m := m) as [E M']; [simpl; auto|exact M|idtac].
  destruct (f x m) as [[bb|ee] m'] eqn:F; simpl in *; rewrite <- E; [|auto]. destruct bb; simpl; auto.
  all: apply IH; auto; intros y Hy; apply H; auto.
Qed.

Lemma uncoerced_scalar l r a b : uncoerced l r -> In a (scalars l) -> In b (scalars r) -> uncoerced (VS a) (VS b).
Proof.
  intros [[Hl Hr]|(Hl & Hr & _)] Ha Hb; rewrite Forall_forall in *.
  - left. split; repeat constructor; auto.
  - right. split; [repeat constructor; auto|]. split; [repeat constructor; auto|]. intros (x & y & C & _). discriminate.
Qed.

Lemma scalar_m_sound op a b : uncoerced (VS a) (VS b) -> sound (scalar_m op a b) (op_scalar op a b).
Proof. intro U. apply cached_op_sound; [exact U|reflexivity|apply sound_pure]. Qed.

Lemma half_in_sound op l r : uncoerced l r -> op = OIn \/ op = ONin -> sound (half_in_body op l r) (half_pure op l r).
Proof.
  intros U H.
  assert (S : forall o a b, In a (scalars l) -> In b (scalars r) -> sound (scalar_m o a b) (op_scalar o a b)).
  { intros o a b Ha Hb. apply scalar_m_sound. eapply uncoerced_scalar; eauto. }
  destruct H as [-> | ->]; destruct l, r; simpl in *; try apply sound_pure;
    try (apply any_m_sound; intros; apply S; auto); apply all_m_sound; intros; apply S; auto.
Qed.

Lemma top_in_sound op l r : uncoerced l r -> op = OIn \/ op = ONin ->
  half_pure op l r = apply_operator op l r ->
  sound (top_in_m op l r) (half_pure op l r).
Proof.
  intros U H E. unfold top_in_m. apply cached_op_sound; [exact U|symmetry; exact E|].
  apply cached_half_sound; [exact U|reflexivity|]. apply half_in_sound; auto.
Qed.

Definition one_tuple (l r : value) : Prop :=
  match l, r with VT _, VS _ | VS _, VT _ => True | _, _ => False end.

Lemma half_m_sound op l r : one_tuple l r -> uncoerced l r -> (forall o, half_pure o l r = apply_operator o l r) ->
  sound (half_m op l r) (half_pure op l r).
Proof.
  intros O U E. unfold half_m. apply cached_half_sound; [exact U|reflexivity|].
  assert (S : forall o a b, In a (scalars l) -> In b (scalars r) -> sound (scalar_m o a b) (op_scalar o a b)).
  { intros o a b Ha Hb. apply scalar_m_sound. eapply uncoerced_scalar; eauto. }
  assert (T : forall o, o = OIn \/ o = ONin -> sound (top_in_m o l r) (half_pure o l r)).
  { intros o Ho. apply top_in_sound; auto. }
  destruct op.
  1-4: destruct l, r; try destruct O; apply sound_pure.
  - destruct l as [a|[|x [|y l]]], r as [b|[|x' [|y' r]]]; cbn [half_pure op_half_l op_half_r] in *;
      try destruct O; try apply sound_pure; try (apply S; simpl; auto; fail); try (apply (T OIn); auto).
  - replace (half_pure ONeq l r) with (half_pure ONin l r) by (destruct l, r; reflexivity). apply T. auto.
  - apply half_in_sound; auto.
  - apply half_in_sound; auto.
Qed.

Lemma apply_m_sound op l r : uncoerced l r -> sound (apply_m op l r) (apply_operator op l r).
Proof.
  intro U. unfold apply_m. apply cached_op_sound; [exact U|reflexivity|].
  destruct l as [a|a], r as [b|b]; cbn [apply_operator].
  - apply sound_pure.
  - destruct (is_none a) eqn:N; [apply sound_pure|].
    apply (half_m_sound op (VS a) (VT b) I U). intro o. simpl. rewrite N. reflexivity.
  - destruct (is_none b) eqn:N; [apply sound_pure|].
    apply (half_m_sound op (VT a) (VS b) I U). intro o. simpl. rewrite N. reflexivity.
  - apply cached_tuples_sound; [exact U|reflexivity|apply sound_pure].
Qed.

Lemma run_m_ok calls : forall m, memo_ok m -> Forall unc calls -> memo_ok (run_m m calls).
Proof.
  induction calls as [|[[op l] r] t IH]; intros m M F; simpl; [exact M|].
  inversion F; subst. apply IH; [|assumption]. apply apply_m_sound; assumption.
Qed.

Lemma memo_transparent calls op l r : Forall unc calls -> uncoerced l r ->
  fst (apply_m op l r (run_m memo_empty calls)) = apply_operator op l r.
Proof.
  intros F U. apply apply_m_sound; [exact U|]. apply run_m_ok; [|exact F].
  repeat split; simpl in *; tauto.
Qed.
