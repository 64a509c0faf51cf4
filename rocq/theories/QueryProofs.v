From Coq Require Import List ZArith QArith Bool String Lia Lqa Permutation.
From Verif Require Import Prelude Dec Status Course Claims Exceptions Op Context CondExpr Predicate Limit Apply Assertion Query Ncr.
From Verif Require Import ListFacts EnumProofs EnumProps TranscriptSpec TranscriptProofs AssertionSpec LimitSpec LimitProofs LimitProps ExceptionsProofs ApplyProofs AssertionProofs AssertionProps QuerySpec.
Import ListNotations.
Local Open Scope string_scope.
Local Open Scope list_scope.
Local Open Scope Q_scope.

Lemma instr_iff k l : instr k l = true <-> In k l.
Proof. apply seen_in. Qed.
Lemma instr_no k l : instr k l = false <-> ~ In k l.
Proof. apply seen_not. Qed.

(** ** generators *)
Lemma gflat_list_app {A B} (f : A -> gen B) a b e : (forall x, In x a -> g_exn (f x) = None) ->
  g_items (gflat_list f (a ++ b) e) = flat_map (fun x => g_items (f x)) a ++ g_items (gflat_list f b e) /\
  g_exn (gflat_list f (a ++ b) e) = g_exn (gflat_list f b e).
Proof.
  induction a as [|x t IH]; intro H; cbn [app gflat_list flat_map]; [auto|].
  unfold gapp. rewrite (H x (or_introl eq_refl)). cbn [g_items g_exn]. destruct IH as [-> ->]; [intros; apply H; simpl; auto|].
  rewrite app_assoc. auto.
Qed.
Lemma gflat_in {A B} (f : A -> gen B) l e y : In y (g_items (gflat_list f l e)) -> exists x, In x l /\ In y (g_items (f x)).
Proof.
  induction l as [|x t IH]; cbn [gflat_list]; [intros []|]. unfold gapp. destruct (g_exn (f x)).
  - intro H. exists x. simpl. auto.
  - cbn [g_items]. rewrite in_app_iff. intros [H|H]; [exists x; simpl; auto|]. destruct (IH H) as [x' [I J]]. exists x'. simpl. auto.
Qed.
Lemma gflat_in_conv {A B} (f : A -> gen B) l e y x : (forall x, In x l -> g_exn (f x) = None) ->
  In x l -> In y (g_items (f x)) -> In y (g_items (gflat_list f l e)).
Proof.
  intros N I J. destruct (gflat_list_app f l [] e N) as [E _]. rewrite app_nil_r in E. rewrite E, in_app_iff. left. apply in_flat_map. eauto.
Qed.
Lemma gflat_exn {A B} (f : A -> gen B) l e : (forall x, In x l -> g_exn (f x) = None) -> g_exn (gflat_list f l e) = e.
Proof. intro N. destruct (gflat_list_app f l [] e N) as [_ E]. rewrite app_nil_r in E. exact E. Qed.

Lemma all_sizes_in {A} (l s : list A) : In s (all_sizes l) <-> subseq s l /\ s <> [].
Proof.
  unfold all_sizes, nrange. rewrite in_flat_map. setoid_rewrite in_seq. setoid_rewrite in_combs. split.
  - intros [n [R [S L]]]. split; auto. intros ->. simpl in L. lia.
  - intros [S N]. exists (List.length s). assert (G := subseq_length _ _ S). split; [|auto].
    destruct s; [congruence|]. simpl in *. lia.
Qed.

(** ** the deciding assertion *)
Lemma listed_flat q : listed_assertions q = flat_map flatten_assertion (q_asserts q).
Proof. unfold listed_assertions. apply flat_map_ext. intros [b|p c t [e|]|p c t]; reflexivity. Qed.
Lemma asserted_iff q a : asserted q a <-> In a (listed_assertions q).
Proof.
  rewrite listed_flat. unfold asserted. rewrite in_flat_map. split; intros [x [I H]]; exists x; split; auto.
  - destruct x as [b|p c t e|p c t]; simpl.
    + auto.
    + destruct H as [<-| ->]; simpl; auto.
    + auto.
  - destruct x as [b|p c t e|p c t]; simpl in H.
    + destruct H as [H|[]]; auto.
    + destruct H as [H|H]; [auto|]. destruct e; simpl in H; [|tauto]. destruct H as [->|[]]. auto.
    + destruct H as [H|[]]; auto.
Qed.
Notation ev a := (dval (as_expected a)).
Definition first_largest (l : list assertion) (a : assertion) : Prop :=
  exists pre post, l = pre ++ a :: post /\ (forall b, In b pre -> ev b < ev a) /\ (forall b, In b post -> ev b <= ev a).
Lemma max_expected_spec l : forall b, first_largest (b :: l) (max_expected b l).
Proof.
  induction l as [|y t IH]; intro b; cbn [max_expected].
  - exists [], []. repeat split; intros x [].
  - destruct (Qltb (ev b) (ev y)) eqn:E.
    + apply Qltb_iff in E. destruct (IH y) as [pre [post [Eq [A B]]]]. exists (b :: pre), post. cbn [app]. rewrite Eq. split; auto. split; auto.
      intros x [<-|I]; auto. set (m := max_expected y t) in *. destruct pre as [|z pre']; cbn [app] in Eq.
      * injection Eq as Eq _. rewrite <- Eq. exact E.
      * injection Eq as <- Eq. eapply Qlt_trans; [exact E|]. apply A. simpl. auto.
    + apply Qltb_no in E. destruct (IH b) as [pre [post [Eq [A B]]]]. set (m := max_expected b t) in *. destruct pre as [|z pre']; cbn [app] in Eq.
      * exists [], (y :: t). injection Eq as Eb Et. rewrite <- Eb in *. rewrite <- Et in B. repeat split; [intros x []|]. intros x [<-|I]; auto.
      * injection Eq as <- Eq. exists (b :: y :: pre'), post. cbn [app]. split; [congruence|]. repeat split; auto.
        intros x [<-|[<-|I]]; [apply A; simpl; auto| |apply A; simpl; auto]. eapply Qle_lt_trans; [exact E|]. apply A. simpl. auto.
Qed.
Lemma filter_split {A} (f : A -> bool) l : forall pre a post, filter f l = pre ++ a :: post ->
  exists p1 p2, l = p1 ++ a :: p2 /\ filter f p1 = pre /\ filter f p2 = post /\ f a = true.
Proof.
  induction l as [|x t IH]; intros pre a post H; cbn [filter] in H; [destruct pre; discriminate|].
  destruct (f x) eqn:F.
  - destruct pre as [|y pre]; cbn [app] in H; injection H as -> H.
    + exists [], t. cbn [filter]. auto.
    + destruct (IH _ _ _ H) as [p1 [p2 [-> [E1 [E2 E3]]]]]. exists (y :: p1), p2. cbn [filter app]. rewrite F, E1. auto.
  - destruct (IH _ _ _ H) as [p1 [p2 [-> [E1 [E2 E3]]]]]. exists (x :: p1), p2. cbn [filter app]. rewrite F. auto.
Qed.
Lemma is_count_iff a : as_is_simple_count a = true <-> counts a.
Proof. unfold as_is_simple_count, counts. destruct (as_key a); split; intro H; try discriminate; auto; destruct H; discriminate. Qed.
Lemma is_sum_iff a : as_is_simple_sum a = true <-> sums a.
Proof. unfold as_is_simple_sum, sums. destruct (as_key a); split; intro H; try discriminate; auto. Qed.
Lemma largest_spec f kind q : (forall a, f a = true <-> kind a) ->
  match max_by_expected (filter f (flat_map flatten_assertion (q_asserts q))) with
  | Some a => deciding kind q a
  | None => none_of kind q
  end.
Proof.
  intro K. rewrite <- listed_flat. destruct (filter f (listed_assertions q)) as [|x t] eqn:E.
  - intros a A Ka. assert (In a []) by (rewrite <- E; apply filter_In; rewrite <- asserted_iff, K; auto). auto.
  - cbn [max_by_expected]. destruct (max_expected_spec t x) as [pre [post [Eq [A B]]]]. rewrite <- E in Eq.
    apply filter_split in Eq. destruct Eq as [p1 [p2 [L [<- [<- F]]]]]. split; [apply K; exact F|]. exists p1, p2. split; auto.
    split; intros b I Kb; [apply A|apply B]; apply filter_In; rewrite K; auto.
Qed.
Lemma deciding_unique kind q a b : deciding kind q a -> deciding kind q b -> a = b.
Proof.
  intros [Ka [p1 [p2 [E [A B]]]]] [Kb [r1 [r2 [E' [A' B']]]]]. rewrite E in E'. clear E.
  assert (H : forall p1 r1 p2 r2, p1 ++ a :: p2 = r1 ++ b :: r2 -> a = b \/ (In a r1 /\ In b p2) \/ (In b p1 /\ In a r2)).
  { clear. induction p1 as [|x p1 IH]; intros [|y r1] p2 r2 H; cbn [app] in H.
    - injection H as H _. auto.
    - injection H as <- ->. right. left. split; [simpl; auto|]. apply in_or_app. simpl. auto.
    - injection H as -> <-. right. right. split; [simpl; auto|]. apply in_or_app. simpl. auto.
    - injection H as _ H. destruct (IH _ _ _ H) as [?|[[? ?]|[? ?]]]; simpl; auto 6. }
  destruct (H _ _ _ _ E') as [?|[[I J]|[I J]]]; auto; exfalso.
  - specialize (A' _ I Ka). specialize (B _ J Kb). lra.
  - specialize (A _ I Kb). specialize (B' _ J Ka). lra.
Qed.
Lemma deciding_asserted kind q a : deciding kind q a -> asserted q a /\ kind a.
Proof. intros [K [p1 [p2 [E _]]]]. split; auto. apply asserted_iff. rewrite E. apply in_or_app. simpl. auto. Qed.

(** ** candidates *)
Lemma ins_step cx q es : forall data ins forced d i f, q_insert cx q es data ins forced = Ok (d, i, f) ->
  exists more, d = data ++ map ICourse more /\
  (forall c, In c more <-> exists x, In x es /\ ~ In (exc_clbid x) (q_excluded q) /\
     (if exc_forced x then forced_by_clbid cx (exc_clbid x) = Ok c else find_by_clbid cx (exc_clbid x) = Some c)) /\
  (forall k, In k i <-> In k ins \/ exists x, In x es /\ ~ In (exc_clbid x) (q_excluded q) /\ exc_clbid x = k) /\
  (forall k, In k f <-> In k forced \/ exists x, In x es /\ ~ In (exc_clbid x) (q_excluded q) /\ exc_forced x = true /\ exc_clbid x = k).
Proof.
  induction es as [|x t IH]; intros data ins forced d i f H; cbn [q_insert] in H.
  - injection H as <- <- <-. exists []. cbn [map]. rewrite app_nil_r. split; auto. split; [|split]; intro z; split; auto;
      try (intros [?|[y [[] _]]]; auto; fail); try (intros []; fail); intros [y [[] _]].
  - destruct (instr (exc_clbid x) (q_excluded q)) eqn:EX.
    + apply instr_iff in EX. destruct (IH _ _ _ _ _ _ H) as [more [D [M [I F]]]]. exists more. split; auto. split; [|split].
      * intro c. rewrite M. split; intros [y [Iy [N R]]]; exists y; (split; [|split; auto]); simpl; auto.
        destruct Iy as [<-|Iy]; [contradiction|auto].
      * intro k. rewrite I. split; (intros [K|[y [Iy [N R]]]]; [auto|right]); exists y; (split; [|split; auto]); simpl; auto.
        destruct Iy as [<-|Iy]; [contradiction|auto].
      * intro k. rewrite F. split; (intros [K|[y [Iy [N R]]]]; [auto|right]); exists y; (split; [|split; auto]); simpl; auto.
        destruct Iy as [<-|Iy]; [contradiction|auto].
    + apply instr_no in EX. destruct (exc_forced x) eqn:FX.
      * destruct (forced_by_clbid cx (exc_clbid x)) as [c0|] eqn:FC; cbn [bind] in H; [|discriminate].
        destruct (IH _ _ _ _ _ _ H) as [more [D [M [I F]]]]. exists (c0 :: more).
        split; [rewrite D, <- app_assoc; reflexivity|]. split; [|split].
        -- intro c. cbn [In]. rewrite M. split.
           ++ intros [<-|[y [Iy R]]]; [exists x; rewrite FX; auto|exists y; auto].
           ++ intros [y [[<-|Iy] [N R]]]; [left; rewrite FX in R; congruence|right; exists y; auto].
        -- intro k. rewrite I, in_app_iff. cbn [In]. split.
           ++ intros [[K|[<-|[]]]|[y [Iy R]]]; [auto|right; exists x; auto|right; exists y; tauto].
           ++ intros [K|[y [[<-|Iy] [N R]]]]; [auto|auto|right; exists y; auto].
        -- intro k. rewrite F, in_app_iff. cbn [In]. split.
           ++ intros [[K|[<-|[]]]|[y [Iy R]]]; [auto|right; exists x; auto|right; exists y; tauto].
           ++ intros [K|[y [[<-|Iy] [N [R1 R2]]]]]; [auto|auto|right; exists y; auto].
      * destruct (IH _ _ _ _ _ _ H) as [more [D [M [I F]]]].
        exists (match find_by_clbid cx (exc_clbid x) with Some c => c :: more | None => more end).
        split; [rewrite D; destruct (find_by_clbid cx (exc_clbid x)); [rewrite <- app_assoc|]; reflexivity|]. split; [|split].
        -- intro c. destruct (find_by_clbid cx (exc_clbid x)) as [c0|] eqn:FC; cbn [In]; rewrite M; split.
           ++ intros [<-|[y [Iy R]]]; [exists x; rewrite FX; auto|exists y; auto].
           ++ intros [y [[<-|Iy] [N R]]]; [left; rewrite FX in R; congruence|right; exists y; auto].
           ++ intros [y [Iy R]]. exists y. auto.
           ++ intros [y [[<-|Iy] [N R]]]; [rewrite FX in R; congruence|exists y; auto].
        -- intro k. rewrite I, in_app_iff. cbn [In]. split.
           ++ intros [[K|[<-|[]]]|[y [Iy R]]]; [auto|right; exists x; auto|right; exists y; tauto].
           ++ intros [K|[y [[<-|Iy] [N R]]]]; [auto|auto|right; exists y; auto].
        -- intro k. rewrite F. cbn [In]. split.
           ++ intros [K|[y [Iy R]]]; [auto|right; exists y; tauto].
           ++ intros [K|[y [[<-|Iy] [N [R1 R2]]]]]; [auto|congruence|right; exists y; auto].
Qed.

Lemma inserts_at l p x : In x (get_inserts (group_exceptions l) p) <-> In x l /\ ex_path x = p /\ exists k f, ex_act x = AInsert k f.
Proof.
  unfold get_inserts. destruct (groups_ok l) as [_ [A _]]. rewrite A, !filter_In, path_eqb_iff. unfold is_insert. split.
  - intros [[I P] K]. split; auto. split; auto. destruct (ex_act x); try discriminate. eauto.
  - intros [I [P [k [f E]]]]. rewrite E. auto.
Qed.
Lemma mapr_as_courses cs more : mapr as_course (map ICourse cs ++ map ICourse more) = Ok (cs ++ more).
Proof. rewrite <- map_app. apply as_courses_map. Qed.

Lemma filtered_spec cx l q data ins forced : cx_exc cx = group_exceptions l -> q_source q = QCourses ->
  q_filtered cx q = Ok (data, ins, forced) ->
  exists cs, data = map ICourse cs /\
    (forall c, In c cs <-> candidate cx l q c) /\
    (forall k, In k ins <-> inserted_id l q k) /\ (forall k, In k forced <-> forced_id l q k).
Proof.
  intros EX SO H. unfold q_filtered in H.
  destruct (match q_where q with Some _ => _ | None => _ end) as [base|] eqn:W in H; cbn [bind] in H; [|discriminate].
  rewrite SO in H.
  assert (BC : exists bs, base = map ICourse bs /\ forall c, In c bs <-> eligible cx q c).
  { unfold q_data in W. rewrite SO in W. set (f := fun c => negb (instr (c_clbid c) (q_excluded q))) in W.
    fold (query_courses cx q) in W.
    assert (FI : forall c, In c (filter f (query_courses cx q)) <-> In c (query_courses cx q) /\ ~ In (c_clbid c) (q_excluded q)).
    { intro c. rewrite filter_In. unfold f. rewrite negb_true_iff, instr_no. reflexivity. }
    unfold eligible, passes_where. destruct (q_where q) as [w|].
    - apply filter_res_items in W. destruct W as [-> T].
      exists (filter (fun c => match apply_pred (ICourse c) w with Ok b => b | Err _ => false end) (filter f (query_courses cx q))). split.
      + generalize (filter f (query_courses cx q)). intro L. induction L as [|c t IH]; [reflexivity|]. cbn [map filter].
        destruct (match apply_pred (ICourse c) w with Ok b => b | Err _ => false end); cbn [map]; rewrite IH; reflexivity.
      + intro c. rewrite filter_In, FI. destruct (apply_pred (ICourse c) w) as [b|]; [|intuition discriminate].
        split; [intros [? ->]; tauto|]. intros [? [? E]]. injection E as ->. auto.
    - injection W as <-. exists (filter f (query_courses cx q)). split; auto. intro c. rewrite FI. tauto. }
  destruct BC as [bs [-> BE]]. rewrite EX in H.
  destruct (ins_step _ _ _ _ _ _ _ _ _ H) as [more [-> [M [I F]]]].
  exists (bs ++ more). split; [rewrite map_app; reflexivity|].
  assert (MI : forall c, In c more <-> inserted_into cx l q c).
  { intro c. rewrite M. split.
    - intros [x [Ix [N R]]]. apply inserts_at in Ix. destruct Ix as [L [P [k [f E]]]]. exists x, k, f.
      unfold exc_clbid, exc_forced in *. rewrite E in *. repeat split; auto. destruct f; auto.
    - intros [x [k [f [L [P [E [N R]]]]]]]. exists x. split; [apply inserts_at; eauto|]. unfold exc_clbid, exc_forced. rewrite E.
      split; auto. destruct f.
      + destruct R as [R|[_ R]]; auto. unfold forced_by_clbid. rewrite R. reflexivity.
      + destruct R as [R|[R _]]; [auto|discriminate]. }
  split; [|split].
  - intro c. rewrite in_app_iff, BE, MI. reflexivity.
  - intro k. rewrite I. cbn [In]. split.
    + intros [[]|[x [Ix [N R]]]]. apply inserts_at in Ix. destruct Ix as [L [P [k' [f E]]]]. unfold exc_clbid in *. rewrite E in *. subst k'.
      exists x, f. auto.
    + intros [x [f [L [P [E N]]]]]. right. exists x. split; [apply inserts_at; eauto|]. unfold exc_clbid. rewrite E. auto.
  - intro k. rewrite F. cbn [In]. split.
    + intros [[]|[x [Ix [N [R1 R2]]]]]. apply inserts_at in Ix. destruct Ix as [L [P [k' [f E]]]]. unfold exc_clbid, exc_forced in *. rewrite E in *. subst k' f.
      exists x. auto.
    + intros [x [L [P [E N]]]]. right. exists x. split; [apply inserts_at; eauto|]. unfold exc_clbid, exc_forced. rewrite E. auto.
Qed.
Lemma forced_is_inserted l q k : forced_id l q k -> inserted_id l q k.
Proof. intros [x H]. exists x, true. exact H. Qed.

(** ** the selections of one limited transcript *)
Definition complete_with (ins forced : list string) (v combo : list course) : list course :=
  combo ++ filter (fun c => instr (c_clbid c) (ins ++ forced) && negb (instr (c_clbid c) (map c_clbid combo))) v.
Lemma completed_iff l q ins forced v combo out :
  (forall k, In k ins <-> inserted_id l q k) -> (forall k, In k forced <-> forced_id l q k) ->
  (completed l q v combo out <-> out = complete_with ins forced v combo).
Proof.
  intros I F. unfold completed, complete_with.
  assert (X : forall c, instr (c_clbid c) (ins ++ forced) && negb (instr (c_clbid c) (map c_clbid combo)) = true <->
     inserted_id l q (c_clbid c) /\ ~ In (c_clbid c) (map c_clbid combo)).
  { intro c. rewrite andb_true_iff, negb_true_iff, instr_iff, instr_no, in_app_iff, I, F.
    assert (G := forced_is_inserted l q (c_clbid c)). tauto. }
  split.
  - intros [f [Hf ->]]. f_equal. apply filter_ext_in. intros c Ic. specialize (Hf c Ic). rewrite <- X in Hf.
    destruct (f c), (instr (c_clbid c) (ins ++ forced) && negb (instr (c_clbid c) (map c_clbid combo))); intuition congruence.
  - intros ->. eexists. split; [|reflexivity]. intros c _. apply X.
Qed.
Lemma count_shortcut_in {A} a (v combo : list A) : In combo (g_items (count_shortcut a v)) ->
  subseq combo v /\ In (Z.of_nat (List.length combo)) (g_items (input_size_range a (Z.of_nat (List.length v)))).
Proof.
  unfold count_shortcut, gflat. intro H. apply gflat_in in H. destruct H as [n [I H]]. unfold combinations in H.
  destruct (Z.ltb_spec n 0); [destruct H|]. cbn [gret g_items] in H. apply in_combs in H. destruct H as [S L]. split; auto.
  rewrite L, Z2Nat.id by lia. exact I.
Qed.
Lemma count_shortcut_conv {A} a (v combo : list A) : (forall n, In n (g_items (input_size_range a (Z.of_nat (List.length v)))) -> (0 <= n)%Z) ->
  subseq combo v -> In (Z.of_nat (List.length combo)) (g_items (input_size_range a (Z.of_nat (List.length v)))) ->
  In combo (g_items (count_shortcut a v)).
Proof.
  intros P S I. unfold count_shortcut, gflat. apply gflat_in_conv with (x := Z.of_nat (List.length combo)); auto.
  - intros n J. unfold combinations. specialize (P n J). destruct (Z.ltb_spec n 0); [lia|reflexivity].
  - unfold combinations. destruct (Z.ltb_spec (Z.of_nat (List.length combo)) 0); [lia|]. cbn [gret g_items]. rewrite Nat2Z.id. apply in_combs. auto.
Qed.
Definition well_counted (q : query) : Prop :=
  forall a, deciding counts q a -> numeric (as_op a) /\ exists e, (0 <= e)%Z /\ dval (as_expected a) == inject_Z e.
Lemma sizes_tried a e n k : dval (as_expected a) == inject_Z e -> numeric (as_op a) -> (0 <= e)%Z -> (0 <= k <= n)%Z ->
  (In k (g_items (input_size_range a n)) <-> size_tried a e n k).
Proof.
  intros E N He Hk. destruct (sizes_exact a e n k E N) as [_ I]. rewrite I. unfold size_tried, size_meets, meets.
  destruct (as_op a); try tauto.
  - rewrite <- Zlt_Qlt. lia. - rewrite <- Zle_Qle. lia. - rewrite <- Zlt_Qlt. lia.
  - rewrite <- Zle_Qle. destruct (as_at_most a); intuition (try discriminate; try lia).
  - rewrite inject_Z_injective. lia.
Qed.
Lemma sizes_nonneg a e n k : dval (as_expected a) == inject_Z e -> numeric (as_op a) -> (0 <= e)%Z -> (0 <= n)%Z ->
  In k (g_items (input_size_range a n)) -> (0 <= k)%Z.
Proof.
  intros E N He Hn H. apply (proj2 (sizes_exact a e n k E N)) in H. destruct (as_op a); try lia; try tauto. destruct (as_at_most a); lia.
Qed.
Lemma iterate_spec q v : well_counted q ->
  g_exn (iterate_courses_set q v) = None /\ forall combo, In combo (g_items (iterate_courses_set q v)) <-> tried q v combo.
Proof.
  intro WC. unfold iterate_courses_set, tried.
  assert (LC := largest_spec _ _ q is_count_iff). assert (LS := largest_spec _ _ q is_sum_iff).
  fold (largest_count (flat_map flatten_assertion (q_asserts q))) in LC. fold (largest_sum (flat_map flatten_assertion (q_asserts q))) in LS.
  assert (NO : forall kind a, none_of kind q -> deciding kind q a -> False).
  { intros kind a N D. apply deciding_asserted in D. exact (N a (proj1 D) (proj2 D)). }
  destruct (largest_count _) as [a|].
  - destruct (WC a LC) as [N [e [He E]]].
    assert (P : forall n, In n (g_items (input_size_range a (Z.of_nat (List.length v)))) -> (0 <= n)%Z) by (intros n; apply (sizes_nonneg a e); auto; lia).
    split.
    + unfold count_shortcut, gflat. rewrite gflat_exn; [exact (proj1 (sizes_exact a e _ 0%Z E N))|].
      intros n J. unfold combinations. specialize (P n J). destruct (Z.ltb_spec n 0); [lia|reflexivity].
    + intro combo. split.
      * intro H. left. exists a, e. apply count_shortcut_in in H. destruct H as [S H]. assert (G := subseq_length _ _ S).
        rewrite (sizes_tried a e) in H by (auto; lia). auto.
      * intros [[a' [e' [D [E' [S H]]]]]|[[NC _]|[NC _]]]; [|exfalso; eauto|exfalso; eauto].
        rewrite (deciding_unique _ _ _ _ D LC) in *. clear D. assert (e' = e) as -> by (apply inject_Z_injective; rewrite <- E, <- E'; reflexivity).
        apply count_shortcut_conv; auto. assert (G := subseq_length _ _ S). apply (sizes_tried a e); auto. lia.
  - destruct (largest_sum _) as [a|].
    + split; [unfold sum_shortcut; destruct (Qltb _ _); reflexivity|]. intro combo. unfold sum_shortcut. change (sum_credits v) with (credits_of v).
      split.
      * intro H. right. left. split; auto. exists a. split; auto. destruct (Qltb _ _) eqn:Q0.
        -- apply Qltb_iff in Q0. left. destruct H as [<-|[]]. auto.
        -- apply Qltb_no in Q0. right. cbn [gret g_items] in H. apply filter_In in H. rewrite all_sizes_in, Qleb_iff in H.
           change (sum_credits combo) with (credits_of combo) in H. tauto.
      * intros [[a' [e' [D _]]]|[[_ [a' [D H]]]|[_ [NS _]]]]; [exfalso; eauto| |exfalso; eauto].
        rewrite (deciding_unique _ _ _ _ D LS) in *. clear D. destruct (Qltb _ _) eqn:Q0.
        -- apply Qltb_iff in Q0. destruct H as [[_ ->]|[H _]]; [simpl; auto|exfalso; lra].
        -- apply Qltb_no in Q0. destruct H as [[H _]|[_ H]]; [exfalso; lra|]. cbn [gret g_items]. apply filter_In. rewrite all_sizes_in, Qleb_iff.
           change (sum_credits combo) with (credits_of combo). tauto.
    + split; [reflexivity|]. intro combo. cbn [gret g_items]. rewrite all_sizes_in. split.
      * intro H. right. right. tauto.
      * intros [[a' [e' [D _]]]|[[_ [a' [D H]]]|[_ [_ H]]]]; [exfalso; eauto|exfalso; eauto|auto].
Qed.
(** without any assumption, what is offered is a selection of [v] *)
Lemma iterate_sound q v combo : In combo (g_items (iterate_courses_set q v)) -> subseq combo v.
Proof.
  unfold iterate_courses_set. destruct (largest_count _); [intro H; apply count_shortcut_in in H; tauto|].
  destruct (largest_sum _).
  - unfold sum_shortcut. destruct (Qltb _ _); intro H; [destruct H as [<-|[]]; apply subseq_refl|].
    cbn [gret g_items] in H. apply filter_In in H. rewrite all_sizes_in in H. tauto.
  - intro H. cbn [gret g_items] in H. rewrite all_sizes_in in H. tauto.
Qed.

(** ** the solutions *)
Definition selections_of ord (q : query) (cs : list course) (ins forced : list string) :=
  gflat (q_selections q ins forced) (limited_transcripts ord (q_limit q) forced cs).
Lemma solutions_form ord cx q cs ins forced : q_source q = QCourses -> q_overridden q = false ->
  q_filtered cx q = Ok (map ICourse cs, ins, forced) ->
  q_solutions ord cx q =
  match selections_of ord q cs ins forced with
  | Gen [] None => gret [q_solution q [] ins forced]
  | found => gmap (fun out => q_solution q (map ICourse out) ins forced) found
  end.
Proof.
  intros S O F. unfold q_solutions. rewrite O, F, S. rewrite as_courses_map. unfold selections_of.
  destruct (gflat _ _) as [[|x t] [e|]]; reflexivity.
Qed.
Lemma filtered_courses cx q r : q_source q = QCourses -> q_filtered cx q = Ok r ->
  exists cs ins forced, r = (map ICourse cs, ins, forced).
Proof.
  intros S F. destruct r as [[data ins] forced].
  unfold q_filtered in F. rewrite S in F.
  destruct (match q_where q with Some _ => _ | None => _ end) as [base|] eqn:W in F; cbn [bind] in F; [|discriminate].
  assert (B : exists bs, base = map ICourse bs).
  { unfold q_data in W. rewrite S in W. set (L := filter _ _) in W. destruct (q_where q) as [w|].
    - apply filter_res_items in W. destruct W as [-> T].
      exists (filter (fun c => match apply_pred (ICourse c) w with Ok b => b | Err _ => false end) L).
      generalize L. clear. intro L. induction L as [|c t IH]; [reflexivity|]. cbn [map filter].
      destruct (match apply_pred (ICourse c) w with Ok b => b | Err _ => false end); cbn [map]; rewrite IH; reflexivity.
    - injection W as <-. eauto. }
  destruct B as [bs ->]. destruct (ins_step _ _ _ _ _ _ _ _ _ F) as [more [-> _]]. exists (bs ++ more), ins, forced. rewrite map_app. reflexivity.
Qed.
Lemma solutions_in ord cx q cs ins forced s : q_source q = QCourses -> q_overridden q = false ->
  q_filtered cx q = Ok (map ICourse cs, ins, forced) ->
  (In s (g_items (q_solutions ord cx q)) <->
   exists out, s = q_solution q (map ICourse out) ins forced /\
     (In out (g_items (selections_of ord q cs ins forced)) \/
      (out = [] /\ selections_of ord q cs ins forced = Gen [] None))).
Proof.
  intros S O F. rewrite (solutions_form _ _ _ _ _ _ S O F). destruct (selections_of _ _ _ _ _) as [[|x t] [e|]].
  - cbn. split; [intros []|]. intros [out [_ [[]|[_ H]]]]. discriminate.
  - cbn [gret g_items In]. split; [intros [<-|[]]; exists []; auto|]. intros [out [-> [[]|[-> _]]]]. auto.
  - unfold gmap. cbn [g_items]. rewrite in_map_iff. split; [intros [o [<- I]]; eauto|]. intros [o [-> [I|[_ H]]]]; [eauto|discriminate].
  - unfold gmap. cbn [g_items]. rewrite in_map_iff. split; [intros [o [<- I]]; eauto|]. intros [o [-> [I|[_ H]]]]; [eauto|discriminate].
Qed.
Lemma offers_form l q ins forced out : (forall k, In k ins <-> inserted_id l q k) -> (forall k, In k forced <-> forced_id l q k) ->
  offers l q (q_solution q (map ICourse out) ins forced) out.
Proof.
  intros I F. unfold offers, q_solution. cbn. repeat split; auto; intro H.
  - apply in_app_iff in H. rewrite I in H. exact H. - apply in_app_iff. rewrite I. exact H.
  - apply in_app_iff in H. rewrite F in H. exact H. - apply in_app_iff. rewrite F. exact H.
Qed.
Lemma selections_in ord q cs ins forced out : In out (g_items (selections_of ord q cs ins forced)) ->
  exists v, In v (g_items (limited_transcripts ord (q_limit q) forced cs)) /\
    (if q_attempt q then exists combo, In combo (g_items (iterate_courses_set q v)) /\ out = complete_with ins forced v combo else out = v).
Proof.
  unfold selections_of, gflat. intro H. apply gflat_in in H. destruct H as [v [I J]]. exists v. split; auto.
  unfold q_selections in J. destruct (q_attempt q).
  - unfold gmap in J. cbn [g_items] in J. apply in_map_iff in J. destruct J as [combo [<- J]]. eauto.
  - destruct J as [<-|[]]. reflexivity.
Qed.
Lemma selections_in_conv ord q cs ins forced v : In v (g_items (limited_transcripts ord (q_limit q) forced cs)) ->
  (if q_attempt q then well_counted q else True) ->
  if q_attempt q then forall combo, tried q v combo -> In (complete_with ins forced v combo) (g_items (selections_of ord q cs ins forced))
  else In v (g_items (selections_of ord q cs ins forced)).
Proof.
  intros I W. assert (N : forall x, g_exn (q_selections q ins forced x) = None).
  { intro x. unfold q_selections. destruct (q_attempt q); [|reflexivity]. unfold gmap. cbn [g_exn]. apply iterate_spec. exact W. }
  unfold selections_of, gflat. destruct (q_attempt q) eqn:A.
  - intros combo T. eapply gflat_in_conv; [auto|exact I|]. unfold q_selections. rewrite A. unfold gmap. cbn [g_items].
    apply in_map_iff. exists combo. split; [reflexivity|]. apply iterate_spec; auto.
  - eapply gflat_in_conv; [auto|exact I|]. unfold q_selections. rewrite A. simpl. auto.
Qed.
Lemma limited_sub ord ls F cs v : set_order ord -> coherent ls ->
  In v (g_items (limited_transcripts ord ls F cs)) -> forall c, In c v -> In c cs.
Proof.
  intros O C I. destruct ls as [|l0 ls]; [destruct I as [<-|[]]; auto|].
  apply (limits_only_remove_limited_courses ord (l0 :: ls) F cs v O C ltac:(discriminate) I).
Qed.
Lemma complete_with_sub ins forced v combo c : subseq combo v -> In c (complete_with ins forced v combo) -> In c v.
Proof. intros S. unfold complete_with. rewrite in_app_iff, filter_In. intros [H|[H _]]; auto. eapply subseq_in; eauto. Qed.
Lemma complete_with_inserted ins forced v combo c : In c v -> In (c_clbid c) ins ->
  In (c_clbid c) (map c_clbid (complete_with ins forced v combo)).
Proof.
  intros I J. unfold complete_with. rewrite map_app, in_app_iff. destruct (instr (c_clbid c) (map c_clbid combo)) eqn:E; [left; apply instr_iff; exact E|right].
  apply in_map. apply filter_In. split; auto. rewrite E. cbn [negb]. rewrite andb_true_r. apply instr_iff. apply in_app_iff. auto.
Qed.

(** ** estimates *)
Lemma fold_add_sum {A} (f : A -> Z) l : forall z, fold_left (fun acc n => acc + f n)%Z l z = (z + fold_left (fun acc n => acc + f n) l 0)%Z.
Proof.
  induction l as [|x t IH]; intro z; cbn [fold_left]; [lia|]. rewrite IH, (IH (0 + f x)%Z). lia.
Qed.
Lemma ncr_bound {A} (l : list A) n : (0 <= n)%Z -> (Z.of_nat (List.length (combs (Z.to_nat n) l)) <= ncr (Z.of_nat (List.length l)) n)%Z /\
  ((n <= Z.of_nat (List.length l))%Z -> Z.of_nat (List.length (combs (Z.to_nat n) l)) = ncr (Z.of_nat (List.length l)) n).
Proof.
  intro Hn. destruct (Z.le_gt_cases n (Z.of_nat (List.length l))) as [L|L].
  - destruct (ncr_counts_combinations A l (Z.to_nat n) ltac:(lia)) as [E _]. rewrite Z2Nat.id in E by lia. rewrite E. lia.
  - rewrite ncr_outside by lia. rewrite combs_too_long by lia. simpl. lia.
Qed.
Lemma gflat_len {A B} (f : A -> gen B) (g : A -> Z) l e : (forall x, In x l -> (Z.of_nat (List.length (g_items (f x))) <= g x)%Z) ->
  (forall x, In x l -> (0 <= g x)%Z) ->
  (Z.of_nat (List.length (g_items (gflat_list f l e))) <= fold_left (fun acc n => acc + g n) l 0)%Z.
Proof.
  induction l as [|x t IH]; intros H P; cbn [gflat_list fold_left]; [simpl; lia|]. rewrite fold_add_sum.
  assert (Hx := H x (or_introl eq_refl)). assert (It := IH (fun y I => H y (or_intror I)) (fun y I => P y (or_intror I))).
  assert (0 <= fold_left (fun acc n => acc + g n) t 0)%Z.
  { clear -P. induction t as [|y t IH]; cbn [fold_left]; [lia|]. rewrite fold_add_sum.
    assert (0 <= g y)%Z by (apply P; simpl; auto). assert (0 <= fold_left (fun acc n => acc + g n) t 0)%Z by (apply IH; intros z [<-|Iz]; apply P; simpl; auto). lia. }
  unfold gapp. destruct (g_exn (f x)); cbn [g_items]; [lia|]. rewrite app_length. lia.
Qed.
Lemma gflat_len_eq {A B} (f : A -> gen B) (g : A -> Z) l e : (forall x, In x l -> Z.of_nat (List.length (g_items (f x))) = g x) ->
  (forall x, In x l -> g_exn (f x) = None) ->
  Z.of_nat (List.length (g_items (gflat_list f l e))) = fold_left (fun acc n => acc + g n)%Z l 0%Z.
Proof.
  induction l as [|x t IH]; intros H P; cbn [gflat_list fold_left]; [reflexivity|]. rewrite fold_add_sum.
  assert (Hx := H x (or_introl eq_refl)). assert (It := IH (fun y I => H y (or_intror I)) (fun y I => P y (or_intror I))).
  unfold gapp. rewrite (P x (or_introl eq_refl)). cbn [g_items]. rewrite app_length. lia.
Qed.
Lemma ncr_pos n r : (0 <= n -> 0 <= ncr n r)%Z.
Proof.
  intro Hn. destruct (Z.lt_ge_cases r 0) as [L|L]; [rewrite ncr_outside by lia; lia|].
  destruct (ncr_bound (repeat tt (Z.to_nat n)) r L) as [B _]. rewrite repeat_length, Z2Nat.id in B by lia. lia.
Qed.
Lemma combos_len {A} (l : list A) : Z.of_nat (List.length (all_sizes l)) =
  fold_left (fun acc n => acc + ncr (Z.of_nat (List.length l)) n)%Z (zrange 1 (Z.of_nat (List.length l) + 1)) 0%Z.
Proof.
  unfold all_sizes, nrange, zrange. replace (List.length l + 1 - 1)%nat with (List.length l) by lia.
  replace (Z.to_nat (Z.of_nat (List.length l) + 1 - 1)) with (List.length l) by lia.
  assert (G : forall k s, (1 <= s)%nat -> (s + k <= List.length l + 1)%nat -> forall z,
    fold_left (fun acc n => acc + ncr (Z.of_nat (List.length l)) n)%Z (map (fun i => 1 + Z.of_nat i)%Z (seq (s - 1) k)) z =
    (z + Z.of_nat (List.length (flat_map (fun n => combs n l) (seq s k))))%Z).
  { induction k as [|k IH]; intros s Hs Hk z; cbn [seq map fold_left flat_map]; [simpl; lia|].
    replace (S (s - 1)) with (S s - 1)%nat by lia. rewrite IH by lia. rewrite app_length.
    destruct (ncr_counts_combinations A l s ltac:(lia)) as [E _]. replace (1 + Z.of_nat (s - 1))%Z with (Z.of_nat s) by lia. lia. }
  assert (X := G (List.length l) 1%nat ltac:(lia) ltac:(lia) 0%Z). change (1 - 1)%nat with 0%nat in X. rewrite X. reflexivity.
Qed.
Lemma filter_len {A} (f : A -> bool) l : (List.length (filter f l) <= List.length l)%nat.
Proof. induction l as [|x t IH]; cbn [filter]; [simpl; lia|]. destruct (f x); simpl; lia. Qed.
Lemma estimate_set_bound q v n : q_estimate_set q v = Ok n -> (Z.of_nat (List.length (g_items (iterate_courses_set q v))) <= n)%Z.
Proof.
  unfold q_estimate_set, iterate_courses_set. destruct (largest_count _) as [a|].
  - unfold sum_ncr. destruct (g_exn (input_size_range a _)) eqn:E; [discriminate|]. intro H. injection H as <-.
    unfold count_shortcut, gflat. rewrite E. apply gflat_len; [|intros; apply ncr_pos; lia].
    intros k _. unfold combinations. destruct (Z.ltb_spec k 0); [simpl; apply ncr_pos; lia|]. cbn [gret g_items]. apply ncr_bound. lia.
  - destruct (largest_sum _) as [a|].
    + unfold sum_shortcut. destruct (Qltb _ _); intro H; [injection H as <-; simpl; lia|].
      unfold sum_ncr in H. cbn [g_exn gret g_items] in H. injection H as <-. cbn [gret g_items]. rewrite <- combos_len.
      apply inj_le, filter_len.
    + intro H. unfold sum_ncr in H. cbn [g_exn gret g_items] in H. injection H as <-. cbn [gret g_items]. rewrite <- combos_len. lia.
Qed.
(** every size tried exists *)
Definition sizes_exist (q : query) (v : list course) : Prop :=
  none_of sums q /\ forall a, deciding counts q a ->
    forall k, In k (g_items (input_size_range a (Z.of_nat (List.length v)))) -> (0 <= k <= Z.of_nat (List.length v))%Z.
Lemma estimate_set_exact q v n : sizes_exist q v -> q_estimate_set q v = Ok n ->
  Z.of_nat (List.length (g_items (iterate_courses_set q v))) = n /\ g_exn (iterate_courses_set q v) = None.
Proof.
  intros [NS SE]. unfold q_estimate_set, iterate_courses_set.
  assert (LC := largest_spec _ _ q is_count_iff). assert (LS := largest_spec _ _ q is_sum_iff).
  fold (largest_count (flat_map flatten_assertion (q_asserts q))) in LC. fold (largest_sum (flat_map flatten_assertion (q_asserts q))) in LS.
  destruct (largest_count _) as [a|].
  - unfold sum_ncr. destruct (g_exn (input_size_range a _)) eqn:E; [discriminate|]. intro H. injection H as <-.
    assert (N : forall k, In k (g_items (input_size_range a (Z.of_nat (List.length v)))) -> g_exn (combinations v k) = None).
    { intros k I. apply (SE a LC) in I. unfold combinations. destruct (Z.ltb_spec k 0); [lia|reflexivity]. }
    unfold count_shortcut, gflat. rewrite E. split; [|rewrite gflat_exn by exact N; reflexivity]. apply gflat_len_eq; [|exact N].
    intros k I. apply (SE a LC) in I. unfold combinations. destruct (Z.ltb_spec k 0); [lia|]. cbn [gret g_items]. apply ncr_bound; lia.
  - destruct (largest_sum _) as [a|].
    + apply deciding_asserted in LS. destruct LS as [A K]. destruct (NS a A K).
    + intro H. unfold sum_ncr in H. cbn [g_exn gret g_items] in H. injection H as <-. cbn [gret g_items g_exn]. rewrite <- combos_len. auto.
Qed.
Lemma mapr_sum {A} (f : A -> res Z) (l : list A) ns : mapr f l = Ok ns ->
  fold_left Z.add ns 0%Z = fold_left (fun acc x => acc + match f x with Ok n => n | Err _ => 0 end)%Z l 0%Z /\
  forall x, In x l -> exists n, f x = Ok n.
Proof.
  revert ns. induction l as [|x t IH]; intros ns H; cbn [mapr] in H.
  - injection H as <-. split; [reflexivity|]. intros x [].
  - destruct (f x) as [n|] eqn:F; cbn [bind] in H; [|discriminate]. destruct (mapr f t) as [ns'|] eqn:M; cbn [bind] in H; [|discriminate].
    injection H as <-. destruct (IH _ eq_refl) as [E T]. split.
    + cbn [fold_left]. rewrite (fold_add_sum (fun x => match f x with Ok n => n | Err _ => 0%Z end) t), F.
      assert (G : forall l z, fold_left Z.add l z = (z + fold_left Z.add l 0)%Z).
      { clear. induction l as [|x t IH]; intro z; cbn [fold_left]; [lia|]. rewrite IH, (IH (0 + x)%Z). lia. }
      rewrite G, E. lia.
    + intros y [<-|I]; eauto.
Qed.
Lemma estimate_form ord cx q cs ins forced n : q_source q = QCourses -> get_waive (cx_exc cx) (q_path q) = None ->
  q_filtered cx q = Ok (map ICourse cs, ins, forced) -> q_estimate ord cx q = Ok n ->
  exists ns, mapr (fun v => let! n := q_estimate_set q v in Ok (if q_attempt q then n else n + 1)%Z)
               (g_items (limited_transcripts ord (q_limit q) forced cs)) = Ok ns /\
    g_exn (limited_transcripts ord (q_limit q) forced cs) = None /\
    n = (if fold_left Z.add ns 0 =? 0 then 1 else fold_left Z.add ns 0)%Z.
Proof.
  intros S W F H. unfold q_estimate in H. rewrite W, F in H. cbn [bind] in H. rewrite S in H. rewrite as_courses_map in H. cbn [bind qsource_eqb] in H.
  destruct (mapr _ _) as [ns|] eqn:M; cbn [bind] in H; [|discriminate]. destruct (g_exn (limited_transcripts _ _ _ _)); cbn [bind] in H; [discriminate|].
  injection H as <-. exists ns. auto.
Qed.
Lemma estimate_set_nonneg q v n : q_estimate_set q v = Ok n -> (0 <= n)%Z.
Proof. intro H. apply estimate_set_bound in H. lia. Qed.
Lemma estimate_bounds ord cx q n : q_source q = QCourses -> get_waive (cx_exc cx) (q_path q) = None -> q_overridden q = false ->
  q_estimate ord cx q = Ok n -> (Z.of_nat (List.length (g_items (q_solutions ord cx q))) <= n)%Z.
Proof.
  intros S W O H. destruct (q_filtered cx q) as [r|e] eqn:F; [|unfold q_estimate in H; rewrite W, F in H; discriminate].
  destruct (filtered_courses _ _ _ S F) as [cs [ins [forced ->]]].
  destruct (estimate_form _ _ _ _ _ _ _ S W F H) as [ns [M [X ->]]]. rewrite (solutions_form _ _ _ _ _ _ S O F).
  apply mapr_sum in M. destruct M as [E T].
  pose (g := fun v => match (let! n := q_estimate_set q v in Ok (if q_attempt q then n else n + 1)%Z) with Ok n => n | Err _ => 0%Z end).
  change (fold_left Z.add ns 0%Z = fold_left (fun acc x => acc + g x)%Z (g_items (limited_transcripts ord (q_limit q) forced cs)) 0%Z) in E. rewrite E.
  assert (B : (Z.of_nat (List.length (g_items (selections_of ord q cs ins forced))) <= fold_left (fun acc x => acc + g x) (g_items (limited_transcripts ord (q_limit q) forced cs)) 0)%Z).
  { apply gflat_len.
    - intros v I. destruct (T v I) as [m Hm]. unfold g. rewrite Hm. destruct (q_estimate_set q v) as [k|] eqn:ES; cbn [bind] in Hm; [|discriminate].
      injection Hm as <-. unfold q_selections. destruct (q_attempt q).
      + unfold gmap. cbn [g_items]. rewrite map_length. apply estimate_set_bound. exact ES.
      + apply estimate_set_nonneg in ES. simpl. lia.
    - intros v I. destruct (T v I) as [m Hm]. unfold g. rewrite Hm. destruct (q_estimate_set q v) as [k|] eqn:ES; cbn [bind] in Hm; [|discriminate].
      injection Hm as <-. apply estimate_set_nonneg in ES. destruct (q_attempt q); lia. }
  set (tot := fold_left (fun acc x => acc + g x)%Z _ 0%Z) in *. clearbody tot. clear E T.
  destruct (Z.eqb_spec tot 0) as [Z0|Z0]; destruct (selections_of ord q cs ins forced) as [[|x t] [e|]];
    unfold gmap, gret in *; cbn [g_items] in *; rewrite ?map_length; cbn [List.length] in *; lia.
Qed.
Lemma estimate_exact ord cx q cs ins forced n : q_source q = QCourses -> get_waive (cx_exc cx) (q_path q) = None -> q_overridden q = false ->
  q_attempt q = true -> q_filtered cx q = Ok (map ICourse cs, ins, forced) ->
  (forall v, In v (g_items (limited_transcripts ord (q_limit q) forced cs)) -> sizes_exist q v) ->
  q_estimate ord cx q = Ok n -> Z.of_nat (List.length (g_items (q_solutions ord cx q))) = n.
Proof.
  intros S W O A F SE H.
  destruct (estimate_form _ _ _ _ _ _ _ S W F H) as [ns [M [X ->]]]. rewrite (solutions_form _ _ _ _ _ _ S O F).
  apply mapr_sum in M. destruct M as [E T].
  pose (g := fun v => match (let! n := q_estimate_set q v in Ok (if q_attempt q then n else n + 1)%Z) with Ok n => n | Err _ => 0%Z end).
  change (fold_left Z.add ns 0%Z = fold_left (fun acc x => acc + g x)%Z (g_items (limited_transcripts ord (q_limit q) forced cs)) 0%Z) in E. rewrite E.
  assert (Q1 : forall v, In v (g_items (limited_transcripts ord (q_limit q) forced cs)) ->
     Z.of_nat (List.length (g_items (q_selections q ins forced v))) = g v /\ g_exn (q_selections q ins forced v) = None).
  { intros v I. destruct (T v I) as [m Hm]. unfold g. rewrite Hm. destruct (q_estimate_set q v) as [k|] eqn:ES; cbn [bind] in Hm; [|discriminate].
    injection Hm as <-. unfold q_selections. rewrite A. unfold gmap. cbn [g_items g_exn]. rewrite map_length. apply estimate_set_exact; auto. }
  assert (B : Z.of_nat (List.length (g_items (selections_of ord q cs ins forced))) = fold_left (fun acc x => acc + g x)%Z (g_items (limited_transcripts ord (q_limit q) forced cs)) 0%Z).
  { apply gflat_len_eq; intros; apply Q1; auto. }
  assert (BX : g_exn (selections_of ord q cs ins forced) = None).
  { unfold selections_of, gflat. rewrite gflat_exn; [exact X|]. intros; apply Q1; auto. }
  rewrite <- B. clear B E. destruct (selections_of ord q cs ins forced) as [[|x t] [e|]]; cbn [gmap gret g_items g_exn map List.length] in *; try discriminate; try reflexivity.
  rewrite map_length. destruct (Z.eqb_spec (Z.of_nat (Datatypes.S (List.length t))) 0); lia.
Qed.

(** ** the audit *)
Definition attempts_of (q : query) (cs : list course) : list attempt :=
  map (fun c => mkAttempt c (q_path q) (q_allow q || instr (c_clbid c) (q_forced q))) cs.
Lemma make_claim_names mc t c p b cl t' : make_claim mc t c p b = Ok (cl, t') -> cl_course cl = c /\ cl_by cl = p.
Proof.
  unfold make_claim. destruct b; [intro H; injection H as <- <-; auto|].
  destruct (dget t (c_clbid c)) as [prior|]; [|intro H; injection H as <- <-; auto].
  destruct (dget mc (course_ident c)) as [l|].
  - unfold make_multicountable_claim. destruct (reqs_only p) as [rp|]; cbn [bind]; [|discriminate].
    destruct (mapr _ _) as [pc|]; cbn [bind]; [|discriminate].
    destruct (find _ _); [destruct (filter _ _)|]; try (destruct (match dget t (c_clbid c) with Some _ => _ | None => _ end));
      intro H; injection H as <- <-; auto.
  - destruct prior; intro H; injection H as <- <-; auto.
Qed.
Lemma claim_each_runs mc q cs : forall t items ok bad t', claim_each mc t q cs = Ok (items, ok, bad, t') ->
  exists outs, run_claims mc t (attempts_of q cs) = Ok (outs, t') /\
    ok = filter (fun cl => negb (cl_failed cl)) outs /\ bad = filter cl_failed outs /\
    items = map cl_course ok.
Proof.
  induction cs as [|c cs IH]; intros t items ok bad t' H; cbn [claim_each attempts_of map run_claims] in *.
  - injection H as <- <- <- <-. exists []. auto.
  - cbn [at_course at_path at_shared].
    destruct (make_claim mc t c (q_path q) (q_allow q || instr (c_clbid c) (q_forced q))) as [[cl t1]|] eqn:MC; cbn [bind] in *; [|discriminate].
    destruct (claim_each mc t1 q cs) as [[[[i o] b] t2]|] eqn:CE; cbn [bind] in H; [|discriminate].
    destruct (IH _ _ _ _ _ CE) as [outs [R [-> [-> ->]]]]. unfold attempts_of in R. rewrite R. cbn [bind].
    assert (CC : cl_course cl = c) by (apply (make_claim_names _ _ _ _ _ _ _ MC)).
    exists (cl :: outs). cbn [filter]. destruct (cl_failed cl) eqn:CF; injection H as <- <- <- <-; cbn [negb]; repeat split; auto.
    cbn [map]. rewrite CC. reflexivity.
Qed.
Lemma claim_all_runs mc q cs : forall t, claim_all mc t q cs = Ok (map (fun c => mkClaim c (q_path q) false) cs, t).
Proof. induction cs as [|c cs IH]; intro t; cbn [claim_all map make_claim bind cl_failed]; [reflexivity|]. rewrite IH. reflexivity. Qed.

(** ** statuses *)
Lemma inS_iff s l : inS s l = true <-> In s l.
Proof.
  unfold inS. rewrite existsb_exists. split.
  - intros [x [I E]]. destruct s, x; try discriminate; exact I.
  - intro I. exists s. split; auto. destruct s; reflexivity.
Qed.
Lemma inS_no s l : inS s l = false <-> ~ In s l.
Proof. rewrite <- inS_iff. destruct (inS s l); intuition congruence. Qed.
Lemma subS_iff a b : subS a b = true <-> forall x, In x a -> In x b.
Proof. unfold subS. rewrite forallb_forall. setoid_rewrite inS_iff. reflexivity. Qed.
Lemma subS_no a b : subS a b = false -> exists x, In x a /\ ~ In x b.
Proof.
  unfold subS. induction a as [|x t IH]; cbn [forallb]; [discriminate|]. destruct (inS x b) eqn:E.
  - intro H. destruct (IH H) as [y [I N]]. exists y. simpl. auto.
  - intros _. exists x. apply inS_no in E. simpl. auto.
Qed.
Lemma combine_ok ss : conjunction ss (combine_statuses ss).
Proof.
  unfold combine_statuses.
  destruct (inS FailedInvariant ss) eqn:F; [apply inS_iff in F; exact F|]. apply inS_no in F.
  assert (L : forall x, In x ss -> x <> FailedInvariant) by (intros x I ->; auto).
  destruct (subS ss WAIVED_ONLY) eqn:S1.
  { rewrite subS_iff in S1. intros x I. destruct (S1 x I) as [<-|[]]. reflexivity. }
  apply subS_no in S1. destruct S1 as [x1 [I1 N1]].
  destruct (subS ss WAIVED_AND_DONE) eqn:S2.
  { rewrite subS_iff in S2. split.
    - intros x I. destruct (S2 x I) as [<-|[<-|[]]]; [right|left]; reflexivity.
    - destruct (S2 x1 I1) as [<-|[<-|[]]]; [destruct N1; simpl; auto|exact I1]. }
  apply subS_no in S2. destruct S2 as [x2 [I2 N2]].
  destruct (subS ss WAIVED_DONE_CURRENT) eqn:S3.
  { rewrite subS_iff in S3. split.
    - intros x I. unfold complete. destruct (S3 x I) as [<-|[<-|[<-|[]]]]; auto.
    - destruct (S3 x2 I2) as [<-|[<-|[<-|[]]]]; [destruct N2; simpl; auto|destruct N2; simpl; auto|exact I2]. }
  apply subS_no in S3. destruct S3 as [x3 [I3 N3]].
  destruct (subS ss WAIVED_DONE_CURRENT_PENDING) eqn:S4.
  { rewrite subS_iff in S4. split.
    - intros x I. unfold passing, complete. destruct (S4 x I) as [<-|[<-|[<-|[<-|[]]]]]; auto.
    - destruct (S4 x3 I3) as [<-|[<-|[<-|[<-|[]]]]]; try (destruct N3; simpl; auto; fail). exact I3. }
  apply subS_no in S4. destruct S4 as [x4 [I4 N4]].
  destruct (subS ss WAIVED_DONE_CURRENT_PENDING_INCOMPLETE) eqn:S5.
  { rewrite subS_iff in S5. split; [exact F|]. left. split.
    - intros x I. unfold started, passing, complete. destruct (S5 x I) as [<-|[<-|[<-|[<-|[<-|[]]]]]]; auto.
    - destruct (S5 x4 I4) as [<-|[<-|[<-|[<-|[<-|[]]]]]]; try (destruct N4; simpl; auto; fail). exact I4. }
  apply subS_no in S5. destruct S5 as [x5 [I5 N5]].
  assert (ST : forall x, started x <-> In x WAIVED_DONE_CURRENT_PENDING_INCOMPLETE).
  { intro x. unfold started, passing, complete. simpl. intuition congruence. }
  destruct (inS Empty ss && existsb (fun x => inS x WAIVED_DONE_CURRENT_PENDING_INCOMPLETE) ss) eqn:E.
  - apply andb_true_iff in E. destruct E as [E1 E2]. apply inS_iff in E1. apply existsb_exists in E2. destruct E2 as [x [I X]].
    split; auto. right. split; auto. exists x. split; auto. apply ST, inS_iff. exact X.
  - split; auto. split; [exists x5; rewrite ST; auto|]. intros [E1 [x [I X]]]. apply ST, inS_iff in X.
    apply andb_false_iff in E. destruct E as [E|E]; [apply inS_no in E; auto|].
    assert (existsb (fun x => inS x WAIVED_DONE_CURRENT_PENDING_INCOMPLETE) ss = true) by (apply existsb_exists; eauto). congruence.
Qed.
Lemma subS_f a b x : In x a -> inS x b = false -> subS a b = false.
Proof. intros I N. apply inS_no in N. destruct (subS a b) eqn:E; auto. rewrite subS_iff in E. destruct (N (E x I)). Qed.
Lemma conjunction_unique ss s : conjunction ss s -> combine_statuses ss = s.
Proof.
  unfold combine_statuses. destruct s; cbn [conjunction]; intro H; try contradiction.
  - destruct H as [F [[x [I N]] E]]. apply inS_no in F. rewrite F.
    assert (NX : inS x WAIVED_DONE_CURRENT_PENDING_INCOMPLETE = false /\ inS x WAIVED_DONE_CURRENT_PENDING = false /\
       inS x WAIVED_DONE_CURRENT = false /\ inS x WAIVED_AND_DONE = false /\ inS x WAIVED_ONLY = false).
    { unfold started, passing, complete in N. destruct x; try (exfalso; tauto); repeat split. }
    destruct NX as [A1 [A2 [A3 [A4 A5]]]]. rewrite (subS_f _ _ _ I A5), (subS_f _ _ _ I A4), (subS_f _ _ _ I A3), (subS_f _ _ _ I A2), (subS_f _ _ _ I A1).
    destruct (inS Empty ss) eqn:E1; [|reflexivity]. apply inS_iff in E1.
    match goal with |- context [existsb ?f ss] => destruct (existsb f ss) eqn:E2 end; [|reflexivity]. apply existsb_exists in E2. destruct E2 as [y [Iy Y]]. destruct E. split; auto. exists y. split; auto.
    unfold started, passing, complete. destruct y; try discriminate; tauto.
  - destruct H as [F H]. apply inS_no in F. rewrite F.
    assert (I : exists x, In x ss /\ inS x WAIVED_DONE_CURRENT_PENDING = false /\
       inS x WAIVED_DONE_CURRENT = false /\ inS x WAIVED_AND_DONE = false /\ inS x WAIVED_ONLY = false).
    { destruct H as [[_ I]|[I _]]; eexists; (split; [exact I|]); repeat split. }
    destruct I as [x [I [A2 [A3 [A4 A5]]]]]. rewrite (subS_f _ _ _ I A5), (subS_f _ _ _ I A4), (subS_f _ _ _ I A3), (subS_f _ _ _ I A2).
    destruct (subS ss WAIVED_DONE_CURRENT_PENDING_INCOMPLETE) eqn:S5; [reflexivity|]. destruct H as [[A _]|[E [y [Iy Y]]]].
    + apply subS_no in S5. destruct S5 as [z [Iz Z]]. destruct Z. specialize (A z Iz). unfold started, passing, complete in A. simpl. intuition congruence.
    + apply inS_iff in E. rewrite E. cbn [andb]. match goal with |- context [existsb ?f ss] => replace (existsb f ss) with true; [reflexivity|symmetry] end. apply existsb_exists. exists y. split; auto.
      unfold started, passing, complete in Y. destruct y; try reflexivity; exfalso; intuition discriminate.
  - destruct H as [A I].
    assert (F : inS FailedInvariant ss = false). { apply inS_no. intro J. specialize (A _ J). unfold passing, complete in A. intuition discriminate. }
    rewrite F. rewrite (subS_f _ WAIVED_ONLY _ I eq_refl), (subS_f _ WAIVED_AND_DONE _ I eq_refl), (subS_f _ WAIVED_DONE_CURRENT _ I eq_refl).
    replace (subS ss WAIVED_DONE_CURRENT_PENDING) with true; [reflexivity|]. symmetry. apply subS_iff. intros x J. specialize (A x J). unfold passing, complete in A. simpl. intuition congruence.
  - destruct H as [A I].
    assert (F : inS FailedInvariant ss = false). { apply inS_no. intro J. specialize (A _ J). unfold passing, complete in A. intuition discriminate. }
    rewrite F. rewrite (subS_f _ WAIVED_ONLY _ I eq_refl), (subS_f _ WAIVED_AND_DONE _ I eq_refl).
    replace (subS ss WAIVED_DONE_CURRENT) with true; [reflexivity|]. symmetry. apply subS_iff. intros x J. specialize (A x J). unfold passing, complete in A. simpl. intuition congruence.
  - destruct H as [A I].
    assert (F : inS FailedInvariant ss = false). { apply inS_no. intro J. specialize (A _ J). unfold passing, complete in A. intuition discriminate. }
    rewrite F. rewrite (subS_f _ WAIVED_ONLY _ I eq_refl).
    replace (subS ss WAIVED_AND_DONE) with true; [reflexivity|]. symmetry. apply subS_iff. intros x J. specialize (A x J). unfold passing, complete in A. simpl. intuition congruence.
  - assert (F : inS FailedInvariant ss = false). { apply inS_no. intro J. specialize (H _ J). discriminate. }
    rewrite F. replace (subS ss WAIVED_ONLY) with true; [reflexivity|]. symmetry. apply subS_iff. intros x J. rewrite (H x J). simpl. auto.
  - apply inS_iff in H. rewrite H. reflexivity.
Qed.
