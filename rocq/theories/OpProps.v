(** Property theorems about comparisons (C17, C18, C19, C21). *)
From Coq Require Import List ZArith QArith Bool String.
From Verif Require Import Prelude Dec Course Op OpMemo OpSpec OpProofs OpMemoProofs Grades.
Import ListNotations.
Local Open Scope string_scope.
Local Open Scope list_scope.

(** C17. Comparing a list with a scalar, on either side: $eq and $in hold exactly when some
    element is the same value, $neq and $nin exactly when none is; nothing is raised. *)
Theorem list_comparison_is_membership :
  forall l s, Forall non_null l -> non_null s ->
  (exists b,
    apply_operator OEq (VT l) (VS s) = Ok b /\ apply_operator OIn (VT l) (VS s) = Ok b /\
    apply_operator ONeq (VT l) (VS s) = Ok (negb b) /\ apply_operator ONin (VT l) (VS s) = Ok (negb b) /\
    (b = true <-> exists x, In x l /\ same_value x s)) /\
  (exists b,
    apply_operator OEq (VS s) (VT l) = Ok b /\ apply_operator OIn (VS s) (VT l) = Ok b /\
    apply_operator ONeq (VS s) (VT l) = Ok (negb b) /\ apply_operator ONin (VS s) (VT l) = Ok (negb b) /\
    (b = true <-> exists x, In x l /\ same_value s x)).
Proof. intros l s L N. split; [apply membership_l|apply membership_r]; assumption. Qed.
Print Assumptions list_comparison_is_membership.

Example list_comparison_example :
  Forall non_null [SStr "csci_elective"; SStr "csci_systems"] /\ non_null (SStr "csci_systems") /\
  apply_operator OEq (VT [SStr "csci_elective"; SStr "csci_systems"]) (VS (SStr "csci_systems")) = Ok true /\
  apply_operator ONin (VT [SStr "csci_elective"]) (VS (SStr "csci_systems")) = Ok true.
Proof. repeat split; try (repeat constructor; discriminate); try discriminate. Qed.

(** Two lists: $in holds exactly when they have an element in common, as text. *)
Theorem list_list_in_is_intersection :
  forall l r, exists b, apply_operator OIn (VT l) (VT r) = Ok b /\
    (b = true <-> exists x y, In x l /\ In y r /\ py_str x = py_str y).
Proof. exact membership_tuples. Qed.
Print Assumptions list_list_in_is_intersection.

(** A null field satisfies no comparison with a non-null value, not even $neq and $nin: the
    reason C17 needs values without nulls. *)
Theorem null_satisfies_nothing :
  forall op s l, non_null s ->
    apply_operator op (VS SNone) (VS s) = Ok false /\ apply_operator op (VS s) (VS SNone) = Ok false /\
    apply_operator op (VS SNone) (VT l) = Ok false /\ apply_operator op (VT l) (VS SNone) = Ok false.
Proof. intros op s l N. destruct s as [|[]| | | | |]; try (exfalso; apply N; reflexivity); repeat split. Qed.
Print Assumptions null_satisfies_nothing.

Theorem null_element_breaks_complement :
  exists l s, non_null s /\
    apply_operator OEq (VT l) (VS s) = Ok false /\ apply_operator ONeq (VT l) (VS s) = Ok false.
Proof. exists [SNone], (SStr "x"). split; [discriminate|]. split; reflexivity. Qed.

(** C18. Scalars of one kind: the six comparisons agree with one strict order and with
    equality of values. *)
Theorem scalar_comparisons_coherent :
  forall k a b, of_kind k a -> of_kind k b ->
  exists lt eq,
    apply_operator OLt (VS a) (VS b) = Ok lt /\ (lt = true <-> less a b) /\
    apply_operator OGte (VS a) (VS b) = Ok (negb lt) /\
    apply_operator OEq (VS a) (VS b) = Ok eq /\ (eq = true <-> same_value a b) /\
    apply_operator ONeq (VS a) (VS b) = Ok (negb eq) /\
    apply_operator OLte (VS a) (VS b) = Ok (lt || eq) /\
    apply_operator OGt (VS a) (VS b) = Ok (negb (lt || eq)) /\
    (negb (lt || eq) = true <-> less b a).
Proof. exact order_lemma. Qed.
Print Assumptions scalar_comparisons_coherent.

(** ... and that order is a strict total order on each kind. *)
Theorem scalar_order_is_strict_total :
  (forall a, ~ less a a) /\
  (forall a b c, less a b -> less b c -> less a c) /\
  (forall k a b, of_kind k a -> of_kind k b -> less a b \/ same_value a b \/ less b a).
Proof.
  split; [exact less_irrefl|]. split; [exact less_trans|].
  intros k a b Ka Kb. destruct (py_cmp_spec k a b Ka Kb) as (c & _ & L & G & E).
  destruct c; [right; left; apply E|left; apply L|right; right; apply G]; reflexivity.
Qed.
Print Assumptions scalar_order_is_strict_total.

(** Coercion: when exactly one operand is text, the comparison is that of the two texts. *)
Theorem coerced_comparison_is_textual :
  forall op a b, non_null a -> non_null b -> is_str a <> is_str b ->
  apply_operator op (VS a) (VS b) = apply_operator op (VS (SStr (py_str a))) (VS (SStr (py_str b))).
Proof.
  intros op a b Na Nb D. unfold apply_operator, op_scalar.
  destruct a; try (exfalso; apply Na; reflexivity); destruct b; try (exfalso; apply Nb; reflexivity);
    cbn [is_str] in D; try congruence; reflexivity.
Qed.
Print Assumptions coerced_comparison_is_textual.

Example coherent_example :
  of_kind KNum (SInt 2) /\ of_kind KNum (SDec (mkDec 250 (-2))) /\
  apply_operator OLt (VS (SInt 2)) (VS (SDec (mkDec 250 (-2)))) = Ok true /\
  of_kind KGrade (SGrade GBminus) /\ apply_operator OGte (VS (SGrade GB)) (VS (SGrade GBminus)) = Ok true /\
  apply_operator OGt (VS (SInt 100)) (VS (SStr "20")) = Ok false.
Proof. repeat split. Qed.

(** The kinds cannot be mixed: with a text in the middle the order is not transitive. *)
Theorem mixed_comparison_not_transitive :
  exists a b c,
    apply_operator OLt (VS a) (VS b) = Ok true /\ apply_operator OLt (VS b) (VS c) = Ok true /\
    apply_operator OLt (VS a) (VS c) = Ok false.
Proof. exists (SInt 10), (SStr "5"), (SInt 7). vm_compute. auto. Qed.

(** C19. "The memo table is transparent." False: 1 and Decimal('1.00') are the same key but
    different text. *)
Theorem memo_transparent_refuted :
  exists calls op l r,
    fst (apply_m op l r (run_m memo_empty calls)) <> apply_operator op l r.
Proof.
  exists [(OEq, VS (SDec (mkDec 100 (-2))), VS (SStr "1.00"))], OEq, (VS (SInt 1)), (VS (SStr "1.00")).
  vm_compute. discriminate.
Qed.
Print Assumptions memo_transparent_refuted.

(** The part that holds: histories and calls in which text is never compared with anything
    but text. Missing: histories with coercions. *)
Theorem memo_transparent_partial :
  forall calls op l r,
    Forall (fun c => uncoerced (snd (fst c)) (snd c)) calls -> uncoerced l r ->
    fst (apply_m op l r (run_m memo_empty calls)) = apply_operator op l r.
Proof. exact memo_transparent. Qed.
Print Assumptions memo_transparent_partial.

Example memo_partial_example :
  Forall (fun c : key => uncoerced (snd (fst c)) (snd c))
    [(OIn, VT [SStr "a"; SStr "b"], VS (SStr "b")); (OLt, VS (SInt 1), VS (SDec (mkDec 100 (-2))))] /\
  uncoerced (VS (SBool true)) (VS (SInt 1)) /\
  m_op (run_m memo_empty [(OIn, VT [SStr "a"; SStr "b"], VS (SStr "b"))]) <> [].
Proof.
  repeat split.
  - constructor; [left; split; repeat constructor|]. constructor; [|constructor].
    right. repeat split; try (repeat constructor). intros (a & b & C & _). discriminate.
  - right. repeat split; try (repeat constructor). intros (a & b & C & _). discriminate.
  - vm_compute. discriminate.
Qed.

(** C21. Grades: a strict total order in which no better letter grade has fewer points and
    the codes that carry no points all come below F. *)
Theorem grade_order_total_and_consistent :
  (forall a, ~ worse a a) /\
  (forall a b c, worse a b -> worse b c -> worse a c) /\
  (forall a b, worse a b \/ a = b \/ worse b a) /\
  (forall a b pa pb, worse a b -> grade_points a = Some pa -> grade_points b = Some pb -> (dval pa <= dval pb)%Q) /\
  (forall a, grade_points a = None <-> worse a GF) /\
  (forall a b, apply_operator OLt (VS (SGrade a)) (VS (SGrade b)) = Ok true <-> worse a b).
Proof.
  split. { intros a H. apply worse_rank in H. apply Z.lt_irrefl in H. exact H. }
  split. { intros a b c H K. apply worse_rank in H, K. apply worse_rank. eapply Z.lt_trans; eauto. }
  split. { intros a b. rewrite !worse_rank.
    destruct (Z.lt_trichotomy (grade_rank a) (grade_rank b)) as [H|[H|H]]; auto.
    right. left. destruct a, b; vm_compute in H; try discriminate H; reflexivity. }
  split. { intros a b pa pb H Pa Pb. apply worse_rank in H.
    destruct a; cbn in Pa; try discriminate; injection Pa as <-;
    destruct b; cbn in Pb; try discriminate; injection Pb as <-; vm_compute in H; try discriminate; vm_compute; discriminate. }
  split. { intro a. rewrite worse_rank. destruct a; cbn; split; try discriminate; reflexivity. }
  intros a b. rewrite worse_rank. cbn. unfold Z.lt. destruct (grade_rank a ?= grade_rank b)%Z; split; congruence.
Qed.
Print Assumptions grade_order_total_and_consistent.

(** The points: 4, 3, 2, 1 and 0 for A to F, three tenths more for a plus and less for a
    minus, except that there is nothing above 4. *)
Definition points_are (g : grade_code) (q : Q) : Prop := exists d, grade_points g = Some d /\ (dval d == q)%Q.
Theorem grade_points_scale :
  Forall2 points_are [GA; GB; GC; GD; GF] [4; 3; 2; 1; 0]%Q /\
  (forall plain minus, In (plain, minus) [(GA, GAminus); (GB, GBminus); (GC, GCminus); (GD, GDminus)] ->
     forall q, points_are plain q -> points_are minus (q - (3 # 10))) /\
  (forall plain plus, In (plain, plus) [(GB, GBplus); (GC, GCplus); (GD, GDplus)] ->
     forall q, points_are plain q -> points_are plus (q + (3 # 10))) /\
  (forall q, points_are GA q <-> points_are GAplus q).
Proof.
  split; [repeat constructor; eexists; (split; [reflexivity|]); apply Qeq_bool_iff; reflexivity|].
  assert (X : forall g h d e z, grade_points g = Some d -> grade_points h = Some e -> (dval e == dval d + z)%Q -> forall q, points_are g q -> points_are h (q + z)).
  { intros g h d e z G H E q [d' [G' Q']]. exists e. split; [exact H|]. rewrite E, <- Q'. replace d' with d by congruence. reflexivity. }
  split; [|split].
  - intros a b I q P. unfold Qminus. cbn [In] in I. decompose [or] I; try contradiction; match goal with E : (_, _) = (a, b) |- _ => injection E as <- <- end;
      (eapply (X _ _ _ _ _); [| | |exact P]; [reflexivity|reflexivity|apply Qeq_bool_iff; reflexivity]).
  - intros a b I q P. cbn [In] in I. decompose [or] I; try contradiction; match goal with E : (_, _) = (a, b) |- _ => injection E as <- <- end;
      (eapply (X _ _ _ _ _); [| | |exact P]; [reflexivity|reflexivity|apply Qeq_bool_iff; reflexivity]).
  - intro q. split; intros [d [E V]]; exists d; (split; [|exact V]); cbn in *; congruence.
Qed.
Print Assumptions grade_points_scale.

Example grade_example : worse GCminus GC /\ worse G_W GF.
Proof. split; apply worse_rank; reflexivity. Qed.
