(** C37. *)
From Coq Require Import List Bool ZArith String Ascii Lia Permutation Sorted.
From Verif Require Import Prelude Dec Paths PathsSpec PathsProofs.
Import ListNotations.
Local Open Scope string_scope.
Local Open Scope list_scope.

(** C37. On well-formed paths the comparison never raises and is 0 / -1 / 1 exactly as
    the paths are equal / in order / in reverse order. *)
Theorem path_comparison_decides_order :
  forall p q, wf_path p -> wf_path q ->
  (p = q /\ compare_paths p q = Ok 0%Z) \/
  (before p q /\ compare_paths p q = Ok (-1)%Z) \/
  (before q p /\ compare_paths p q = Ok 1%Z).
Proof. exact compare_paths_lemma. Qed.

(** That order is a strict total order. *)
Theorem path_order_strict :
  (forall p, ~ before p p) /\
  (forall p q r, before p q -> before q r -> before p r) /\
  (forall p q, wf_path p -> wf_path q -> p = q \/ before p q \/ before q p).
Proof.
  split; [exact before_irrefl|]. split; [exact before_trans|].
  intros p q W1 W2. destruct (compare_paths_lemma p q W1 W2) as [[? _]|[[? _]|[? _]]]; auto.
Qed.

(** So sorting children with distinct well-formed paths gives one list, whatever order they
    come in; it has the same children, in increasing path order. *)
Theorem children_order_is_canonical :
  forall (A : Type) (f : A -> path) l1 l2,
  Forall (fun y => wf_path (f y)) l1 -> NoDup (map f l1) -> Permutation l1 l2 ->
  sort_by_path f l1 = sort_by_path f l2 /\
  Permutation (sort_by_path f l1) l1 /\
  StronglySorted (fun a b => before (f a) (f b)) (sort_by_path f l1).
Proof. exact @sort_by_path_lemma. Qed.

(** Without well-formedness the comparison is not antisymmetric: each of these two paths
    sorts strictly before the other. *)
Theorem path_order_needs_canonical_indices :
  exists p q, p <> q /\ compare_paths p q = Ok (-1)%Z /\ compare_paths q p = Ok (-1)%Z.
Proof. exists ["$"; "[1]"], ["$"; "[01]"]. repeat split; try reflexivity. discriminate. Qed.

Example ex_wf : Forall wf_path [["$"; ".count"; "[10]"]; ["$"; ".count"; "[2]"]; ["$"]; ["$"; ".count"; "%A"]].
Proof.
  assert (N : forall s, (forall t, s <> String "["%char t) -> wf_component s) by (intros; right; assumption).
  unfold wf_path. repeat (apply Forall_cons || apply Forall_nil); try (apply N; intros t; discriminate).
  - left. exists 10. reflexivity.
  - left. exists 2. reflexivity.
Qed.
Example ex_sort :
  sort_by_path (fun p => p) [["$"; ".count"; "%A"]; ["$"; ".count"; "[10]"]; ["$"; ".count"; "[2]"]; ["$"]]
  = [["$"]; ["$"; ".count"; "[2]"]; ["$"; ".count"; "[10]"]; ["$"; ".count"; "%A"]].
Proof. vm_compute. reflexivity. Qed.

Print Assumptions path_comparison_decides_order.
Print Assumptions path_order_strict.
Print Assumptions children_order_is_canonical.
Print Assumptions path_order_needs_canonical_indices.
