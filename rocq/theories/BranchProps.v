(** C174: conditional assertions are read branch by branch, and each branch has its own name. *)
From Coq Require Import List ZArith QArith Bool String.
From Verif Require Import Transcript Prelude Dec Status Course Exceptions Op Context CondExpr Predicate Apply Assertion.
From Verif Require Import ExceptionsProofs AssertionSpec CondExprSpec CondExprProofs AssertionProofs AssertionProps.
Import ListNotations.
Local Open Scope string_scope.
Local Open Scope list_scope.

(** Reading an assertion reads its condition and its branches, each at its own place. *)
Theorem conditional_assertions_are_read_by_branch :
  forall cx c m p a,
  (forall r, load_any cx c m p (RwPlain r) = Ok a <-> exists b, load_single_assertion cx c m p r = Ok b /\ a = APlain b) /\
  (forall x t, load_any cx c m p (RwIf x t None) = Ok a <->
     exists cond b, load_expr cx x = Ok cond /\ load_single_assertion cx c m (p ++ ["/t"]) t = Ok b /\ a = AIf p cond b None) /\
  (forall x t f, load_any cx c m p (RwIf x t (Some f)) = Ok a <->
     exists cond b d, load_expr cx x = Ok cond /\ load_single_assertion cx c m (p ++ ["/t"]) t = Ok b /\
       load_single_assertion cx c m (p ++ ["/f"]) f = Ok d /\ a = AIf p cond b (Some d)) /\
  (forall x t, load_any cx c m p (RwWhen x t) = Ok a <->
     m = DtCourse /\ exists cond b, load_dyn x = Ok cond /\ load_single_assertion cx c m (p ++ ["/t"]) t = Ok b /\ a = AWhen p cond b).
Proof.
  intros cx c m p a. cbn [load_any]. split; [|split; [|split]].
  - intro r. destruct (load_single_assertion cx c m p r) as [b|e]; cbn [bind]; split; intro H; [injection H as <-; eauto|destruct H as (b' & H & ->); congruence|discriminate|destruct H as (b' & H & _); discriminate].
  - intros x t. destruct (load_expr cx x) as [cond|e]; cbn [bind]; [|split; [discriminate|intros (? & ? & H & _); discriminate]].
    destruct (load_single_assertion cx c m (p ++ ["/t"]) t) as [b|e]; cbn [bind]; [|split; [discriminate|intros (? & ? & _ & H & _); discriminate]].
    split; [intro H; injection H as <-; eauto|]. intros (? & ? & A & B & ->). congruence.
  - intros x t f. destruct (load_expr cx x) as [cond|e]; cbn [bind]; [|split; [discriminate|intros (? & ? & ? & H & _); discriminate]].
    destruct (load_single_assertion cx c m (p ++ ["/t"]) t) as [b|e]; cbn [bind]; [|split; [discriminate|intros (? & ? & ? & _ & H & _); discriminate]].
    destruct (load_single_assertion cx c m (p ++ ["/f"]) f) as [d|e]; cbn [bind]; [|split; [discriminate|intros (? & ? & ? & _ & _ & H & _); discriminate]].
    split; [intro H; injection H as <-; eauto 8|]. intros (? & ? & ? & A & B & C & ->). congruence.
  - intros x t. destruct m; [|split; [discriminate|intros [H _]; discriminate]..].
    destruct (load_dyn x) as [cond|e]; cbn [bind]; [|split; [discriminate|intros (_ & ? & ? & H & _); discriminate]].
    destruct (load_single_assertion cx c DtCourse (p ++ ["/t"]) t) as [b|e]; cbn [bind]; [|split; [discriminate|intros (_ & ? & ? & _ & H & _); discriminate]].
    split; [intro H; injection H as <-; eauto 6|]. intros (_ & ? & ? & A & B & ->). congruence.
Qed.
Print Assumptions conditional_assertions_are_read_by_branch.

(** thresholds that do not depend on badly formed conditions *)
Definition sound_changes (r : raw_assertion) : Prop := forall name v x act, In (name, v) (rw_assert r) -> In (x, act) (av_changes v) -> static_ok x.
(** what an exception at the place of the branch makes of it *)
Definition ruled_by (l : list exc) (q : path) (a : assertion) : Prop :=
  as_path a = q /\
  (forall x d, first_at l q value_kind x -> ex_act x = AValue d -> as_expected a = d) /\
  (forall x, first_at l q waive_kind x -> as_overridden a = true /\ as_state a = Waived) /\
  (none_at l q waive_kind -> as_overridden a = false /\ as_state a = Empty).
Lemma single_ruled cx l c m p r a : cx_exc cx = group_exceptions l -> sound_changes r -> load_single_assertion cx c m p r = Ok a -> ruled_by l (p ++ [".assert"]) a.
Proof.
  intros EX S H. destruct (threshold_is_as_changed cx l c m p r a EX S H) as (v & raw & q & _ & _ & _ & _ & _ & _ & V & N & W & P & _).
  split; [exact P|]. split; [exact V|]. split; [|exact N]. intros x F. destruct (W x F) as (A & B & _). auto.
Qed.
(** Exceptions reach the branch whose place they name, and no other. *)
Theorem branches_have_their_own_exceptions :
  forall cx l c m p x t f a, cx_exc cx = group_exceptions l -> sound_changes t ->
  (load_any cx c m p (RwIf x t (Some f)) = Ok a -> sound_changes f ->
     exists cond b d, a = AIf p cond b (Some d) /\ ruled_by l (p ++ ["/t"; ".assert"]) b /\ ruled_by l (p ++ ["/f"; ".assert"]) d) /\
  (load_any cx c m p (RwIf x t None) = Ok a -> exists cond b, a = AIf p cond b None /\ ruled_by l (p ++ ["/t"; ".assert"]) b) /\
  (load_any cx c m p (RwWhen x t) = Ok a -> exists cond b, a = AWhen p cond b /\ ruled_by l (p ++ ["/t"; ".assert"]) b).
Proof.
  intros cx l c m p x t f a EX ST. destruct (conditional_assertions_are_read_by_branch cx c m p a) as (_ & N & F & W).
  assert (R : forall s r b, sound_changes r -> load_single_assertion cx c m (p ++ [s]) r = Ok b -> ruled_by l (p ++ [s; ".assert"]) b).
  { intros s r b S H. assert (X := single_ruled cx l c m _ r b EX S H). rewrite <- app_assoc in X. exact X. }
  split; [|split].
  - intros H SF. apply F in H. destruct H as (cond & b & d & _ & B & D & ->). exists cond, b, d. split; [reflexivity|]. split; [exact (R _ t b ST B)|exact (R _ f d SF D)].
  - intro H. apply N in H. destruct H as (cond & b & _ & B & ->). exists cond, b. split; [reflexivity|]. exact (R _ t b ST B).
  - intro H. apply W in H. destruct H as (_ & cond & b & _ & B & ->). exists cond, b. split; [reflexivity|]. exact (R _ t b ST B).
Qed.
Print Assumptions branches_have_their_own_exceptions.

Example branches_example :
  let k := mkConst 2000 8 (inl "Voice") "140" in
  let v n := mkRawValue [(OGte, RInt n)] [] false false false in
  let r n := mkRawAs None None None [("count(courses)", v n)] in
  let es := [mkExc ["$"; "/t"; ".assert"] (AValue (mkDec 4 0)); mkExc ["$"; "/f"; ".assert"] (AOverride Waived)] in
  let cx := mkCtx [] [] [] [] [] (group_exceptions es) [] [] [] no_proficiencies in
  match load_any cx k DtCourse ["$"] (RwIf (XFun FHasCourse "CSCI 121") (r 2%Z) (Some (r 3%Z))) with
  | Ok (AIf _ _ a (Some b)) => dval (as_expected a) == 4 /\ as_state a = Empty /\ dval (as_expected b) == 3 /\ as_state b = Waived
  | _ => False
  end.
Proof. vm_compute. repeat split. Qed.
