(** Property theorems about the claim table (C01-C04, claim part of C05). *)
From Coq Require Import List Bool String Ascii Arith Lia.
From Verif Require Import Prelude Course Claims ClaimsSpec ClaimsProofs.
Import ListNotations.
Local Open Scope string_scope.
Local Open Scope list_scope.

(** C02. One claim attempt, on any table built by claims: it always returns a claim for
    the requested course and path; it fails exactly when it must; afterwards only the
    record of that class may differ, and only by the new successful exclusive claim. *)
Theorem claim_attempt_exact_effect :
  forall mc t a, table_ok t -> path_ok (at_path a) ->
  exists cl t',
    make_claim mc t (at_course a) (at_path a) (at_shared a) = Ok (cl, t') /\
    cl_course cl = at_course a /\ cl_by cl = at_path a /\
    (cl_failed cl = true <-> must_fail mc t a) /\
    table_ok t' /\
    forall k, recorded t' k =
      if String.eqb k (c_clbid (at_course a)) && negb (at_shared a) && negb (cl_failed cl)
      then recorded t k ++ [cl] else recorded t k.
Proof. exact claim_effect_lemma. Qed.

(** C01. In every history of claims, a class that is not multicountable is recorded at
    most once, and an attempt on it fails exactly when it is exclusive and an earlier
    attempt of the history asked for exclusive use of the same class. *)
Theorem claims_exclusive :
  forall mc l k, good_history l -> plain_in mc k l ->
  exists outs t, run_claims mc [] l = Ok (outs, t) /\ List.length outs = List.length l /\
    List.length (recorded t k) <= 1 /\
    forall i a cl, nth_error l i = Some a -> nth_error outs i = Some cl ->
      c_clbid (at_course a) = k ->
      (cl_failed cl = true <->
       at_shared a = false /\
       exists j a', j < i /\ nth_error l j = Some a' /\
                    c_clbid (at_course a') = k /\ at_shared a' = false).
Proof. exact claims_exclusive_lemma. Qed.

(** C03. Every recorded claim beyond the first of a class is made at a path whose
    requirement names are listed for that course. *)
Theorem extra_claims_only_at_listed_paths :
  forall mc l outs t k first rest, good_history l ->
  run_claims mc [] l = Ok (outs, t) -> recorded t k = first :: rest ->
  Forall (fun cl => listed mc (cl_course cl) (cl_by cl)) rest.
Proof. exact extra_claims_lemma. Qed.

(** C05, claim level. A recorded claim is never removed, replaced or reordered. *)
Theorem claim_history_only_grows :
  forall mc l1 l2 outs1 t1 outs2 t2 k, good_history l1 -> good_history l2 ->
  run_claims mc [] l1 = Ok (outs1, t1) -> run_claims mc t1 l2 = Ok (outs2, t2) ->
  exists rest, recorded t2 k = recorded t1 k ++ rest.
Proof.
  intros mc l1 l2 outs1 t1 outs2 t2 k G1 G2 R1 R2.
  destruct (run_claims_total mc l1 [] table_ok_nil G1) as (o & t & R & T & _).
  rewrite R1 in R. injection R as <- <-.
  eapply extra_step; eauto.
  destruct (extra_step mc l1 [] outs1 t1 k table_ok_nil G1 R1) as [H _]; [constructor|exact H].
Qed.

(** C04. "A listed requirement path claims a course at most once." False of the code: the
    filter of dp/context.py:336-340 compares strings with tuples. *)
Definition listed_path_claims_once : Prop :=
  forall mc l outs t k i j cl1 cl2 rs, good_history l ->
  run_claims mc [] l = Ok (outs, t) ->
  nth_error (recorded t k) i = Some cl1 -> nth_error (recorded t k) j = Some cl2 -> i <> j ->
  reqs_of (cl_by cl1) rs -> reqs_of (cl_by cl2) rs -> False.

Definition w_course := mk_simple "100" "HIST" "101".
Definition w_mc : multicountable := [("HIST 101", [["%Core"]; ["%Depth"]])].
Definition w_path n : path := ["$"; "%Core"; n].
Definition w_history :=
  [mkAttempt w_course (w_path "[0]") false; mkAttempt w_course (w_path "[1]") false].

Lemma w_reqs n : n <> "" -> ~ req_name n -> reqs_of (w_path n) ["%Core"].
Proof.
  intros N R. apply ro_other; [discriminate| intros [r [=]] |].
  apply ro_req; [exists "Core"; reflexivity|]. apply ro_other; auto. constructor.
Qed.

Theorem listed_path_claims_once_refuted : ~ listed_path_claims_once.
Proof.
  intro H.
  eapply (H w_mc w_history _ _ "100" 0 1).
  - repeat constructor; discriminate.
  - vm_compute. reflexivity.
  - vm_compute. reflexivity.
  - vm_compute. reflexivity.
  - discriminate.
  - apply (w_reqs "[0]"); [discriminate|intros [r [=]]].
  - apply (w_reqs "[1]"); [discriminate|intros [r [=]]].
Qed.

(** What holds instead: two recorded claims of a class from one requirement path are only possible
    at a path that is listed for the course; from every other path there is at most one. *)
Theorem listed_path_claims_once_partial :
  forall mc l outs t k i j cl1 cl2 rs, good_history l ->
  run_claims mc [] l = Ok (outs, t) ->
  nth_error (recorded t k) i = Some cl1 -> nth_error (recorded t k) j = Some cl2 -> i < j ->
  reqs_of (cl_by cl1) rs -> reqs_of (cl_by cl2) rs ->
  listed mc (cl_course cl2) (cl_by cl2).
Proof.
  intros mc l outs t k i j cl1 cl2 rs G R _ B L _ _.
  destruct (recorded t k) as [|first rest] eqn:E; [destruct j; discriminate|].
  destruct j as [|j]; [inversion L|]. cbn [nth_error] in B. apply nth_error_In in B.
  assert (F := extra_claims_only_at_listed_paths mc l outs t k first rest G R E). rewrite Forall_forall in F. exact (F _ B).
Qed.

(** The hypotheses are met by non-trivial histories. *)
Definition ex_history :=
  [ mkAttempt (mk_simple "100" "HIST" "101") ["$"; "%Core"] false;
    mkAttempt (mk_simple "200" "MATH" "120") ["$"; "%Core"] false;
    mkAttempt (mk_simple "200" "MATH" "120") ["$"; "%Depth"] false;
    mkAttempt (mk_simple "200" "MATH" "120") ["$"; "%Depth"] true;
    mkAttempt (mk_simple "100" "HIST" "101") ["$"; "%Depth"] false;
    mkAttempt (mk_simple "100" "HIST" "101") ["$"; "%Other"] false ].

Example ex_good : good_history ex_history /\ plain_in w_mc "200" ex_history.
Proof.
  split; [repeat constructor; discriminate|].
  intros a H E. simpl in H. unfold is_multicountable.
  repeat (destruct H as [<-|H]; [vm_compute in E |- *; try discriminate; intros [?|[]]; discriminate|]).
  destruct H.
Qed.

Example ex_run :
  exists outs t, run_claims w_mc [] ex_history = Ok (outs, t) /\
    map cl_failed outs = [false; false; true; false; false; true] /\
    List.length (recorded t "100") = 2 /\ List.length (recorded t "200") = 1.
Proof. eexists _, _. split; [vm_compute; reflexivity|]. vm_compute. auto. Qed.

Example ex_table :
  exists outs t, run_claims w_mc [] ex_history = Ok (outs, t) /\ table_ok t /\
    must_fail w_mc t (mkAttempt (mk_simple "200" "MATH" "120") ["$"; "%Depth"] false) /\
    ~ must_fail w_mc t (mkAttempt (mk_simple "300" "MATH" "126") ["$"; "%Depth"] false).
Proof.
  destruct (run_claims_total w_mc ex_history [] table_ok_nil (proj1 ex_good)) as (o & t & R & T & _).
  exists o, t. split; [exact R|]. split; [exact T|].
  vm_compute in R. injection R as <- <-. split.
  - split; [reflexivity|]. split; [vm_compute; discriminate|].
    apply not_multi_not_listed. vm_compute. intros [?|[]]; discriminate.
  - intros (_ & C & _). apply C. vm_compute. reflexivity.
Qed.

Print Assumptions claim_attempt_exact_effect.
Print Assumptions claims_exclusive.
Print Assumptions extra_claims_only_at_listed_paths.
Print Assumptions claim_history_only_grows.
Print Assumptions listed_path_claims_once_refuted.
Print Assumptions listed_path_claims_once_partial.
