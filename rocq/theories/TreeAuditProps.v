(** Property theorems about auditing requirement trees (C05, C47, C82). *)
From Coq Require Import List ZArith QArith Bool String Lia Permutation.
From Verif Require Import Prelude Dec Status Course Claims Exceptions Op Context CondExpr Paths Predicate Limit Apply Assertion Query CourseRule Tree.
From Verif Require Import ListFacts LimitProps ClaimsSpec ClaimsProofs ClaimsProps AssertionSpec AssertionProofs PredicateProofs QuerySpec QueryProofs QueryProps CourseRuleSpec CourseRuleProofs CourseRuleProps TreeSpec TreeProofs TreeStatusProps TreeSolSpec TreeSolProofs TreeSolProps TreeAuditSpec TreeAuditProofs.
Import ListNotations.
Local Open Scope string_scope.
Local Open Scope list_scope.

(** ** Sample solutions *)
Definition pick (p : string) (c : course) (allow : bool) : node := NCourse KSol
  (mkCrule ["$"; ".count"; p] false (Some (course_ident c)) None None None None None None None None None None None
     allow false false false false false [] (Some c) None).
Definition sols (count : Z) (items : list node) : node := NCount KSol (mkCount ["$"; ".count"] false count false []) items.
Definition by_dept (b : bool) (n : node) : node :=
  NReq KSol (mkReq ["$"; ".count"; "%D"] false "D" b false true None) (Some n).
Definition bio : course := mk_simple "100" "BIO" "150".
Definition chem : course := mk_simple "200" "CHEM" "125".
Definition no_ctx : ctx := mkCtx [bio; chem] [] [] [] [] (group_exceptions []) [] [] [] no_proficiencies.
Definition who (n : node) : list (string * path) := map (fun cl => (c_clbid (cl_course cl), cl_by cl)) (claims_of n).
Definition run_audit (cx : ctx) (n : node) : option (list (string * path) * list string) :=
  match audit same_order cx [] n with Ok (r, t) => Some (who r, map fst t) | Err _ => None end.

(** ** C47: what an audit asks of the claim table *)

(** Auditing a solution asks for claims from left to right, each leaf for its own courses and
    at its own path, in one history; the claims reported by the result are the successful
    ones of that history, in order. A requirement left to the department reports none of
    those below it. *)
Theorem audit_is_one_claim_history :
  forall ord cx t n r t', unaudited n -> audit ord cx t n = Ok (r, t') ->
  exists h outs, asks cx n h /\ run_claims (cx_multi cx) t h = Ok (outs, t') /\
    subseq (claims_of r) (filter succeeded outs) /\ (none_by_department n -> claims_of r = filter succeeded outs).
Proof. intros ord cx t n r t'. apply audit_history. Qed.
Print Assumptions audit_is_one_claim_history.
Example history_example :
  run_audit no_ctx (sols 3 [pick "[0]" bio false; pick "[1]" bio false; pick "[2]" chem false]) =
    Some ([("100", ["$"; ".count"; "[0]"]); ("200", ["$"; ".count"; "[2]"])], ["100"; "200"]) /\
  run_audit no_ctx (sols 2 [by_dept true (pick "[0]" bio false); pick "[1]" bio false]) = Some ([], ["100"]) /\
  run_audit no_ctx (sols 2 [by_dept false (pick "[0]" bio false); pick "[1]" bio true]) =
    Some ([("100", ["$"; ".count"; "[0]"]); ("100", ["$"; ".count"; "[1]"])], ["100"]).
Proof. vm_compute. auto. Qed.

(** The solutions of a tree of rules satisfy the hypothesis of these theorems. *)
Theorem solutions_are_unaudited :
  forall ord cx n s, unaudited n -> In s (g_items (solutions ord cx n)) -> unaudited s.
Proof. exact solutions_unaudited. Qed.
Print Assumptions solutions_are_unaudited.

(** C47. From an empty table, a class that is not multicountable is reported at most once by
    the leaves that do not share it. *)
Theorem exclusively_claimed_once :
  forall ord cx n r t' k, unaudited n -> paths_ok n ->
  (forall c, c_clbid c = k -> may_use n c \/ known cx c -> ~ is_multicountable (cx_multi cx) c) ->
  audit ord cx [] n = Ok (r, t') ->
  forall l, subseq l (claims_of r) ->
  Forall (fun cl => c_clbid (cl_course cl) = k /\ ~ may_share n (cl_course cl) (cl_by cl)) l -> (List.length l <= 1)%nat.
Proof.
  intros ord cx n r t' k U PO NM A l SL FL.
  destruct (audit_history ord cx n [] r t' U A) as [h [outs [AS [R [S _]]]]].
  assert (FR : forall a, In a h -> attempt_from cx n a) by (intros a; apply asks_attempts; exact AS).
  assert (G : good_history h) by (apply Forall_forall; intros a I; destruct (FR a I) as [_ [_ K]]; auto).
  assert (PL : plain_in (cx_multi cx) k h) by (intros a I E; destruct (FR a I) as [K _]; auto).
  destruct (claims_exclusive _ _ _ G PL) as [o [t [R' [L [_ X]]]]]. rewrite R in R'. injection R' as <- <-.
  destruct l as [|x [|y l]]; [cbn; lia|cbn; lia|exfalso].
  assert (SO : subseq (x :: y :: l) (filter succeeded outs)) by (eapply subseq_trans; eauto).
  assert (SX : cl_failed x = false /\ cl_failed y = false).
  { assert (I1 : In x (filter succeeded outs)) by (eapply subseq_in; [exact SO|simpl; auto]). assert (I2 : In y (filter succeeded outs)) by (eapply subseq_in; [exact SO|simpl; auto]).
    apply filter_In in I1, I2. unfold succeeded in *. rewrite !negb_true_iff in *. tauto. }
  assert (SO' : subseq (x :: y :: l) outs) by (eapply subseq_trans; [exact SO|apply subseq_filter]).
  destruct (subseq_two _ _ _ _ SO') as [i [j [LT [EX EY]]]].
  assert (AT : forall m cl, nth_error outs m = Some cl -> exists a, nth_error h m = Some a /\ cl_course cl = at_course a /\ cl_by cl = at_path a).
  { intros m cl E. assert (M : (m < List.length h)%nat) by (rewrite <- (run_lengths _ _ _ _ _ R); apply nth_error_Some; congruence).
    apply nth_error_Some in M. destruct (nth_error h m) as [a|] eqn:EA; [|congruence]. exists a. split; auto. eapply run_names; eauto. }
  destruct (AT _ _ EX) as [a [Ha [Ca Pa]]], (AT _ _ EY) as [b [Hb [Cb Pb]]].
  inversion FL as [|? ? [K1 N1] FL']; subst. inversion FL' as [|? ? [K2 N2] _]; subst.
  assert (SA : at_shared a = false). { destruct (FR a (nth_error_In _ _ Ha)) as [_ [[E|E] _]]; auto. exfalso. apply N1. rewrite Ca, Pa. exact E. }
  assert (SB : at_shared b = false). { destruct (FR b (nth_error_In _ _ Hb)) as [_ [[E|E] _]]; auto. exfalso. apply N2. rewrite Cb, Pb. exact E. }
  assert (KA : c_clbid (at_course a) = c_clbid (cl_course x)) by (rewrite Ca; reflexivity).
  assert (KB : c_clbid (at_course b) = c_clbid (cl_course x)) by (rewrite <- Cb; exact K2).
  assert (F : cl_failed y = true). { apply (X j b y Hb EY KB). split; [exact SB|]. exists i, a. auto. }
  destruct SX. congruence.
Qed.
Print Assumptions exclusively_claimed_once.
(** both hypotheses matter: sharing leaves report the class again, and so do multicountable
    courses; see also [history_example] *)
Example once_example :
  let n := sols 2 [pick "[0]" bio false; pick "[1]" bio false] in
  run_audit no_ctx n = Some ([("100", ["$"; ".count"; "[0]"])], ["100"]) /\
  run_audit (mkCtx [bio] [] [] [] [("BIO 150", [["%D"]])] (group_exceptions []) [] [] [] no_proficiencies)
    (sols 2 [pick "[0]" bio false; by_dept false (NCourse KSol
       (mkCrule ["$"; ".count"; "%D"; "*BIO"] false (Some "BIO 150") None None None None None None None None None None None
          false false false false false false [] (Some bio) None))]) =
    Some ([("100", ["$"; ".count"; "[0]"]); ("100", ["$"; ".count"; "%D"; "*BIO"])], ["100"]).
Proof. vm_compute. auto. Qed.
Lemma pick_fresh items : (forall x, In x items -> exists p c b, x = pick p c b) -> unaudited (sols 2 items).
Proof.
  intros H x P. inversion P as [|? ? ? y ? I Q| | |]; subst; [split; [discriminate|intros; discriminate]|].
  destruct (H _ I) as [p [c [b ->]]]. inversion Q; subst. split; [discriminate|intros; discriminate].
Qed.
Example once_hypotheses :
  let n := sols 2 [pick "[0]" bio false; pick "[1]" bio false] in
  unaudited n /\ paths_ok n /\ (forall c, c_clbid c = "100" -> may_use n c \/ known no_ctx c -> ~ is_multicountable (cx_multi no_ctx) c) /\
  (forall p, ~ may_share n bio p).
Proof.
  cbv zeta. split; [|split; [|split]].
  - apply pick_fresh. intros x [<-|[<-|[]]]; eauto.
  - split.
    + intros x P. inversion P as [|? ? ? y ? I Q| | |]; subst.
      * repeat (apply Forall_cons || apply Forall_nil); discriminate.
      * destruct I as [<-|[<-|[]]]; inversion Q; subst; repeat (apply Forall_cons || apply Forall_nil); discriminate.
    + intros k i k' r P. inversion P as [|? ? ? y ? I Q| | |]; subst. destruct I as [<-|[<-|[]]]; inversion Q.
  - intros c _ _ M. destruct M.
  - intros p [[r [[[k P]|[k [i [k' P]]]] [_ [E|E]]]]|[k [q [P _]]]]; inversion P as [|? ? ? y ? I Q| | |]; subst; destruct I as [<-|[<-|[]]]; inversion Q; subst; discriminate.
Qed.

(** ** C05 *)

(** Auditing never removes, replaces or reorders a recorded claim. *)
Theorem audit_keeps_claims :
  forall ord cx t n r t' k, audit ord cx t n = Ok (r, t') -> exists rest, recorded t' k = recorded t k ++ rest.
Proof. intros ord cx t n r t' k A. exact (audit_grows ord cx n t r t' A k). Qed.
Print Assumptions audit_keeps_claims.
Example keeps_example :
  let t := [("200", [mkClaim chem ["$"; "x"] false])] in
  match audit same_order no_ctx t (sols 2 [pick "[0]" bio false; pick "[1]" chem false]) with
  | Ok (r, t') => map (fun kv => (fst kv, List.length (snd kv))) t' = [("200", 1%nat); ("100", 1%nat)] /\ who r = [("100", ["$"; ".count"; "[0]"])]
  | Err _ => False
  end.
Proof. vm_compute. auto. Qed.

(** ** C82: the result *)

(** The result of an audit: the same tree with every solution audited once in its place and
    everything else left as it was; the audit clauses of a count are measured on the distinct
    courses successfully claimed by each child, children in order; waived nodes are not
    looked into. *)
Theorem audit_result :
  forall ord cx t n r t', set_order ord -> audit ord cx t n = Ok (r, t') -> audited cx n r.
Proof. intros ord cx t n r t' O. apply audit_audited. exact O. Qed.
Print Assumptions audit_result.
Definition rule_bio : node := NCourse KRule (leaf "BIO 150" false None).
Example result_example :
  match audit same_order no_ctx [] (sols 2 [pick "[0]" bio false; rule_bio; by_dept false (pick "[1]" chem false)]) with
  | Ok (NCount KRes i [NCourse KRes a; b; NReq KRes _ (Some (NCourse KRes c))], _) =>
    r_claim a = Some (mkClaim bio ["$"; ".count"; "[0]"] false) /\ b = rule_bio /\ r_claim c = Some (mkClaim chem ["$"; ".count"; "[1]"] false) /\ n_count i = 2%Z
  | _ => False
  end.
Proof. vm_compute. auto. Qed.
