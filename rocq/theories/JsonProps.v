(** Property theorems about what is stored of a result (C126-C128). *)
From Coq Require Import List ZArith QArith Bool String Permutation Sorted.
From Verif Require Import Prelude Dec Status Course Claims Exceptions Op Context CondExpr Predicate Limit Apply Assertion Query CourseRule Tree Area TreeSpec Solve SolveProps TreeSolProps AreaProps StudentProofs ExactProps Json JsonSpec JsonProofs.
Import ListNotations.
Local Open Scope string_scope.

(** ** C126 *)

(** Every part of a result is told where it stands, in every field; nothing else is there. *)
Theorem stored_result_tells_every_part :
  forall n j l, node_json n = Ok j ->
  match part_at n l with
  | Some m => exists x, (forall y, jpart_at j l y <-> y = x) /\ node_told x m
  | None => forall x, ~ jpart_at j l x
  end.
Proof.
  intros n j l H. assert (X := parts_ok l n j H). destruct (part_at n l) as [m|]; [|exact X].
  destruct X as (x & J & E). exists x. split; [|apply node_ok; exact E].
  intro y. split; [intro K; eapply jpart_at_unique; eassumption|intros ->; exact J].
Qed.
Print Assumptions stored_result_tells_every_part.
(** The dictionary of the area tells its own fields and holds that of the result. The columns
    rank, max_rank, ok, gpa and status of the stored row are read from it
    (dp/server/audit.py:140-144). *)
Theorem stored_area_tells :
  forall v j, area_json v = Ok j ->
  area_told j v /\ exists x, holds j "result" x /\ node_json (v_result v) = Ok x.
Proof.
  intros v j H. unfold area_json in H. apply bind_iff in H as ([r m] & R & H). apply bind_iff in H as (x & E & H). injection H as <-.
  cbn [base_json app]. split.
  - constructor; try key; try skey.
    + do 2 eexists. split; [exact R|]. split; key.
    + eexists. split; [key|]. apply limits_ok.
    + eexists. split; [key|]. destruct (area_status v); vm_compute; intuition discriminate.
  - exists x. split; [key|exact E].
Qed.
Print Assumptions stored_area_tells.
(** When a result can be written: a count of at most one item needs an item; what an assertion
    counted is a text, and always is after an audit. *)
Theorem written_exactly_when :
  forall v, (exists j, area_json v = Ok j) <->
  forall l m, part_at (v_result v) l = Some m -> part_writable m.
Proof.
  intro v. rewrite <- node_total. unfold area_json, area_rank. split.
  - intros (j & H). apply bind_iff in H as (rk & _ & H). apply bind_iff in H as (x & E & _). eauto.
  - intros (x & E). assert (N := E). apply node_inv in E as (rk & R & _). rewrite R, N. cbn [bind]. eauto.
Qed.
Print Assumptions written_exactly_when.
Theorem audited_assertions_count_texts :
  forall cx data a b, audit_any cx data a = Ok b ->
  (forall x l s, In x (written_assertions a) -> as_items x = Some l -> In s l -> exists t, counted_text s t) ->
  forall x l s, In x (written_assertions b) -> as_items x = Some l -> In s l -> exists t, counted_text s t.
Proof. intros cx data a b H T x l s I. revert l s. eapply (audit_any_texts cx data a b H); [|exact I]. intros y J l s. apply T. exact J. Qed.
Print Assumptions audited_assertions_count_texts.

(** ** C127 *)

(** What is read back from the stored result as its claims: following the branches in force and
    leaving out what is audited by hand gives the claims of the area, in their order. *)
Theorem stored_claims_are_the_claims :
  forall v j, area_json v = Ok j -> exists x l,
  holds j "result" x /\ (forall l', stored_claims x l' <-> l' = l) /\ Forall2 claim_told l (area_claims v).
Proof.
  intros v j H. destruct (stored_area_tells v j H) as (_ & x & HX & E). destruct (stored_ok _ x E) as (l & S1 & S2).
  exists x, l. split; [exact HX|]. split; [|exact S2]. intro l'. split; [intro K; eapply stored_unique; eassumption|intros ->; exact S1].
Qed.
Print Assumptions stored_claims_are_the_claims.

Definition demo_area : study := one_rule "concentration" (all_of [named "A 1"; child "%y" (named "B 1")]) [].
Definition demo_result : res area_result :=
  match g_items (area_solutions same_order keep demo_area (took [mk_simple "100" "A" "1"]) []) with
  | z :: _ => let! (v, _) := area_audit same_order demo_area z in Ok v
  | [] => Err OtherErr
  end.
Definition field (k : string) (j : json) : json := match j with JObj d => match only_key d k with Some v => v | None => JNull end | _ => JNull end.
Definition entry (k : nat) (j : json) : json := match j with JList l => nth k l JNull | _ => JNull end.
Example stored_example :
  match (let! v := demo_result in let! j := area_json v in Ok (v, j)) with
  | Ok (v, j) =>
    let item k := entry k (field "items" (field "result" j)) in
    (field "status" j, field "rank" j, field "max_rank" j, field "ok" j, field "gpa" j) =
      (JStr "needs-more-items", JNum 1, JNum 2, JBool false, JStr "3.00") /\
    (field "type" (item 0%nat), field "name" (item 0%nat), field "status" (item 0%nat), field "status" (field "result" (item 0%nat))) =
      (JStr "requirement", JStr "%y", JStr "empty", JStr "empty") /\
    (field "type" (item 1%nat), field "course" (item 1%nat), field "status" (item 1%nat), field "clbid" (entry 0%nat (field "claims" (item 1%nat)))) =
      (JStr "course", JStr "A 1", JStr "done", JStr "100") /\
    map (fun l => match part_at (v_result v) l with Some m => Some (type_of_node m, status_of m) | None => None end)
      [[]; [ToItem 0%nat; ToResult]; [ToItem 1%nat]; [ToItem 1%nat; ToResult]] =
      [Some ("count", NeedsMoreItems); Some ("course", Empty); Some ("course", Done); None] /\
    map (fun cl => c_clbid (cl_course cl)) (area_claims v) = ["100"]
  | Err _ => False
  end.
Proof. vm_compute. auto 10. Qed.

(** ** C128 *)

(** A course that was found is told with the section it was taken in. Refuted: the result of
    auditing a course keeps the claim but not the course (dp/result/course.py:14-41), so that
    "matched_scedid" is None in every result, and so are the marks of the search. *)
Definition section_is_told : Prop :=
  forall mc t s r t' c sched, c_audit mc t s = Ok (r, t') -> r_matched s = Some c -> c_schedid c = Some sched ->
  c_status KRes r = Done -> holds (course_json KRes r) "matched_scedid" (JStr sched).
Theorem section_is_never_told :
  forall mc t s r t', c_audit mc t s = Ok (r, t') ->
  holds (course_json KRes r) "matched_scedid" JNull /\ holds (course_json KRes r) "forced" (JBool false) /\
  holds (course_json KRes r) "from_claimed" (JBool false) /\ holds (course_json KRes r) "excluded_clbids" (texts []).
Proof.
  intros mc t s r t' H. apply course_result_fields in H. destruct H as (_ & _ & _ & _ & _ & _ & _ & _ & _ & _ & _ & _ & _ & _ & _ & _ & _ & A & B & _ & C & D).
  destruct (course_ok KRes r) as (_ & _ & _ & _ & _ & _ & _ & _ & _ & _ & _ & _ & _ & F & _ & _ & G & _ & (ts & X & _ & _ & Y) & E).
  rewrite D in E. rewrite A in F. rewrite B in G. split; [exact E|]. split; [exact G|]. split; [exact F|].
  rewrite C in Y. destruct ts as [|x ts]; [exact X|]. exfalso. apply (Y x). left. reflexivity.
Qed.
Print Assumptions section_is_never_told.
Definition in_a_section : course := {| c_clbid := "900"; c_attributes := []; c_credits := mkDec 100 (-2); c_crsid := ""; c_course_type := CtSemester; c_gereqs := [];
  c_gpa_points := mkDec 300 (-2); c_grade_code := GB; c_grade_option := GoGrade; c_grade_points := mkDec 300 (-2); c_institution := "STOLAF"; c_in_gpa := true;
  c_in_progress := false; c_ip_this_term := false; c_ip_in_future := false; c_incomplete := false; c_repeat := false; c_stolaf := true; c_lab := false; c_covid := false;
  c_level := 100; c_name := ""; c_number := "1"; c_schedid := Some "12345"; c_section := None; c_sub_type := StNormal; c_subject := "F"; c_su_grade := None; c_term := "1";
  c_transcript_code := TcEmpty; c_year := 2000; c_yearterm := "20001"; c_identity := "F 1"; c_chbi := None |}.
Definition sectioned : crule := mkCrule ["$"; "*F 1"] false (Some "F 1") None None None None None None None None None None None false false false false false false [] (Some in_a_section) None.
Theorem section_is_told_refuted : ~ section_is_told.
Proof.
  intro H. destruct (c_audit [] [] sectioned) as [[r t']|] eqn:E; [|vm_compute in E; discriminate].
  assert (X := H _ _ _ _ _ in_a_section "12345" E eq_refl eq_refl). destruct (section_is_never_told _ _ _ _ _ E) as (Y & _).
  assert (D : c_status KRes r = Done) by (vm_compute in E; injection E as <- _; vm_compute; reflexivity).
  specialize (X D). assert (Z := holds_unique _ _ _ _ X Y). discriminate.
Qed.
Print Assumptions section_is_told_refuted.
