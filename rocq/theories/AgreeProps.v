(** Property theorems about students who agree on what an area can use (C191). *)
From Coq Require Import List ZArith QArith Bool Ascii String Lia Permutation.
From Verif Require Import Transcript Prelude Dec Status Course Claims Exceptions Op Context CondExpr Paths Predicate Limit LimitLoad Apply Assertion Query CourseRule EnumSpec LazyRun Tree Solve Driver Area StudentLoad Estimate Run Loader AreaLoad.
From Verif Require Import ListFacts LoaderSpec LoaderProps TreeSpec TreeSolSpec TreeSolProps AreaLoadSpec AreaLoadProps CommonProps MonoProps MonoExcProps AreaEndProps FrameSpec FrameProofs FrameProps GoneProofs GoneProps IdleSpec IdleProofs IdleProps IdleLoadSpec IdleLoadProps OtherSpec OtherProofs OtherProps ShownSpec ShownProofs ShownProps.
Import ListNotations.
Local Open Scope string_scope.
Local Open Scope list_scope.

(** the student who has taken none of the classes *)
Definition without_classes (xs : list course) (st : student) : student := fold_left (fun s x => without_class x s) xs st.
(** nothing in the area or in its specification, and no exception, has to do with the class *)
Definition unusable (s : aspec) (u : study) (es : list exc) (x : course) : Prop := asks_about_others x s /\ idle u x /\ not_excepted x es.
(** Two students agree on what the area can use: without some classes that it cannot use they have
    the same classes, and their other records are alike where it looks. *)
Record agree (s : aspec) (u u' : study) (es : list exc) (st st' : student) : Prop := {
  ag_classes : exists xs ys, (forall x, In x xs -> unusable s u es x) /\ (forall y, In y ys -> unusable s u' es y) /\ same_classes (without_classes xs st) (without_classes ys st');
  ag_answers : OtherSpec.answers_alike s st st';
  ag_declared : declared_alike s st st';
  ag_looks : area_looks_alike u st st' }.

Lemma event_sym a b : same_event a b -> same_event b a.
Proof. intro E. destruct E as [| | | |v v' j n i [A [B C]]]; constructor. repeat split; symmetry; assumption. Qed.
Lemma event_trans a b c : same_event a b -> same_event b c -> same_event a c.
Proof. intro E. destruct E as [| | | |v v' j n i [A [B C]]]; intro F; try exact F. inversion F as [| | | |? w ? ? ? [A' [B' C']]]; subst. constructor. repeat split; congruence. Qed.
Lemma trace_sym a b : same_trace a b -> same_trace b a.
Proof. intros [F E]. split; [|symmetry; exact E]. clear E. induction F; constructor; [apply event_sym; assumption|assumption]. Qed.
Lemma trace_trans a b c : same_trace a b -> same_trace b c -> same_trace a c.
Proof.
  intros [F E] [G E']. split; [|congruence]. clear E E'. revert G. generalize (fst c). induction F as [|x y l l' S0 F IH]; intros l2 G; inversion G; subst; constructor; [eapply event_trans; eassumption|apply IH; assumption].
Qed.
Lemma records_kept xs : forall st, t_areas (without_classes xs st) = t_areas st /\ t_perf (without_classes xs st) = t_perf st /\ t_slips (without_classes xs st) = t_slips st /\ t_prof (without_classes xs st) = t_prof st.
Proof. induction xs as [|x xs IH]; intro st; [repeat split|]. exact (IH (without_class x st)). Qed.

(** ** C191 *)

(** Any number of classes that an area cannot use may be left out; *)
Theorem unusable_classes_show_nothing :
  forall c tm ord nord args es all_emphases s u xs st, (forall l, Permutation (ord l) l) -> (forall l, Permutation (nord l) l) ->
  load_area c tm st es all_emphases s = Ok u -> u_kind u <> "degree" -> (forall x, In x xs -> unusable s u es x) ->
  load_area c tm (without_classes xs st) es all_emphases s = Ok u /\
  same_trace (audit_area ord nord args u st es) (audit_area ord nord args u (without_classes xs st) es).
Proof.
  intros c tm ord nord args es all s u xs. induction xs as [|x xs IH]; intros st ORD NORD L KD US.
  - split; [exact L|]. split; [|reflexivity]. cbn [without_classes fold_left]. induction (fst (audit_area ord nord args u st es)) as [|e l IHl]; constructor; [destruct e as [i|[n| |q j n i|v j n i]]; constructor; repeat split|exact IHl].
  - destruct (US x (in_eq _ _)) as [AO [ID NE]]. destruct (idle_classes_show_nothing c tm ord nord args st es x all s u ORD NORD L KD AO ID NE) as [L' T].
    destruct (IH (without_class x st) ORD NORD L' KD (fun y J => US y (in_cons _ _ _ J))) as [L2 T2]. split; [exact L2|]. exact (trace_trans _ _ _ T T2).
Qed.
Print Assumptions unusable_classes_show_nothing.

(** and students who agree on what the area can use have the same rules loaded and the same shown. *)
Theorem students_who_agree_are_shown_the_same :
  forall c tm ord nord args es all_emphases s st st' u u', (forall l, Permutation (ord l) l) -> (forall l, Permutation (nord l) l) ->
  load_area c tm st es all_emphases s = Ok u -> load_area c tm st' es all_emphases s = Ok u' -> u_kind u <> "degree" -> u_kind u' <> "degree" ->
  agree s u u' es st st' -> u' = u /\ same_trace (audit_area ord nord args u st es) (audit_area ord nord args u' st' es).
Proof.
  intros c tm ord nord args es all s st st' u u' ORD NORD L L' KD KD' [[xs [ys [UX [UY SC]]]] AA DA AL].
  destruct (unusable_classes_show_nothing c tm ord nord args es all s u xs st ORD NORD L KD UX) as [LX TX].
  destruct (unusable_classes_show_nothing c tm ord nord args es all s u' ys st' ORD NORD L' KD' UY) as [LY TY].
  destruct (records_kept xs st) as (R1 & R2 & R3 & R4), (records_kept ys st') as (R1' & R2' & R3' & R4').
  destruct (other_records_show_nothing c tm ord nord args (without_classes xs st) (without_classes ys st') es all s u NORD LX SC) as [LO TO].
  - destruct AA as [A B]. split; [intros a J; unfold declares in *; rewrite R1, R1'; apply A, J|intro J; rewrite R4, R4'; apply B, J].
  - destruct DA as [A B C]. split; [intros e0 J; unfold declared in *; rewrite R1, R1'; apply A, J| |].
    + unfold standing_alike, declares in *. rewrite R1, R1'. exact B.
    + intros e0 J. specialize (C e0 J). unfold standing_alike, declares in *. rewrite R1, R1'. exact C.
  - assert (LA : forall n, looks_alike st st' n -> looks_alike (without_classes xs st) (without_classes ys st') n) by (intros n; unfold looks_alike; rewrite R1, R1', R2, R2', R3, R3', R4, R4'; intro J; exact J).
    destruct AL as [A B]. split; [intros y P; apply LA, A, P|intros n J y P; apply LA, (B n J y P)].
  - rewrite LY in LO. injection LO as ->. split; [reflexivity|]. exact (trace_trans _ _ _ TX (trace_trans _ _ _ TO (trace_sym _ _ TY))).
Qed.
Print Assumptions students_who_agree_are_shown_the_same.

(** ** Samples *)

(** a student without the class that is not used, and with a second area declared *)
Definition sample_spec : aspec := choosing (XFun FHasCourse "B 1").
Example agreeing_students_example :
  exists u, load_area sample_const [] both_taken [] false sample_spec = Ok u /\ load_area sample_const [] (declaring (without_class unused both_taken)) [] false sample_spec = Ok u /\
  u_kind u <> "degree" /\ agree sample_spec u u [] both_taken (declaring (without_class unused both_taken)) /\ In unused (t_courses both_taken).
Proof.
  destruct unasked_class_example as [u [L [KD [AO [ID [NE I]]]]]]. exists u. split; [exact L|]. split; [rewrite <- L; vm_compute; reflexivity|]. split; [exact KD|]. split; [|exact I].
  split.
  - exists [unused], []. split; [intros x [<-|[]]; split; [exact AO|split; [exact ID|exact NE]]|]. split; [intros y []|]. split; reflexivity.
  - split; [intros a A; apply choosing_asks in A; inversion A|intros [a A]; apply choosing_asks in A; inversion A].
  - split; [intros e0 []|split; [reflexivity|split; intro E; discriminate E]|intros e0 []].
  - vm_compute in L. injection L as <-. split.
    + intros y P. cbn [u_result] in P. inversion P as [| | |? ? ? ? ? Q0|? ? ? ? ? Q0]; subst; [exact Logic.I| |]; inversion Q0; subst; exact Logic.I.
    + intros n J y P. cbn [u_common] in J. repeat (destruct J as [<-|J]; [repeat match goal with H : part_of _ _ |- _ => inversion H; clear H; subst; try exact Logic.I end|]); try destruct J.
Qed.
