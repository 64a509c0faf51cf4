(** C166, C167: the validator. *)
From Coq Require Import List ZArith QArith Bool String Lia.
From Verif Require Import Transcript Prelude Dec Status Course Claims Exceptions Op Context CondExpr Predicate Limit Apply Assertion Query CourseRule Tree Driver Area Loader LimitLoad AreaLoad Validate.
From Verif Require Import LoaderSpec AreaLoadSpec ValidateSpec ValidateProofs CourseRuleProps LoaderProps AreaLoadProps.
Import ListNotations.
Local Open Scope string_scope.
Local Open Scope list_scope.

(** ** C166 *)

Theorem valid_exactly : forall f, (exists u, validate_file f = Ok u) <-> valid_file f.
Proof.
  assert (P : plain_departments default_student) by (intros a d []).
  intro f. unfold validate_file. split.
  - intros [u H]. destruct f as [s|]; cbn [bind] in H; [|discriminate]. apply (area_loaded_exactly _ _ _ _ _ _ _ P) in H.
    destruct H as (chosen & n & cs & H). exists s, u, chosen, n, cs. split; [reflexivity|exact H].
  - intros (s & u & chosen & n & cs & -> & H). exists u. cbn [bind]. apply (area_loaded_exactly _ _ _ _ _ _ _ P). exists chosen, n, cs. exact H.
Qed.
Print Assumptions valid_exactly.
Lemma file_cases f : (exists u, validate_file f = Ok u /\ valid_file f) \/ (exists e, validate_file f = Err e /\ ~ valid_file f).
Proof.
  destruct (validate_file f) as [u|e] eqn:E; [left; exists u; split; [reflexivity|]; apply valid_exactly; eauto|].
  right. exists e. split; [reflexivity|]. intro V. apply valid_exactly in V. destruct V as [u V]. congruence.
Qed.
(** The validator prints an error for each invalid file and for no other; with --break, for the
    first one only. *)
Theorem complaints_exact :
  forall files, each_invalid files (map fst (complaints false files)) /\ first_invalid files (map fst (complaints true files)).
Proof.
  intro files. split.
  - exists (filter (fun x => match validate_file (snd x) with Ok _ => false | Err _ => true end) files). split.
    + exists (fun x => match validate_file (snd x) with Ok _ => false | Err _ => true end). split; [|reflexivity]. intros x _.
      destruct (file_cases (snd x)) as [(u & -> & V)|(e & -> & V)]; split; intro; try reflexivity; try discriminate; try assumption; contradiction.
    + induction files as [|[name f] t IH]; [reflexivity|]. cbn [complaints filter snd]. destruct (validate_file f); [exact IH|]. cbn [map fst]. congruence.
  - induction files as [|[name f] t IH]; [right; split; [intros y []|reflexivity]|]. cbn [complaints].
    destruct (file_cases f) as [(u & -> & V)|(e & -> & V)].
    + destruct IH as [(a & x & b & -> & A & X & N)|(A & N)].
      * left. exists ((name, f) :: a), x, b. split; [reflexivity|]. split; [intros y [<-|I']; [exact V|apply A, I']|]. auto.
      * right. split; [intros y [<-|I']; [exact V|apply A, I']|exact N].
    + left. exists [], (name, f), t. split; [reflexivity|]. split; [intros y []|]. split; [exact V|reflexivity].
Qed.
Print Assumptions complaints_exact.
(** Nothing is printed if and only if all files are valid, with --break or without. *)
Theorem silence_is_validity :
  forall brk files, complaints brk files = [] <-> forall x, In x files -> valid_file (snd x).
Proof.
  intros brk files. induction files as [|[name f] t IH]; cbn [complaints]; [split; [intros _ x []|reflexivity]|].
  destruct (file_cases f) as [(u & -> & V)|(e & -> & V)].
  - rewrite IH. split; [intros H x [<-|I']; [exact V|apply H, I']|intros H x I'; apply H; now right].
  - split; [discriminate|]. intro H. destruct V. apply (H (name, f)). now left.
Qed.
Print Assumptions silence_is_validity.
(** the exit code says whether all files are valid *)
Definition exit_code_tells : Prop :=
  forall brk files, snd (validate_main brk files) = 0%Z <-> forall x, In x files -> valid_file (snd x).
(** The exit code is always 0. *)
Theorem exit_code_is_zero : forall brk files, snd (validate_main brk files) = 0%Z.
Proof. reflexivity. Qed.
Theorem exit_code_tells_refuted : ~ exit_code_tells.
Proof.
  intro H. assert (V := proj1 (H false [("missing.yaml", Err OtherErr)]) eq_refl ("missing.yaml", Err OtherErr) (or_introl eq_refl)).
  destruct V as (s & u & chosen & n & cs & E & _). discriminate E.
Qed.
Print Assumptions exit_code_tells_refuted.
Definition plain_area : aspec := sample_area (d_all [d_ref "Core"; d_course "B 1"]) [one].
(** no requirement of that name *)
Definition broken_area : aspec := sample_area (d_all [d_ref "Cores"]) [].
Example complaints_example :
  let files := [("a.yaml", Ok plain_area); ("b.yaml", Ok broken_area); ("c.yaml", Err OtherErr); ("d.yaml", Ok plain_area)] in
  map fst (complaints false files) = ["b.yaml"; "c.yaml"] /\ map fst (complaints true files) = ["b.yaml"].
Proof. vm_compute. split; reflexivity. Qed.

(** ** C167 *)

(** A valid steady area loads for every student who has declared none of its emphases, if the
    exceptions insert only classes of theirs. *)
Theorem valid_areas_load :
  forall s c tm st es, valid_file (Ok s) -> steady_area s ->
  no_emphasis st s -> plain_departments st -> inserts_own st es ->
  exists u, load_area c tm st es false s = Ok u.
Proof.
  intros s c tm st es V S N P O. apply valid_exactly in V. destruct V as [u V]. cbn [validate_file bind] in V.
  eapply area_same; [exact S| | |exact N|exact P|exact O|exact V]; [intros e k f []|intros e _ (a & [] & _)].
Qed.
Print Assumptions valid_areas_load.
(** An area that loads for one of them, without inserts, is valid. *)
Theorem areas_that_load_are_valid :
  forall s c tm st es u, load_area c tm st es false s = Ok u -> steady_area s -> no_emphasis st s -> inserts_nothing es ->
  valid_file (Ok s).
Proof.
  intros s c tm st es u H S N I'. apply valid_exactly.
  destruct (area_same c validation_constants tm [] st default_student es [] s u S I' N) as [u' U]; [intros e _ (a & [] & _)|intros a d []|intros e k f []|exact H|]. exists u'. exact U.
Qed.
Print Assumptions areas_that_load_are_valid.
(** So a steady area is refused for all of them, or for none of them. *)
Theorem all_or_none :
  forall s c c' tm tm' st st' es es', steady_area s -> no_emphasis st s -> no_emphasis st' s ->
  plain_departments st -> plain_departments st' -> inserts_nothing es -> inserts_nothing es' ->
  ((exists u, load_area c tm st es false s = Ok u) <-> exists u, load_area c' tm' st' es' false s = Ok u).
Proof.
  intros s c c' tm tm' st st' es es' S N N' P P' I' I''. split; intros [u H]; eapply area_same; try exact H; eauto using nothing_own.
Qed.
Print Assumptions all_or_none.

(** an area with a query over the student's own area code, a conditional about a course, and an
    emphasis *)
Definition code_query : raw_query :=
  mkRawQuery "courses" (Some (WAnd [one_key "subject" OEq (str_value "$current-area-code"); one_key "credits" OGt (VS (SInt 0))])) None false
    (Some (mkRawAs None None None [("count(courses)", mkRawValue [(OGte, RInt 2)] [] false false false)])) None false None false false.
Definition d_query (q : raw_query) : rdata := mkRd None None None (Some q) None None None None.
Definition steady_one : aspec :=
  sample_area (d_all [d_ref "Core"; d_query code_query; d_if (XFun FHasCourse "HIST 101") (d_course "B 1") (Some (d_course "B 2")) false]) [one].
Lemma steady_course i : steady_rule (d_course i).
Proof. constructor; try reflexivity; try discriminate; intros; discriminate. Qed.
Lemma steady_ref i : steady_rule (d_ref i).
Proof. constructor; try reflexivity; try discriminate; intros; discriminate. Qed.
Lemma steady_all l : steady_rule (d_all l).
Proof. constructor; try reflexivity; try discriminate; intros; try discriminate. injection H as <-. discriminate. Qed.
Lemma mentions_course i y : mentions (d_course i) y -> y = d_course i.
Proof. intro M. inversion M; subst; try reflexivity; discriminate. Qed.
Lemma mentions_ref i y : mentions (d_ref i) y -> y = d_ref i.
Proof. intro M. inversion M; subst; try reflexivity; discriminate. Qed.
Lemma mentions_query q y : mentions (d_query q) y -> y = d_query q.
Proof. intro M. inversion M; subst; try reflexivity; discriminate. Qed.
Lemma mentions_all l y : mentions (d_all l) y -> y = d_all l \/ exists d, In d l /\ mentions d y.
Proof.
  intro M. inversion M as [| | |? k l' x ? E L I' M'|]; subst; try discriminate; [now left|]. right. injection E as <-. exists x.
  inversion L; subst; cbn in *; try discriminate. split; [congruence|exact M'].
Qed.
Lemma mentions_need i y : mentions_in (AreaLoadProps.need i) y -> y = d_course i.
Proof. intro M. inversion M as [? ? ? E M'|? ? ? ? ? E]; subst; [|discriminate]. injection E as <-. apply mentions_course, M'. Qed.
Lemma steady_one_steady : steady_area steady_one.
Proof.
  assert (SQ : steady_rule (d_query code_query)).
  { constructor; try reflexivity; try discriminate; intros; try discriminate. injection H as <-. split; [|split; [|split]]; try discriminate.
    - intros w E k d v s C HV V CN CK. injection E as <-. inversion C as [? w ? ? I' C'| | | | |]; subst.
      destruct I' as [<-|[<-|[]]]; inversion C' as [| | | | |? ? ? I'' ]; subst; destruct I'' as [E|[]]; injection E as <- <-.
      + destruct CK as [X|[X|[X|[X|[]]]]]; discriminate X.
      + destruct HV as [[op [E|[]]]|E]; [injection E as <- <-; discriminate V|discriminate E].
    - intros a E. injection E as <-. split; [discriminate|]. intros k v op s [E|[]] I' _. injection E as <- <-. destruct I' as [E|[]]. discriminate E. }
  constructor.
  - intros d E y M. injection E as <-. apply mentions_all in M. destruct M as [->|(d & I' & M)]; [apply steady_all|]. destruct I' as [<-|[<-|[<-|[]]]].
    + apply mentions_ref in M. subst. apply steady_ref.
    + apply mentions_query in M. subst. exact SQ.
    + inversion M as [|? x t ? E T M'|? x f ? E F M'| |]; subst; try discriminate.
      * constructor; try reflexivity; try discriminate; [intros x E; injection E as <-; reflexivity|]. intros x b' E [T|T]; injection E as <-; injection T as <-; intros z Z; apply mentions_course in Z; subst; split; reflexivity.
      * injection E as <-. injection T as <-. apply mentions_course in M'. subst. apply steady_course.
      * injection E as <-. injection F as <-. apply mentions_course in M'. subst. apply steady_course.
  - intros l n b E I' y M. injection E as <-. destruct I' as [E|[]]. injection E as <- <-. apply mentions_need in M. subst. apply steady_course.
  - intros l r w E. discriminate E.
  - intros e [<-|[]]. split; [|intros l r w E; discriminate E]. intros y M. inversion M as [? d ? E M'|? s b' l ? E I' M']; subst; injection E as <-.
    + apply mentions_all in M'. destruct M' as [->|(d & I' & M')]; [apply steady_all|]. destruct I' as [<-|[<-|[]]]; apply mentions_ref in M'; subst; apply steady_ref.
    + destruct I' as [E|[E|[]]]; injection E as <- <-; apply mentions_need in M'; subst; apply steady_course.
Qed.
(** It is valid, and loads for a student with a class, an area and an exception that inserts
    the class. *)
Example valid_areas_load_example :
  (exists u, validate_file (Ok steady_one) = Ok u) /\ steady_area steady_one /\
  let st := enrolled [pointer AkMajor "100"] [hist] in
  let es := [mkExc ["$"; ".count"] (AInsert "100" true)] in
  no_emphasis st steady_one /\ plain_departments st /\ inserts_own st es /\
  exists u, load_area some_const [] st es false steady_one = Ok u /\ List.length (places (u_result u)) = 8%nat.
Proof.
  split; [eexists; vm_compute; reflexivity|]. split; [apply steady_one_steady|]. split; [|split; [|split]].
  - intros e [<-|[]] (a & [<-|[]] & K & _). discriminate K.
  - intros a d [<-|[]] E. injection E as <-. reflexivity.
  - intros e k f [<-|[]] E. injection E as <- <-. split; [discriminate|]. exists hist. split; [now left|reflexivity].
  - eexists. split; vm_compute; reflexivity.
Qed.

(** ** Without the conditions *)

(** what is valid loads for everybody *)
Definition valid_means_it_loads : Prop :=
  forall s c tm st, valid_file (Ok s) -> plain_departments st -> exists u, load_area c tm st [] false s = Ok u.
(** what loads for somebody is valid *)
Definition loading_means_valid : Prop :=
  forall s c tm st u, plain_departments st -> load_area c tm st [] false s = Ok u -> valid_file (Ok s).
Definition wrapped (d : rdata) (inner : option (list (string * rbody))) : aspec :=
  mkAspec (Some "Sample") (Some "major") (Some "B.A.") (Some "100") [] (Some (d_all [d_named "Top" (body (Some d) inner)])) None None [] false.
(** a requirement that is used only by those who have not taken a course *)
Definition not_taken : aspec :=
  wrapped (d_any [d_course "A 1"; d_if (XNot (XFun FHasCourse "HIST 101")) (d_ref "Core") None false]) (Some [("Core", body (Some (d_course "B 1")) None)]).
(** a child of "both" that is hidden from those who have taken a course *)
Definition hidden_child : aspec := wrapped (d_both [d_course "A 1"; d_if (XNot (XFun FHasCourse "HIST 101")) (d_course "B 1") None true]) None.
(** an emphasis without "all" *)
Definition bare_emphasis : aspec := sample_area (d_all [d_ref "Core"]) [emph "205" "Bare" (body (Some (d_course "F 1")) None)].
(** as not_taken, for those who have taken the course *)
Definition has_taken : aspec :=
  wrapped (d_any [d_course "A 1"; d_if (XFun FHasCourse "HIST 101") (d_ref "Core") None false]) (Some [("Core", body (Some (d_course "B 1")) None)]).
(** two courses, of which one is on a template of the student *)
Definition from_template : aspec := wrapped (d_of 2 [d_course "A 1"; d_template "t"]) None.
Lemma plain_enrolled l : plain_departments (enrolled [] l).
Proof. intros a d []. Qed.
Theorem valid_means_it_loads_refuted :
  ~ valid_means_it_loads /\
  (forall s, In s [not_taken; hidden_child; bare_emphasis] -> valid_file (Ok s)) /\
  load_area some_const [] (enrolled [] [hist]) [] false not_taken = Err AssertErr /\
  load_area some_const [] (enrolled [] [hist]) [] false hidden_child = Err AssertErr /\
  load_area some_const [] (enrolled [pointer AkEmphasis "205"] []) [] false bare_emphasis = Err KeyErr.
Proof.
  assert (V : forall s, In s [not_taken; hidden_child; bare_emphasis] -> valid_file (Ok s)).
  { intros s [<-|[<-|[<-|[]]]]; apply valid_exactly; eexists; vm_compute; reflexivity. }
  assert (N : load_area some_const [] (enrolled [] [hist]) [] false not_taken = Err AssertErr) by (vm_compute; reflexivity).
  split; [|split; [exact V|split; [exact N|split; vm_compute; reflexivity]]].
  intro H. destruct (H not_taken some_const [] (enrolled [] [hist]) (V _ (or_introl eq_refl)) (plain_enrolled _)) as [u U]. congruence.
Qed.
Print Assumptions valid_means_it_loads_refuted.
Theorem loading_means_valid_refuted :
  ~ loading_means_valid /\
  (forall s, In s [has_taken; from_template] -> ~ valid_file (Ok s)) /\
  (exists u, load_area some_const [] (enrolled [] [hist]) [] false has_taken = Ok u) /\
  exists u, load_area some_const [("t", [a_template])] (enrolled [] []) [] false from_template = Ok u.
Proof.
  assert (V : forall s, In s [has_taken; from_template] -> ~ valid_file (Ok s)).
  { intros s I' V. apply valid_exactly in V. destruct V as [u V]. destruct I' as [<-|[<-|[]]]; vm_compute in V; discriminate V. }
  assert (N : exists u, load_area some_const [] (enrolled [] [hist]) [] false has_taken = Ok u) by (eexists; vm_compute; reflexivity).
  split; [|split; [exact V|split; [exact N|eexists; vm_compute; reflexivity]]].
  intro H. destruct N as [u N]. exact (V _ (or_introl eq_refl) (H _ _ _ _ _ (plain_enrolled _) N)).
Qed.
Print Assumptions loading_means_valid_refuted.
