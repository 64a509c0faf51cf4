(** The registrar's codes and the names used in specifications are read as they stand. *)
From Coq Require Import List ZArith QArith Bool String Lia.
From Verif Require Area.
From Verif Require Import Prelude Dec Course Op OpMemo Context CondExpr Predicate PredicateSpec Transcript Apply
  Exceptions Assertion TableSpec.
Import ListNotations.
Local Open Scope string_scope.
Local Open Scope list_scope.

Lemma find_row {A} (t : list (string * A)) s :
  match find (fun p => fst p =? s) t with
  | Some (k, a) => k = s /\ In (s, a) t
  | None => forall a, ~ In (s, a) t
  end.
Proof.
  induction t as [|[k a] t IH]; simpl; [auto|].
  destruct (k =? s) eqn:E; [apply String.eqb_eq in E; subst; auto|].
  apply String.eqb_neq in E. destruct (find _ t) as [[k' a']|]; [destruct IH; auto|].
  intros b [H|H]; [injection H as -> _; congruence|exact (IH b H)].
Qed.
Lemma of_table_spec {A} (R : string -> A -> Prop) (t : list (string * A)) :
  (forall s a, In (s, a) t -> R s a) -> (forall s a, R s a -> In (s, a) t) -> (forall s a b, R s a -> R s b -> a = b) ->
  forall s, (forall a, of_table t s = Ok a <-> R s a) /\ ((forall a, ~ R s a) -> of_table t s = Err ValueErr).
Proof.
  intros S C U s. unfold of_table. pose proof (find_row t s) as F.
  destruct (find _ t) as [[k a]|].
  - destruct F as [-> F]. split.
    + intro b. split; [intros [= <-]; auto|]. intro H. f_equal. exact (U s a b (S _ _ F) H).
    + intro N. exfalso. exact (N a (S _ _ F)).
  - split; [|reflexivity]. intro b. split; [discriminate|]. intro H. exfalso. exact (F b (C _ _ H)).
Qed.
Ltac rows := intros ? ? H; cbn [In] in H; repeat (destruct H as [H|H]; [injection H as <- <-|]); try contradiction.
Ltac member := match goal with |- ?g => lazymatch g with
  | In _ _ => cbn [In String.append sign_code]; repeat first [left; reflexivity | right] end end.

Lemma letter_cases l s g : letter_grade l s g -> forall l' s' g', letter_grade l' s' g' -> (l ++ sign_code s)%string = (l' ++ sign_code s')%string -> g = g'.
Proof. intros H l' s' g' H'. destruct H, H'; first [reflexivity | intro E; discriminate E]. Qed.
Lemma letter_mark l s g m g' : letter_grade l s g -> mark m g' -> (l ++ sign_code s)%string = m -> False.
Proof. intros H H' E. destruct H, H'; discriminate E. Qed.
Lemma mark_fun m g g' : mark m g -> mark m g' -> g = g'.
Proof. intros H H'. destruct H; inversion H'; reflexivity. Qed.
Lemma grade_coded_fun s g g' : grade_coded s g -> grade_coded s g' -> g = g'.
Proof.
  intros H H'. destruct H as [l s g H|m g H|]; inversion H' as [l' s' g'' H0 E|m' g'' H0 E|E]; subst.
  - symmetry. eapply letter_cases; eauto.
  - exfalso. eapply letter_mark; eauto.
  - exfalso. destruct H; discriminate E.
  - exfalso. eapply letter_mark; eauto.
  - eapply mark_fun; eauto.
  - inversion H.
  - exfalso. destruct H0; discriminate E.
  - inversion H0.
  - reflexivity.
Qed.

(** ** C107 *)
Theorem grades_are_read_by_their_codes :
  forall s, (forall g, grade_of_value s = Ok g <-> grade_coded s g) /\ ((forall g, ~ grade_coded s g) -> grade_of_value s = Err ValueErr).
Proof.
  intro s. unfold grade_of_value.
  match goal with |- context [find _ ?t] => change (match find (fun p => fst p =? s) t with Some (_, g) => Ok g | None => Err ValueErr end) with (of_table t s) end.
  apply (of_table_spec grade_coded).
  - rows; first [apply gc_reg | apply gc_mark; constructor
      | exact (gc_letter _ _ _ lg_A) | exact (gc_letter _ _ _ lg_Ap) | exact (gc_letter _ _ _ lg_Am) | exact (gc_letter _ _ _ lg_B) | exact (gc_letter _ _ _ lg_Bp) | exact (gc_letter _ _ _ lg_Bm) 
      | exact (gc_letter _ _ _ lg_C) | exact (gc_letter _ _ _ lg_Cp) | exact (gc_letter _ _ _ lg_Cm) | exact (gc_letter _ _ _ lg_D) | exact (gc_letter _ _ _ lg_Dp) | exact (gc_letter _ _ _ lg_Dm) | exact (gc_letter _ _ _ lg_F)].
  - intros ? ? H. destruct H as [? ? ? []|? ? []|]; member.
  - exact grade_coded_fun.
Qed.
Print Assumptions grades_are_read_by_their_codes.

Theorem grade_names_are_as_written :
  (forall g, grade_named (grade_name g) g) /\
  (forall g g', py_str (SGrade g) = py_str (SGrade g') -> g = g') /\
  (forall o, option_named (option_name o) o) /\
  (forall o o', py_str (SOpt o) = py_str (SOpt o') -> o = o').
Proof.
  split; [|split; [|split]].
  - intros []; first [exact gn_reg | exact (gn_mark _ _ mk_BC) | exact (gn_mark _ _ mk_AB) | exact (gn_mark _ _ mk_NG) | exact (gn_mark _ _ mk_IP)
      | exact (gn_mark _ _ mk_I) | exact (gn_mark _ _ mk_P) | exact (gn_mark _ _ mk_N) | exact (gn_mark _ _ mk_S) | exact (gn_mark _ _ mk_U)
      | exact (gn_mark _ _ mk_AU) | exact (gn_mark _ _ mk_UA) | exact (gn_mark _ _ mk_WF) | exact (gn_mark _ _ mk_WP) | exact (gn_mark _ _ mk_W)
      | exact (gn_letter _ _ _ lg_A) | exact (gn_letter _ _ _ lg_Ap) | exact (gn_letter _ _ _ lg_Am) | exact (gn_letter _ _ _ lg_B)
      | exact (gn_letter _ _ _ lg_Bp) | exact (gn_letter _ _ _ lg_Bm) | exact (gn_letter _ _ _ lg_C) | exact (gn_letter _ _ _ lg_Cp)
      | exact (gn_letter _ _ _ lg_Cm) | exact (gn_letter _ _ _ lg_D) | exact (gn_letter _ _ _ lg_Dp) | exact (gn_letter _ _ _ lg_Dm)
      | exact (gn_letter _ _ _ lg_F)].
  - intros g g'. destruct g, g'; first [reflexivity | intro E; discriminate E].
  - intros []; constructor.
  - intros g g'. destruct g, g'; first [reflexivity | intro E; discriminate E].
Qed.
Print Assumptions grade_names_are_as_written.

Theorem registrar_codes_are_read_exactly :
  (forall s, (forall o, option_of_value s = Ok o <-> option_coded s o) /\ ((forall o, ~ option_coded s o) -> option_of_value s = Err ValueErr)) /\
  (forall s, (forall t, sub_type_of_value s = Ok t <-> exists n, sub_typed s n t) /\ ((forall n t, ~ sub_typed s n t) -> sub_type_of_value s = Err ValueErr)) /\
  (forall s, (forall t, course_type_of_value s = Ok t <-> exists n o, course_typed s n o t) /\ ((forall n o t, ~ course_typed s n o t) -> course_type_of_value s = Err ValueErr)) /\
  (forall s, (forall t, transcript_code_of_value s = Ok t <-> transcript_coded s t) /\ ((forall t, ~ transcript_coded s t) -> transcript_code_of_value s = Err ValueErr)).
Proof.
  split; [|split; [|split]].
  - intro s. unfold option_of_value.
    match goal with |- context [find _ ?t] => change (match find (fun p => fst p =? s) t with Some (_, g) => Ok g | None => Err ValueErr end) with (of_table t s) end.
    apply (of_table_spec option_coded).
    + rows; constructor.
    + intros ? ? []; member.
    + intros ? ? ? H H'. destruct H; inversion H'; reflexivity.
  - intro s. unfold sub_type_of_value.
    edestruct (of_table_spec (fun s t => exists n, sub_typed s n t)) as [A B]; cycle 3.
    { split; [exact A|]. intro N. apply B. intros t [n H]. exact (N n t H). }
    + rows; eexists; constructor.
    + intros ? ? [n H]. destruct H; member.
    + intros ? ? ? [n H] [n' H']. destruct H; inversion H'; reflexivity.
  - intro s. unfold course_type_of_value.
    edestruct (of_table_spec (fun s t => exists n o, course_typed s n o t)) as [A B]; cycle 3.
    { split; [exact A|]. intro N. apply B. intros t (n & o & H). exact (N n o t H). }
    + rows; do 2 eexists; constructor.
    + intros ? ? (n & o & H). destruct H; member.
    + intros ? ? ? (n & o & H) (n' & o' & H'). destruct H; inversion H'; reflexivity.
  - intro s. unfold transcript_code_of_value. apply (of_table_spec transcript_coded).
    + rows; constructor.
    + intros ? ? []; member.
    + intros ? ? ? H H'. destruct H; inversion H'; reflexivity.
Qed.
Print Assumptions registrar_codes_are_read_exactly.

(** Names and places in the order of courses of the same course. *)
Theorem types_are_named_and_ordered :
  (forall t, exists s, sub_typed s (sub_type_name t) t) /\
  (forall t, exists s, course_typed s (course_type_name t) (course_type_order t) t) /\
  (forall s, status_named (area_status_name s) s) /\ (forall k, kind_named (area_kind_name k) k) /\
  (forall t t', course_type_name t = course_type_name t' -> t = t') /\
  (forall t t', sub_type_name t = sub_type_name t' -> t = t').
Proof.
  split; [intros []; eexists; constructor|]. split; [intros []; eexists; constructor|].
  split; [intros []; constructor|]. split; [intros []; constructor|].
  split; intros t t'; destruct t, t'; first [reflexivity | intro E; discriminate E].
Qed.
Print Assumptions types_are_named_and_ordered.

(** Claims are listed by the code of the sub type. *)
Theorem sub_types_are_listed_by_their_codes :
  (forall t, exists n, sub_typed (Area.sub_type_value t) n t) /\
  forall t, sub_type_of_value (Area.sub_type_value t) = Ok t.
Proof. split; intros []; first [eexists; constructor | reflexivity]. Qed.
Print Assumptions sub_types_are_listed_by_their_codes.

Theorem integrated_courses_are_recognised : forall id n, chbi id = Some n <-> integrated id n.
Proof.
  intros id n. unfold chbi, integrated.
  assert (E : forall z, str_of_Z z = str_of_Z z) by reflexivity. clear E.
  split.
  - destruct (id =? "CH/BI 125") eqn:E1; [apply String.eqb_eq in E1; intros [= <-]; subst; split; [auto|vm_compute; reflexivity]|].
    destruct (id =? "CH/BI 126") eqn:E2; [apply String.eqb_eq in E2; intros [= <-]; subst; split; [auto|vm_compute; reflexivity]|].
    destruct (id =? "CH/BI 127") eqn:E3; [apply String.eqb_eq in E3; intros [= <-]; subst; split; [auto|vm_compute; reflexivity]|].
    destruct (id =? "CH/BI 227") eqn:E4; [apply String.eqb_eq in E4; intros [= <-]; subst; split; [auto|vm_compute; reflexivity]|discriminate].
  - intros [[->|[->|[->| ->]]] ->]; vm_compute; reflexivity.
Qed.
Print Assumptions integrated_courses_are_recognised.

(** ** C108 *)
(** the name under which a quantity is asserted *)
Theorem assertions_name_their_quantity :
  forall m k name, In k (actions_of m) /\ akey_name k = name <->
    exists f x, quantity f x m k /\ name = (f ++ "(" ++ x ++ ")")%string.
Proof.
  intros m k name. split.
  - intros [I E]. subst name.
    destruct m; cbn [actions_of course_actions area_actions other_actions In] in I;
      repeat (destruct I as [<-|I]; [do 2 eexists; split; [constructor; auto|reflexivity]|]); contradiction.
  - intros (f & x & Q & ->). destruct Q; (try match goal with H : _ \/ _ |- _ => destruct H as [-> | ->] end);
      (split; [cbn [actions_of course_actions area_actions other_actions In]; repeat first [left; reflexivity | right] | reflexivity]).
Qed.
Print Assumptions assertions_name_their_quantity.

Theorem quantities_are_told_apart : forall k k', akey_name k = akey_name k' -> k = k'.
Proof. intros k k'. destruct k, k'; first [reflexivity | intro E; discriminate E]. Qed.
Print Assumptions quantities_are_told_apart.

(** an assertion about anything else is refused *)
Theorem unknown_quantities_are_refused :
  forall cx c m p r name v, rw_assert r = [(name, v)] -> rw_where r = None ->
  (forall f x k, quantity f x m k -> name <> (f ++ "(" ++ x ++ ")")%string) ->
  load_single_assertion cx c m p r = Err AssertErr.
Proof.
  intros cx c m p r name v RA RW N. unfold load_single_assertion. rewrite RW, RA. cbn [bind].
  destruct (find _ (actions_of m)) as [k|] eqn:F; [|reflexivity]. exfalso.
  apply find_some in F. destruct F as [I E]. apply String.eqb_eq in E.
  destruct (proj1 (assertions_name_their_quantity m k name) (conj I E)) as (f & x & Q & ->). exact (N f x k Q eq_refl).
Qed.
Print Assumptions unknown_quantities_are_refused.

(** a key that may be used in a clause about such items *)
Definition names_a_field (m : data_type) (k : string) : Prop :=
  match m with
  | DtCourse => k = "grade" \/ exists c v, course_field c k v
  | DtArea => exists a v, area_field a k v
  | DtPerformance => exists p v, perf_field p k v
  | DtRecital => exists s v, slip_field s k v
  end.
Definition any_course : course := mk_simple "1" "X" "1".
Definition ap_course : course :=
  {| c_clbid := "1"; c_attributes := []; c_credits := mkDec 0 0; c_crsid := ""; c_course_type := CtAP; c_gereqs := [];
     c_gpa_points := mkDec 0 0; c_grade_code := GA; c_grade_option := GoGrade; c_grade_points := mkDec 0 0;
     c_institution := ""; c_in_gpa := false; c_in_progress := false; c_ip_this_term := false; c_ip_in_future := false;
     c_incomplete := false; c_repeat := false; c_stolaf := false; c_lab := false; c_covid := false; c_level := 100;
     c_name := "AP"; c_number := "1"; c_schedid := None; c_section := None; c_sub_type := StNormal; c_subject := "X";
     c_su_grade := None; c_term := "1"; c_transcript_code := TcEmpty; c_year := 2000; c_yearterm := "20001";
     c_identity := "X 1"; c_chbi := None |}.
Definition an_area : area_ptr := mkArea "1" AsDeclared AkMajor "M" "B.A." None (Some (mkDec 0 0)) None.

Theorem accepted_keys_name_fields :
  (forall k, (exists ks, allowed_keys DtCourse = Ok ks /\ In k ks) <-> names_a_field DtCourse k) /\
  (forall k, (exists ks, allowed_keys DtArea = Ok ks /\ In k ks) <-> names_a_field DtArea k) /\
  (forall k, (exists ks, allowed_keys DtPerformance = Ok ks /\ In k ks) <->
     names_a_field DtPerformance k /\ k <> "year" /\ k <> "term") /\
  allowed_keys DtRecital = Err OtherErr.
Proof.
  split; [|split; [|split]].
  - intro k. cbn [names_a_field allowed_keys]. split.
    + intros (ks & [= <-] & I). cbn [course_keys In] in I.
      repeat (destruct I as [<-|I]; [first [left; reflexivity | right; exists any_course; eexists; constructor; fail
        | right; exists ap_course; eexists; constructor; reflexivity
        | right; exists any_course; eexists; constructor; constructor; reflexivity]|]). contradiction.
    + intros [->|(c & v & H)]; exists course_keys; (split; [reflexivity|]); [|destruct H];
        cbn [course_keys In]; repeat first [left; reflexivity | right].
  - intro k. cbn [names_a_field allowed_keys]. split.
    + intros (ks & [= <-] & I). cbn [area_keys In] in I.
      repeat (destruct I as [<-|I]; [exists an_area; eexists; constructor; reflexivity|]). contradiction.
    + intros (a & v & H). exists area_keys; split; [reflexivity|]. destruct H; cbn [area_keys In]; repeat first [left; reflexivity | right].
  - intro k. cbn [names_a_field allowed_keys]. split.
    + intros (ks & [= <-] & I). cbn [In] in I.
      destruct I as [<-|[<-|[<-|[]]]]; (split; [|split; discriminate]).
      * exists (mkPerf (mkSlip 0 "" 0 "") None None). eexists. apply pf_slip, sf_name.
      * exists (mkPerf (mkSlip 0 "" 0 "") None (Some PsEntrance)). eexists. now apply pf_entrance.
      * exists (mkPerf (mkSlip 0 "" 0 "") (Some "x") None). eexists. now eapply pf_role.
    + intros ((p & v & H) & NY & NT). eexists; split; [reflexivity|].
      destruct H as [p k v H| | |]; [destruct H; [..|congruence|congruence]|..]; cbn [In]; auto.
  - reflexivity.
Qed.
Print Assumptions accepted_keys_name_fields.

(** When a clause is refused for its key or its number of operators. *)
Theorem clause_refused_for_its_shape :
  forall c m k d,
  (m = DtRecital -> load_single c m k d = Err OtherErr) /\
  (m <> DtRecital -> (forall ks, allowed_keys m = Ok ks -> ~ In k ks) -> load_single c m k d = Err AssertErr) /\
  (forall ks, allowed_keys m = Ok ks -> In k ks -> List.length (cd_ops d) <> 1%nat -> load_single c m k d = Err AssertErr).
Proof.
  intros c m k d. assert (X : forall ks, In k ks -> existsb (String.eqb k) ks = true).
  { intros ks I. apply existsb_exists. exists k. split; [exact I|apply String.eqb_refl]. }
  split; [|split].
  - intros ->. reflexivity.
  - intros NR N. unfold load_single. destruct (allowed_keys m) as [ks|e] eqn:A; [|destruct m; try discriminate; contradiction].
    cbn [bind]. destruct (existsb (String.eqb k) ks) eqn:E; [|reflexivity]. exfalso.
    apply existsb_exists in E as (k' & I & Q). apply String.eqb_eq in Q. subst k'. exact (N ks eq_refl I).
  - intros ks A I L. unfold load_single. rewrite A. cbn [bind]. rewrite (X ks I). cbn [negb].
    destruct (cd_ops d) as [|[o r] [|? ?]]; [reflexivity| |destruct o; reflexivity]. contradiction L; reflexivity.
Qed.
Print Assumptions clause_refused_for_its_shape.

(** A clause whose key names no field of a course raises when it is applied. *)
Theorem unknown_fields_raise :
  forall c l, ~ names_a_field DtCourse (l_key l) -> course_apply c l = Err AssertErr.
Proof.
  intros c l N. unfold course_apply.
  assert (K : forall k, In k course_keys -> (l_key l =? k) = false).
  { intros k I. apply String.eqb_neq. intros E. apply N. rewrite E. apply (proj1 accepted_keys_name_fields). exists course_keys. auto. }
  repeat match goal with |- context [l_key l =? ?k] => rewrite (K k) by (cbn [course_keys In]; repeat first [left; reflexivity | right]) end.
  reflexivity.
Qed.
Print Assumptions unknown_fields_raise.

(** ** C17: booleans and numbers are compared as numbers *)
Theorem numbers_of_scalars : forall s q, num s = Some q <-> number_of s q.
Proof.
  intros s q. split.
  - destruct s as [|[]| | | | |]; cbn [num]; intro H; try discriminate; injection H as <-; constructor.
  - intros []; reflexivity.
Qed.
Print Assumptions numbers_of_scalars.

(** ** C66: terms since an area was declared *)
Theorem terms_since_declaring_exact :
  forall code l,
  (forall before a after, l = before ++ a :: after -> a_code a = code -> (forall b, In b before -> a_code b <> code) ->
     terms_since_declaring code l = match a_terms a with Some z => z | None => 0%Z end) /\
  ((forall a, In a l -> a_code a <> code) -> terms_since_declaring code l = 0%Z).
Proof.
  intros code l. unfold terms_since_declaring. split.
  - intros before a after -> E. induction before as [|b before IH]; intro N; cbn [app find].
    + rewrite E, String.eqb_refl. reflexivity.
    + assert (Q : (a_code b =? code) = false) by (apply String.eqb_neq; apply N; left; reflexivity). rewrite Q. apply IH. intros x I. apply N. right. exact I.
  - induction l as [|b l IH]; intro N; cbn [find]; [reflexivity|].
    assert (Q : (a_code b =? code) = false) by (apply String.eqb_neq; apply N; left; reflexivity). rewrite Q. apply IH. intros x I. apply N. right. exact I.
Qed.
Print Assumptions terms_since_declaring_exact.

(** ** C19: what the memo tables keep *)
Theorem memo_keeps_the_recent_answers :
  forall t k b,
  (List.length (remember t k b) <= 2048)%nat /\ lookup (remember t k b) k = (if key_eqb k k then Some b else lookup (remember t k b) k) /\
  (exists t', remember t k b = (k, b) :: t' /\
     forall i e, nth_error (filter (fun e => negb (key_eqb (fst e) k)) t) i = Some e ->
       (i < 2047)%nat <-> nth_error t' i = Some e).
Proof.
  intros t k b. unfold remember. replace (2 * 1024)%nat with (S 2047) by reflexivity. rewrite firstn_cons.
  set (u := filter _ t). split; [|split].
  - pose proof (firstn_le_length 2047 u) as F. replace 2048%nat with (S 2047) by reflexivity. revert F.
    generalize 2047%nat. intros n F. cbn [List.length]. apply le_n_S, F.
  - unfold lookup. cbn [find fst]. destruct (key_eqb k k); reflexivity.
  - exists (firstn 2047 u). split; [reflexivity|].
    generalize 2047%nat as n. intro n. generalize u. clear u. induction n as [|n IH]; intros u i e H.
    + split; [lia|]. destruct u; cbn [firstn]; destruct i; discriminate.
    + destruct u as [|x u]; [destruct i; discriminate|]. destruct i as [|i]; cbn [firstn nth_error] in *; [intuition lia|].
      rewrite <- (IH u i e H). lia.
Qed.
Print Assumptions memo_keeps_the_recent_answers.

(** ** C45: which exceptions are refused *)
Theorem exception_refused_exactly :
  forall ms r,
  (rx_type r = None -> load_exception ms r = Err ValueErr) /\
  (forall t, rx_type r = Some t ->
     match t with
     | XInsert | XForceInsert | XBlock => rx_clbid r = None
     | XOverride => False
     | XValue => rx_value r = None
     | XCourseCredits => rx_clbid r = None \/ rx_credits r = None
     | XCourseSubject => rx_clbid r = None \/ rx_subject r = None
     end <-> load_exception ms r = Err KeyErr) /\
  (forall e, load_exception ms r = Err e -> e = ValueErr /\ rx_type r = None \/ e = KeyErr).
Proof.
  intros ms r. unfold load_exception. destruct (rx_type r) as [t|].
  - split; [discriminate|]. split.
    + intros t' [= <-]. destruct t; unfold field;
        try (destruct (rx_clbid r)); try (destruct (rx_value r)); try (destruct (rx_credits r)); try (destruct (rx_subject r));
        cbn [bind]; split; intro H; try reflexivity; try discriminate; try contradiction; auto;
        destruct H; discriminate.
    + intros e H. right. destruct t; unfold field in H;
        try (destruct (rx_clbid r)); try (destruct (rx_value r)); try (destruct (rx_credits r)); try (destruct (rx_subject r));
        cbn [bind] in H; congruence.
  - split; [reflexivity|]. split; [discriminate|]. intros e [= <-]. auto.
Qed.
Print Assumptions exception_refused_exactly.

(** ** C27: quantities that cannot be computed *)
Theorem quantities_of_other_items_refused :
  forall k data, ~ In k other_actions -> apply_data k data = Err AssertErr.
Proof. intros k data N. destruct k; try reflexivity; exfalso; apply N; cbn; auto. Qed.
Print Assumptions quantities_of_other_items_refused.

Example codes_example :
  grade_of_value "B+" = Ok GBplus /\ grade_coded "B+" GBplus /\ grade_of_value "b+" = Err ValueErr /\
  course_type_of_value "TR" = Ok CtTransfer /\ chbi "CH/BI 227" = Some 227%Z /\ chbi "CH/BI 228" = None.
Proof. repeat split; try reflexivity. exact (gc_letter _ _ _ lg_Bp). Qed.
Example keys_example :
  (exists f x, quantity f x DtCourse KTerms /\ "count(terms)" = (f ++ "(" ++ x ++ ")")%string) /\
  names_a_field DtCourse "type" /\ names_a_field DtArea "degree".
Proof.
  split; [do 2 eexists; split; [constructor|reflexivity]|].
  split; [right; exists any_course; eexists; constructor|exists an_area; eexists; constructor].
Qed.
