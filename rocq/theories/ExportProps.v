(** Property theorems about the export of stored results as tables (C139-C141). *)
From Coq Require Import List ZArith QArith Bool String Ascii Lia.
From Verif Require EstimateProps.
From Verif Require Import Prelude Dec Status Course Claims Exceptions Op Context CondExpr Paths Keys Predicate PredicateProofs Limit Apply Assertion Query CourseRule Tree TreeSpec TreeSolSpec Area Solve SolveProps TreeSolProps AreaProps ListFacts StudentProofs AreaLoadProofs Json JsonSpec JsonProofs JsonProps Report ReportSpec ReportProofs ReportProps Export.
Import ListNotations.
Local Open Scope nat_scope.
Local Open Scope string_scope.
Local Infix "+++" := (@app _) (at level 61, right associativity).

(** ** What is exported of a result *)
Section Spec.
  Variable title : string -> string.
  Definition name_of (o : option string) : string := match o with Some s => s | None => "None" end.
  Definition is_course (n : node) : bool := match n with NCourse _ _ => true | _ => false end.
  (** headings and values, for the results that can be exported *)
  Inductive exports : node -> list (string * option string) -> Prop :=
  | ex_passed k r : passes (c_status k r) = true -> exports (NCourse k r) [(name_of (r_course r), r_course r)]
  | ex_open k r : passes (c_status k r) = false -> exports (NCourse k r) []
  | ex_prof_course k i k' r : exports (NProf k i (Some (k', r))) [(f_proficiency i, r_course r)]
  | ex_prof k i : exports (NProf k i None) [(f_proficiency i, Some (if passes (status_of (NProf k i None)) then "done" else ""))]
  | ex_one k i x t l : n_count i = 1%Z -> exports x l -> exports (NCount k i (x :: t)) l
  | ex_all k i items ls : n_count i <> 1%Z \/ items = [] -> Forall2 exports items ls -> exports (NCount k i items) (List.concat ls)
  | ex_query k q : q_asserts q = [] -> where_printable (q_where q) = true -> exports (NQuery k q) []
  | ex_req_course k i k' r : exports (NReq k i (Some (NCourse k' r))) [(title (e_name i), r_course r)]
  | ex_req k i x l : is_course x = false -> exports x l ->
      exports (NReq k i (Some x)) (map (fun kv => (title (e_name i) ++ line_end ++ "↳ " ++ fst kv, snd kv)) l).
End Spec.
Definition as_cells (l : list (string * option string)) : list cell := map (fun kv => (fst kv, jopt JStr (snd kv))) l.

(** ** Proofs *)
Section Proofs.
  Variables (repr : string -> string) (dtext : Q -> string) (title : string -> string) (transcript : list course).
  Notation cells := (cells repr dtext title transcript).
  Notation exports := (exports title).

  Lemma same_mapr l : Forall (fun p => forall nested, str_predicate repr dtext nested true (pred_json p) = str_predicate repr dtext nested false (pred_json p)) l ->
    mapr (fun p => str_predicate repr dtext true true (pred_json p)) l = mapr (fun p => str_predicate repr dtext true false (pred_json p)) l.
  Proof. induction 1 as [|x l E F IH]; [reflexivity|]. cbn [mapr]. rewrite E, IH. reflexivity. Qed.
  Lemma raw_same p : forall nested, str_predicate repr dtext nested true (pred_json p) = str_predicate repr dtext nested false (pred_json p).
  Proof.
    induction p as [l IH|l IH|x IH|c t IH|c t e IHt IHe|l] using pred_ind'; intro nested; try reflexivity.
    - cbn [pred_json str_predicate]. look. rewrite !mapr_map, (same_mapr l IH). reflexivity.
    - cbn [pred_json str_predicate]. look. rewrite !mapr_map, (same_mapr l IH). reflexivity.
  Qed.
  Lemma raw_where o : (exists t, (if jtrue (jopt pred_json o) then let! t := str_predicate repr dtext false true (jopt pred_json o) in Ok ("where " ++ t) else Ok "") = Ok t) <-> where_printable o = true.
  Proof.
    destruct o as [p|]; cbn [jopt]; [|cbn; split; [reflexivity|eauto]]. rewrite pred_json_true, raw_same. assert (G := clause_ok repr dtext p false). cbn [where_printable]. unfold gives in G.
    destruct (clause_printable p); [rewrite G; cbn [bind]; split; eauto|destruct G as (e & ->); cbn [bind]; split; [intros (? & ?)|]; discriminate].
  Qed.
  Lemma assertion_fails a j : any_json a = Ok j -> assertion_cells repr dtext transcript j = Err KeyErr.
  Proof.
    destruct a as [x|p c t e|p c t]; cbn [any_json]; intro H.
    - unfold assertion_json in H. apply bind_iff in H as (is & _ & H). injection H as <-. unfold assertion_cells. cbn [jobj bind].
      assert (X : jget (text_entry "label" (as_label x) +++ text_entry "message" (as_message x) +++ original_entry (jdec (as_expected x)) (as_original x)) "assertion" = None).
      { unfold text_entry, original_entry. destruct (as_label x) as [l|]; [destruct (l =? "")|]; (destruct (as_message x) as [m|]; [destruct (m =? "")|]);
        (destruct (as_original x) as [s|]; [destruct (scalar_json s); cbn; try destruct (_ =? _)|]); reflexivity. }
      match goal with |- context [jkey ?L "assertion"] => assert (Y : jkey L "assertion" = Err KeyErr) by (unfold jkey; change (jget L "assertion") with (jget (text_entry "label" (as_label x) +++ text_entry "message" (as_message x) +++ original_entry (jdec (as_expected x)) (as_original x)) "assertion"); rewrite X; reflexivity);
        rewrite Y; change (jkey L "status") with (Ok (JStr (status_value (as_state x)))) end. reflexivity.
    - apply bind_iff in H as (x & _ & H). apply bind_iff in H as (y & _ & H). injection H as <-. reflexivity.
    - apply bind_iff in H as (x & _ & H). injection H as <-. reflexivity.
  Qed.
  Lemma query_exact k q j : query_json k q = Ok j -> forall l, cells j = Ok l <-> q_asserts q = [] /\ where_printable (q_where q) = true /\ l = [].
  Proof.
    unfold query_json. intros H l. apply bind_iff in H as (js & J & H). injection H as <-. cbn [Export.cells]. look. unfold query_cells. look.
    assert (W := raw_where (q_where q)). destruct (if jtrue (jopt pred_json (q_where q)) then _ else _) as [t|e]; cbn [bind].
    - assert (P : where_printable (q_where q) = true) by (apply W; eauto). destruct (q_asserts q) as [|a as_].
      + cbn in J. injection J as <-. cbn. split; [intro H; injection H as <-; auto|intros (_ & _ & ->); reflexivity].
      + cbn [mapr] in J. apply bind_iff in J as (x & X & J). apply bind_iff in J as (y & Y & J). injection J as <-. cbn [mapr]. rewrite (assertion_fails a x X). cbn [bind]. split; [discriminate|intros (? & _); discriminate].
    - split; [discriminate|]. intros (_ & P & _). apply W in P as (t & P). discriminate.
  Qed.
  Lemma course_exact k r l : cells (course_json k r) = Ok l <-> l = as_cells (if passes (c_status k r) then [(name_of (r_course r), r_course r)] else []).
  Proof.
    unfold course_json. cbn [Export.cells]. look. unfold course_cells. look. rewrite passes_ok.
    assert (E : pystr repr dtext (jopt JStr (r_course r)) = name_of (r_course r)) by (destruct (r_course r); reflexivity). rewrite E.
    destruct (passes (c_status k r)); cbn; split; [intro H; injection H as <-; reflexivity|intros ->; reflexivity|intro H; injection H as <-; reflexivity|intros ->; reflexivity].
  Qed.
  Lemma is_course_type n j : node_json n = Ok j -> exists d, j = JObj d /\ jkey d "type" = Ok (JStr (type_of_node n)).
  Proof.
    intro H. apply node_inv in H as (rk & _ & H). destruct n; cbn [type_of_node].
    - subst j. eexists. split; [reflexivity|]. reflexivity.
    - unfold query_json in H. apply bind_iff in H as (a & _ & H). injection H as <-. eexists. split; [reflexivity|]. reflexivity.
    - destruct H as (js & au & _ & _ & ->). eexists. split; [reflexivity|]. reflexivity.
    - destruct H as (x & _ & ->). eexists. split; [reflexivity|]. reflexivity.
    - destruct H as (a & b & _ & _ & ->). eexists. split; [reflexivity|]. reflexivity.
    - subst j. eexists. split; [reflexivity|]. reflexivity.
  Qed.
  Lemma as_cells_app a b : as_cells (a +++ b) = as_cells a +++ as_cells b.
  Proof. apply map_app. Qed.
  Lemma as_cells_concat ls : as_cells (List.concat ls) = List.concat (map as_cells ls).
  Proof. induction ls as [|x ls IH]; [reflexivity|]. cbn [List.concat map]. rewrite as_cells_app, IH. reflexivity. Qed.

  Lemma cells_exact n : forall j, node_json n = Ok j -> forall l, cells j = Ok l <-> exists m, exports n m /\ l = as_cells m.
  Proof.
    induction n as [k r|k q|k i items IH|k i r IH|k i t f IHt IHf|k i c] using node_induction; intros j J l; assert (V := node_inv _ _ J); destruct V as (rk & RK & V).
    - subst j. rewrite course_exact. split.
      + intros ->. exists (if passes (c_status k r) then [(name_of (r_course r), r_course r)] else []). split; [|reflexivity]. destruct (passes (c_status k r)) eqn:P; constructor; exact P.
      + intros (m & M & ->). inversion M; subst; match goal with P : passes _ = _ |- _ => rewrite P; reflexivity end.
    - rewrite (query_exact k q j V). split.
      + intros (A & W & ->). exists []. split; [constructor; assumption|reflexivity].
      + intros (m & M & ->). inversion M; subst. auto.
    - destruct V as (js & au & F & _ & ->). unfold based. cbn [Export.cells type_of_node]. look.
      assert (A : forall ls, mapr cells js = Ok ls <-> exists ms, Forall2 exports items ms /\ ls = map as_cells ms).
      { intro ls. rewrite mapr_iff. clear J RK. revert ls IH. induction F as [|x y xs ys X F IHF]; intros ls IH.
        - split; [intro H; inversion H; subst; exists []; split; [constructor|reflexivity]|intros (ms & M & ->); inversion M; subst; constructor].
        - split.
          + intro H. inversion H as [|? ? ? ? A B]; subst. apply (IH x (or_introl eq_refl) y X) in A as (m & M & ->). apply IHF in B as (ms & MS & ->); [|intros; apply IH; [right; assumption|assumption]].
            exists (m :: ms). split; [constructor; assumption|reflexivity].
          + intros (ms & M & ->). inversion M as [|? m ? ms' A B]; subst. cbn [map]. constructor; [apply (IH x (or_introl eq_refl) y X); eauto|]. apply IHF; [intros; apply IH; [right; assumption|assumption]|]. eauto. }
      assert (B : forall l, (let! ls := mapr cells js in Ok (List.concat ls)) = Ok l <-> exists ms, Forall2 exports items ms /\ l = as_cells (List.concat ms)).
      { intro l'. split.
        - intro H. apply bind_iff in H as (ls & L & H). injection H as <-. apply A in L as (ms & M & ->). exists ms. split; [exact M|]. symmetry. apply as_cells_concat.
        - intros (ms & M & ->). assert (L := proj2 (A (map as_cells ms)) (ex_intro _ ms (conj M eq_refl))). rewrite L. cbn [bind]. rewrite as_cells_concat. reflexivity. }
      destruct (Z.eq_dec (n_count i) 1) as [E|E].
      + rewrite E. destruct F as [|x y xs ys X F].
        * rewrite (B l). split; [intros (ms & M & ->); exists (List.concat ms); split; [apply ex_all; [right; reflexivity|exact M]|reflexivity]|].
          intros (m & M & ->). inversion M; subst. eauto.
        * rewrite (IH x (or_introl eq_refl) y X l). split; [intros (m & M & ->); exists m; split; [apply ex_one; assumption|reflexivity]|].
          intros (m & M & ->). inversion M as [| | | |? ? ? ? ? C D|? ? ? ? C D| | |]; subst; [eauto|]. destruct C as [C|C]; [contradiction|discriminate].
      + assert (Q : match n_count i with 1%Z => match js with x :: _ => cells x | [] => let! ls := mapr cells js in Ok (List.concat ls) end | _ => let! ls := mapr cells js in Ok (List.concat ls) end
                    = (let! ls := mapr cells js in Ok (List.concat ls))).
        { destruct (n_count i) as [|[p|p|]|p]; try reflexivity. contradiction. }
        match goal with |- ?t = Ok l <-> _ => replace t with (let! ls := mapr cells js in Ok (List.concat ls)) end.
        rewrite (B l). split; [intros (ms & M & ->); exists (List.concat ms); split; [apply ex_all; [left; exact E|exact M]|reflexivity]|].
        intros (m & M & ->). inversion M; subst; [contradiction|eauto].
    - destruct V as (x & X & ->). unfold based. cbn [Export.cells type_of_node]. look. destruct r as [n|].
      + destruct (is_course_type n x X) as (d & -> & T). rewrite T. cbn [bind]. destruct n as [k' r|k' q|k' i' items|k' i' r|k' i' t f|k' i' c] eqn:N; rewrite <- N in *.
        { rewrite N in X. apply node_inv in X as (rk' & _ & X). rewrite N. injection X as X. rewrite X. clear X. cbn [type_of_node]. look. split.
          - intro H. injection H as <-. exists [(title (e_name i), r_course r)]. split; [constructor|reflexivity].
          - intros (m & M & ->). inversion M as [| | | | | | | |? ? ? ? C D]; subst; [reflexivity|discriminate]. }
        all: rewrite N at 1; cbn [type_of_node]; look;
          match goal with |- (let! _ := ?c in _) = _ <-> _ => change c with (cells (JObj d)) end;
          (split; [intro H; apply bind_iff in H as (l' & L & H); injection H as <-; apply (IH n eq_refl (JObj d) X) in L as (m & M & ->);
             exists (map (fun kv => (title (e_name i) ++ line_end ++ "↳ " ++ fst kv, snd kv)) m); split; [apply ex_req; [rewrite N; reflexivity|exact M]|unfold as_cells; rewrite !map_map; reflexivity]
           |intros (m & M & ->); inversion M as [| | | | | | |? ? ? ? A|? ? ? l' C D A]; [congruence|]; subst k0 i0 x m;
             rewrite (proj2 (IH n eq_refl (JObj d) X (as_cells l')) (ex_intro _ l' (conj D eq_refl))); cbn [bind]; unfold as_cells; rewrite !map_map; reflexivity]).
      + subst x. split; [discriminate|]. intros (m & M & _). inversion M.
    - destruct V as (a & b & _ & _ & ->). unfold based. cbn [Export.cells type_of_node]. look. split; [discriminate|]. intros (m & M & _). inversion M.
    - subst j. unfold based. cbn [Export.cells type_of_node]. look. unfold proficiency_cells. look. destruct c as [[k' r]|].
      + unfold course_json. look. split; [intro H; injection H as <-; eexists; split; [apply ex_prof_course|reflexivity]|]. intros (m & M & ->). inversion M; subst. reflexivity.
      + look. rewrite passes_ok. split; [intro H; injection H as <-; eexists; split; [apply ex_prof|reflexivity]|]. intros (m & M & ->). inversion M; subst. reflexivity.
  Qed.
End Proofs.

(** ** C139 *)
Lemma pair_l {A B} {P : A -> B -> Prop} {l m} : Forall2 P l m -> forall {x}, In x l -> exists y, In y m /\ P x y.
Proof. induction 1 as [|a b l m H F IH]; intros x []; [subst; exists b; split; [left; reflexivity|exact H]|]. destruct (IH x H0) as (y & Y & R). exists y. split; [right; exact Y|exact R]. Qed.
Lemma pair_r {A B} {P : A -> B -> Prop} {l m} : Forall2 P l m -> forall {y}, In y m -> exists x, In x l /\ P x y.
Proof. induction 1 as [|a b l m H F IH]; intros y []; [subst; exists a; split; [left; reflexivity|exact H]|]. destruct (IH y H0) as (x & X & R). exists x. split; [right; exact X|exact R]. Qed.
Lemma pair_nth {A B} {P : A -> B -> Prop} {l m} : Forall2 P l m -> forall {i x}, nth_error l i = Some x -> exists y, nth_error m i = Some y /\ P x y.
Proof. induction 1 as [|a b l m H F IH]; intros [|i] x E; try discriminate; cbn in *; [injection E as <-; exists b; auto|]. apply IH. exact E. Qed.
Lemma pair_len {A B} {P : A -> B -> Prop} {l m} : Forall2 P l m -> List.length l = List.length m.
Proof. induction 1; cbn; congruence. Qed.
(** the five columns every row begins with *)
Definition row_head (stnum : string) (v : area_result) : list cell :=
  [("Student", JStr stnum); ("GPA", JStr (str_of_dec (area_gpa v))); ("Status", JStr (status_value (area_status v)));
   ("Classification", JStr "???"); ("Ant. Grad. Date", JStr "May 2000")].
(** C139. The row of a stored result is exactly what the result exports. *)
Theorem exported_row_exact :
  forall repr dtext title transcript stnum v j, area_json v = Ok j ->
  forall l, process repr dtext title transcript stnum j = Ok l <-> exists m, exports title (v_result v) m /\ l = (row_head stnum v +++ as_cells m)%list.
Proof.
  intros repr dtext title transcript stnum v j J l. unfold area_json in J. apply bind_iff in J as (rk & RK & J). apply bind_iff in J as (x & X & J). injection J as <-.
  unfold process. cbn [jobj bind].
  match goal with |- context [cells _ _ _ _ (JObj ?d)] => change (jkey d "gpa") with (Ok (jdec (area_gpa v))); change (jkey d "status") with (Ok (JStr (status_value (area_status v))));
    change (cells repr dtext title transcript (JObj d)) with (cells repr dtext title transcript x) end. cbn [bind].
  assert (C := cells_exact repr dtext title transcript (v_result v) x X). split.
  - intro H. apply bind_iff in H as (c & E & H). injection H as <-. apply C in E as (m & M & ->). exists m. split; [exact M|reflexivity].
  - intros (m & M & ->). rewrite (proj2 (C (as_cells m)) (ex_intro _ m (conj M eq_refl))). reflexivity.
Qed.
Print Assumptions exported_row_exact.

(** the parts that are looked at: of a count of one only the first item, of a requirement over a
    course nothing but the name of the course *)
Inductive looked_into : node -> node -> Prop :=
| li_self n : looked_into n n
| li_one k i x t y : n_count i = 1%Z -> looked_into x y -> looked_into (NCount k i (x :: t)) y
| li_all k i items x y : n_count i <> 1%Z -> In x items -> looked_into x y -> looked_into (NCount k i items) y
| li_req k i x y : is_course x = false -> looked_into x y -> looked_into (NReq k i (Some x)) y.
(** what stands in the way of an export: a conditional, a query with an assertion or with a
    negated clause, a requirement without a result *)
Definition no_obstacle (n : node) : Prop :=
  match n with
  | NCond _ _ _ _ | NReq _ _ None => False
  | NQuery _ q => q_asserts q = [] /\ where_printable (q_where q) = true
  | _ => True
  end.
Theorem exportable_exactly_when :
  forall title n, (exists m, exports title n m) <-> forall x, looked_into n x -> no_obstacle x.
Proof.
  intro title. induction n as [k r|k q|k i items IH|k i r IH|k i t f IHt IHf|k i c] using node_induction.
  - split; [intros _ x X; inversion X; exact Logic.I|]. intros _. destruct (passes (c_status k r)) eqn:P; eexists; constructor; exact P.
  - split.
    + intros (m & M) x X. inversion X; subst. inversion M; subst. split; assumption.
    + intro H. destruct (H _ (li_self _)) as (A & W). eexists. constructor; assumption.
  - destruct (Z.eq_dec (n_count i) 1) as [E|E].
    + destruct items as [|x t].
      * split; [intros _ x X; inversion X; subst; try exact Logic.I; contradiction|]. intros _. exists (List.concat []). apply ex_all; [right; reflexivity|constructor].
      * assert (B := IH x (or_introl eq_refl)). split.
        -- intros (m & M) y Y. inversion M as [| | | |? ? ? ? ? C D|? ? ? ? C D| | |]; subst; [|destruct C as [C|C]; [contradiction|discriminate]].
           inversion Y; subst; [exact Logic.I| |contradiction]. apply (proj1 B); eauto.
        -- intro H. destruct (proj2 B) as (m & M); [intros y Y; apply H; apply li_one; assumption|]. exists m. apply ex_one; assumption.
    + split.
      * intros (m & M) y Y. inversion M as [| | | |? ? ? ? ? C D|? ? ? ls C D| | |]; subst; [contradiction|]. inversion Y as [|? ? ? ? ? C1|? ? ? ? ? ? I1 L1|]; subst; [exact Logic.I|contradiction|].
        destruct (pair_l D I1) as (b & _ & B). apply (proj1 (IH _ I1)); eauto.
      * intro H. assert (G : exists ls, Forall2 (exports title) items ls).
        { assert (K : forall x, In x items -> exists m, exports title x m) by (intros x X; apply (IH x X); intros y Y; apply H; apply li_all with (x := x); assumption).
          clear - K. induction items as [|x items IH]; [exists []; constructor|]. destruct (K x (or_introl eq_refl)) as (m & M). destruct IH as (ls & L); [intros; apply K; right; assumption|]. exists (m :: ls). constructor; assumption. }
        destruct G as (ls & G). exists (List.concat ls). apply ex_all; [left; exact E|exact G].
  - destruct r as [x|]; [|split; [intros (m & M); inversion M|intro H; destruct (H _ (li_self _))]]. assert (B := IH x eq_refl). destruct (is_course x) eqn:C.
    + destruct x; try discriminate. split; [intros _ y Y; inversion Y; subst; [exact Logic.I|discriminate]|]. intros _. eexists. constructor.
    + split.
      * intros (m & M) y Y. inversion Y; subst; [exact Logic.I|]. inversion M; subst; [discriminate|]. apply (proj1 B); eauto.
      * intro H. destruct (proj2 B) as (m & M); [intros y Y; apply H; apply li_req; assumption|]. eexists. apply ex_req; eassumption.
  - split; [intros (m & M); inversion M|]. intro H. destruct (H _ (li_self _)).
  - split; [intros _ x X; inversion X; exact Logic.I|]. intros _. destruct c as [[k' r]|]; eexists; constructor.
Qed.
Print Assumptions exportable_exactly_when.

(** the export of an audit, as in dp/bin/csvify.py *)
Definition exported (stnum : string) (u : study) (cs : list course) : res (list cell) :=
  let! v := audited u cs in
  let! j := area_json v in
  let! l := process (quoted "'") fraction (fun s => s) cs stnum j in
  Ok (dict_of l).
Example exported_row_example :
  exported "1" demo_area [mk_simple "100" "A" "1"] =
  Ok [("Student", JStr "1"); ("GPA", JStr "3.00"); ("Status", JStr "needs-more-items"); ("Classification", JStr "???");
      ("Ant. Grad. Date", JStr "May 2000"); ("%y", JStr "B 1"); ("A 1", JStr "A 1")].
Proof. vm_compute. reflexivity. Qed.
(** Every stored result can be exported. Refuted by a query that asks for one course. *)
Definition every_stored_result_is_exported : Prop :=
  forall repr dtext title stnum u cs v j, audited u cs = Ok v -> area_json v = Ok j -> exists l, process repr dtext title cs stnum j = Ok l.
Definition one_course : assertion := mkAs ["$"; ".count"; ".query"; ".assertions"] Empty DtCourse None KCourses OGte (mkDec 1 0) None [] false None None false false false None None None None.
Definition asking_query : node := NQuery KRule (mkQuery ["$"; ".count"; ".query"] false QCourses DtCourse [APlain one_course] [] None false true true false [] [] [] [] [] []).
Theorem every_stored_result_is_exported_refuted : ~ every_stored_result_is_exported.
Proof.
  intro H. set (u := one_rule "concentration" (all_of [asking_query]) []).
  destruct (audited u [mk_simple "100" "A" "1"]) as [v|] eqn:A; [|vm_compute in A; discriminate]. destruct (area_json v) as [j|] eqn:J; [|vm_compute in A; injection A as <-; vm_compute in J; discriminate].
  destruct (H (fun s => s) fraction (fun s => s) "1" u _ v j A J) as (l & L). vm_compute in A. injection A as <-. vm_compute in J. injection J as <-. vm_compute in L. discriminate.
Qed.

(** ** C140 *)
(** within [n] no requirement directly over a course and no proficiency *)
Definition courses_stand_alone (n : node) : Prop :=
  (forall k i x, part_of n (NReq k i (Some x)) -> is_course x = false) /\ (forall k i c, ~ part_of n (NProf k i c)).
(** C140. A course that stands in a row was passed, if it is neither that of a proficiency nor
    directly that of a requirement. *)
Theorem exported_course_was_passed_when :
  forall title n, courses_stand_alone n -> forall m, exports title n m ->
  forall h c, In (h, c) m -> exists k r, part_of n (NCourse k r) /\ passes (c_status k r) = true /\ r_course r = c.
Proof.
  intro title. induction n as [k r|k q|k i items IH|k i r IH|k i t f IHt IHf|k i c0] using node_induction; intros (S1 & S2) m M h c I.
  - inversion M; subst; [|destruct I]. destruct I as [I|[]]. injection I as _ <-. exists k, r. split; [apply pt_self|]. auto.
  - inversion M; subst. destruct I.
  - assert (SA : forall x, In x items -> courses_stand_alone x).
    { intros x X. split; intros; [eapply S1|intro P; eapply S2]; eapply pt_count; eassumption. }
    assert (K : exists x mx, In x items /\ exports title x mx /\ In (h, c) mx).
    { inversion M as [| | | |? ? x t ? C D|? ? ? ls C D| | |]; subst; [exists x, m; split; [left; reflexivity|auto]|]. apply in_concat in I as (l & L & I).
      destruct (pair_r D L) as (x & X & E). exists x, l. auto. }
    destruct K as (x & mx & X & E & I'). destruct (IH x X (SA x X) mx E h c I') as (k0 & r0 & P & R). exists k0, r0. split; [eapply pt_count; eassumption|exact R].
  - destruct r as [x|]; [|inversion M]. assert (C := S1 k i x (pt_self _)). inversion M as [| | | | | | |? ? ? ? A|? ? ? l A B]; subst; [discriminate|].
    apply in_map_iff in I as ((h' & c') & E & I). injection E as _ <-.
    destruct (IH x eq_refl) with (m := l) (h := h') (c := c') as (k0 & r0 & P & R); auto.
    { split; intros; [eapply S1|intro P; eapply S2]; apply pt_req; eassumption. }
    exists k0, r0. split; [apply pt_req; exact P|exact R].
  - inversion M.
  - destruct (S2 k i c0). apply pt_self.
Qed.
Print Assumptions exported_course_was_passed_when.
(** A course that stands in a row was passed. Refuted: a requirement shows its course, taken or not,
    and the table colours it as done. *)
Definition exported_course_was_passed : Prop :=
  forall title u cs v m h c, audited u cs = Ok v -> exports title (v_result v) m -> In (h, Some c) m ->
  exists k r, part_of (v_result v) (NCourse k r) /\ passes (c_status k r) = true /\ r_course r = Some c.
Theorem exported_course_was_passed_refuted : ~ exported_course_was_passed.
Proof.
  intro H. destruct (audited demo_area []) as [v|] eqn:A; [|vm_compute in A; discriminate].
  assert (E : exists m, exports (fun s => s) (v_result v) m /\ In ("%y", Some "B 1") m).
  { vm_compute in A. injection A as <-. cbn [v_result]. eexists. split; [apply ex_all; [left; discriminate|]; repeat (constructor; [constructor; reflexivity|]); constructor|]. cbn. tauto. }
  destruct E as (m & M & I). destruct (H _ _ _ v m "%y" "B 1" A M I) as (k & r & P & Q & R). vm_compute in A. injection A as <-. cbn [v_result] in P.
  apply (EstimateProps.all_parts_in (fun x => match x with NCourse k r => negb (passes (c_status k r) && match r_course r with Some c => c =? "B 1" | None => false end) | _ => true end)) in P; [|vm_compute; reflexivity].
  cbv beta iota in P. rewrite Q, R in P. discriminate.
Qed.
Theorem plain_text_is_coloured_done : forall s, has_colon s = false -> s <> "" -> compute_style s = (StyleDone, s).
Proof.
  intros s C N. unfold compute_style, starts.
  assert (P : forall p s, String.prefix p s = true -> has_colon p = true -> has_colon s = true).
  { intro p. induction p as [|a p IH]; intros [|b t] X Y; cbn in *; try discriminate. destruct (ascii_dec a b) as [<-|]; [|discriminate]. destruct (Ascii.eqb a ":"); [reflexivity|]. cbn in *. eapply IH; eassumption. }
  repeat match goal with |- context [if String.prefix ?p s then _ else _] => destruct (String.prefix p s) eqn:?; [exfalso; rewrite (P p s) in C by (try assumption; reflexivity); discriminate|] end.
  rewrite C. apply String.eqb_neq in N. rewrite N. reflexivity.
Qed.

(** ** C141 *)
Definition keys_of (row : list cell) : list string := map fst row.
(** C141. A table of comma-separated values has every value below its own heading, and an empty
    text where a row has none; it is refused exactly if a row has a heading that the first lacks. *)
Theorem csv_table_exact :
  forall first rows,
  let all := first :: rows in
  (forall header body, csv_table all = Ok (header, body) ->
    header = keys_of first /\ List.length body = List.length all /\
    forall i j row h, nth_error all i = Some row -> nth_error header j = Some h ->
      exists line, nth_error body i = Some line /\ nth_error line j = Some (get (jget row h) (JStr ""))) /\
  (csv_table all = Err ValueErr <-> exists row h, In row rows /\ In h (keys_of row) /\ ~ In h (keys_of first)).
Proof.
  intros first rows all. unfold csv_table, all, keys_of. cbv zeta.
  set (f := fun row : list cell => if forallb (fun kv => existsb (String.eqb (fst kv)) (map fst first)) row then Ok (map (fun k => get (jget row k) (JStr "")) (map fst first)) else Err ValueErr).
  assert (G : forall row : list cell, forallb (fun kv => existsb (String.eqb (fst kv)) (map fst first)) row = true <-> forall h, In h (map fst row) -> In h (map fst first)).
  { intro row. rewrite forallb_forall. split.
    - intros H h X. apply in_map_iff in X as (kv & <- & X). specialize (H kv X). apply existsb_exists in H as (y & Y & E). apply String.eqb_eq in E. congruence.
    - intros H kv X. apply existsb_exists. exists (fst kv). split; [apply H; apply in_map; exact X|apply String.eqb_refl]. }
  split.
  - intros header body H. apply bind_iff in H as (b & B & H). injection H as <- <-. apply mapr_iff in B. split; [reflexivity|]. split; [symmetry; exact (pair_len B)|].
    intros i j row h I J. destruct (pair_nth B I) as (line & L & E). exists line. split; [exact L|]. unfold f in E. match type of E with (if ?b then _ else _) = _ => destruct b end; [|discriminate]. injection E as <-.
    rewrite nth_error_map, J. reflexivity.
  - assert (E : forall l, (let! body := mapr f l in Ok (map fst first, body)) = Err ValueErr <-> exists row, In row l /\ f row = Err ValueErr).
    { assert (C : forall row e, f row = Err e -> e = ValueErr) by (intros row e; unfold f; match goal with |- (if ?b then _ else _) = _ -> _ => destruct b end; [discriminate|congruence]).
      induction l as [|r l IH]; [split; [discriminate|intros (? & [] & _)]|]. cbn [mapr]. destruct (f r) as [x|e] eqn:F; cbn [bind].
      - destruct (mapr f l) as [y|e]; cbn [bind] in *; split; try discriminate.
        + intros (row & [<-|R] & X); [congruence|]. destruct IH as (_ & IH). discriminate IH. eauto.
        + intro H. destruct (proj1 IH H) as (row & R & X). exists row. split; [right; exact R|exact X].
        + intros (row & [<-|R] & X); [congruence|]. apply IH. eauto.
      - split; [intros _; exists r; split; [left; reflexivity|rewrite (C r e F) in F; exact F]|]. intros _. rewrite (C r e F). reflexivity. }
    apply (iff_trans (E (first :: rows))). split.
    + intros (row & R & X). unfold f in X. match type of X with (if ?b then _ else _) = _ => destruct b eqn:B end; [discriminate|].
      assert (K : exists kv, In kv row /\ existsb (String.eqb (fst kv)) (map fst first) = false).
      { clear - B. induction row as [|kv row IH]; [discriminate|]. cbn [forallb] in B. destruct (existsb _ _) eqn:Z; [destruct (IH B) as (y & Y & W); exists y; split; [right; exact Y|exact W]|exists kv; split; [left; reflexivity|exact Z]]. }
      destruct K as (kv & I & Z). assert (N : ~ In (fst kv) (map fst first)).
      { intro M. assert (T : existsb (String.eqb (fst kv)) (map fst first) = true) by (apply existsb_exists; exists (fst kv); split; [exact M|apply String.eqb_refl]). congruence. }
      destruct R as [<-|R]; [destruct N; apply in_map; exact I|]. exists row, (fst kv). split; [exact R|]. split; [apply in_map; exact I|exact N].
    + intros (row & h & R & I & N). exists row. split; [right; exact R|]. unfold f. match goal with |- (if ?b then _ else _) = _ => destruct b eqn:B end; [|reflexivity]. destruct N. apply (proj1 (G row)); assumption.
Qed.
Print Assumptions csv_table_exact.
Lemma exists_last' {A} (l : list A) : l = [] \/ exists m x, l = (m +++ [x])%list.
Proof. destruct l as [|a l]; [left; reflexivity|]. right. destruct (exists_last (l := a :: l)) as (m & x & E); [discriminate|]. exists m, x. exact E. Qed.
(** rows that [dict] gives have no heading twice, and the last value given for it *)
Lemma put_keys k v d : map fst (put k v d) = if existsb (String.eqb k) (map fst d) then map fst d else (map fst d +++ [k])%list.
Proof.
  induction d as [|(x, w) d IH]; [reflexivity|]. cbn [put map fst existsb]. rewrite (String.eqb_sym k x). destruct (x =? k); [reflexivity|]. cbn [map fst orb]. rewrite IH. destruct (existsb _ _); reflexivity.
Qed.
Lemma put_nodup k v d : NoDup (map fst d) -> NoDup (map fst (put k v d)).
Proof.
  intro N. rewrite put_keys. destruct (existsb (String.eqb k) (map fst d)) eqn:E; [exact N|].
  assert (M : ~ In k (map fst d)).
  { intro X. assert (T : existsb (String.eqb k) (map fst d) = true) by (apply existsb_exists; exists k; split; [exact X|apply String.eqb_refl]). congruence. }
  apply (NoDup_Add (a := k) (l := map fst d)); [|split; assumption]. rewrite <- (app_nil_r (map fst d)) at 1. apply Add_app.
Qed.
Lemma jget_cons x w d h : jget ((x, w) :: d) h = if x =? h then Some w else jget d h.
Proof. unfold jget. cbn [jfind]. reflexivity. Qed.
Lemma put_get k v d h : jget (put k v d) h = if k =? h then Some v else jget d h.
Proof.
  induction d as [|(x, w) d IH]; [cbn [put]; apply jget_cons|]. cbn [put]. destruct (x =? k) eqn:E.
  - apply String.eqb_eq in E. subst x. rewrite !jget_cons. destruct (k =? h); reflexivity.
  - rewrite !jget_cons, IH. destruct (x =? h) eqn:F; [|reflexivity]. apply String.eqb_eq in F. subst x. rewrite String.eqb_sym in E. rewrite E. reflexivity.
Qed.
(** the last value that a list of pairs has for a heading *)
Inductive last_for (h : string) (v : json) : list cell -> Prop :=
  last_for_intro before after : ~ In h (keys_of after) -> last_for h v (before +++ (h, v) :: after)%list.
Theorem row_has_the_last_value :
  forall l, NoDup (keys_of (dict_of l)) /\ forall h v, jget (dict_of l) h = Some v <-> last_for h v l.
Proof.
  unfold dict_of, keys_of. intro l. rewrite <- (rev_involutive l). induction (rev l) as [|(k, w) r (IN & IG)]; [split; [constructor|]|].
  - intros h v. split; [discriminate|]. intro H. inversion H as [b a A E]. destruct b; discriminate.
  - cbn [rev]. rewrite fold_left_app. cbn [fold_left fst snd]. split; [apply put_nodup; exact IN|].
    intros h v. rewrite put_get. destruct (k =? h) eqn:E.
    + apply String.eqb_eq in E. subst k. split.
      * intro X. injection X as <-. constructor. intros [].
      * intro X. inversion X as [b a A F]. destruct (exists_last' a) as [->|(a' & z & ->)].
        -- apply app_inj_tail in F as (_ & F). injection F as <-. reflexivity.
        -- rewrite app_comm_cons, app_assoc in F. apply app_inj_tail in F as (_ & ->). destruct A. unfold keys_of. rewrite map_app. apply in_or_app. right. left. reflexivity.
    + rewrite IG. apply String.eqb_neq in E. split; intro X; inversion X as [b a A F].
      * rewrite <- app_assoc. cbn [app]. constructor. unfold keys_of. rewrite map_app. intro Y. apply in_app_or in Y as [Y|[Y|[]]]; [exact (A Y)|exact (E Y)].
      * destruct (exists_last' a) as [->|(a' & z & ->)].
        -- apply app_inj_tail in F as (_ & F). congruence.
        -- rewrite app_comm_cons, app_assoc in F. apply app_inj_tail in F as (<- & _). constructor. intro Y. apply A. unfold keys_of. rewrite map_app. apply in_or_app. left. exact Y.
Qed.
Print Assumptions row_has_the_last_value.

(** how a value is shown in a column *)
Definition shown (col : nat) (v : json) (c : style * json) : Prop :=
  ((col < 5)%nat /\ c = (StyleDefault, v)) \/
  ((5 <= col)%nat /\ exists s, v = JStr s /\ c = (fst (compute_style s), JStr (snd (compute_style s)))).
Lemma excel_cell_exact j v c : excel_cell (S j) v = Ok c <-> shown j v c.
Proof.
  unfold excel_cell, shown. destruct (Nat.leb (S j) 5) eqn:L.
  - apply Nat.leb_le in L. split; [intro H; injection H as <-; left; split; [lia|reflexivity]|]. intros [(_ & ->)|(H & _)]; [reflexivity|lia].
  - apply Nat.leb_gt in L. split.
    + destruct v; try discriminate. destruct (compute_style s) as (st, t) eqn:E. intro H. injection H as <-. right. split; [lia|]. exists s. rewrite E. split; reflexivity.
    + intros [(H & _)|(_ & s & -> & ->)]; [lia|]. destruct (compute_style s); reflexivity.
Qed.
Lemma excel_row_exact vs : forall j line, excel_row (S j) vs = Ok line <->
  List.length line = List.length vs /\ forall i v c, nth_error vs i = Some v -> nth_error line i = Some c -> shown (j + i)%nat v c.
Proof.
  induction vs as [|v vs IH]; intros j line; cbn [excel_row].
  - split; [intro H; injection H as <-; split; [reflexivity|intros [|i] ? ? ?; discriminate]|]. intros (L & _). destruct line; [reflexivity|discriminate].
  - split.
    + intro H. apply bind_iff in H as (c & C & H). apply bind_iff in H as (r & R & H). injection H as <-. apply excel_cell_exact in C. apply IH in R as (L & R). split; [cbn; congruence|].
      intros [|i] w d; cbn [nth_error]; intros A B; [injection A as <-; injection B as <-; rewrite Nat.add_0_r; exact C|]. rewrite <- Nat.add_succ_comm. exact (R i w d A B).
    + intros (L & R). destruct line as [|c line]; [discriminate|]. assert (C := R 0 v c eq_refl eq_refl). rewrite Nat.add_0_r in C. apply excel_cell_exact in C. rewrite C. cbn [bind].
      rewrite (proj2 (IH (S j) line)); [reflexivity|]. split; [cbn in L; congruence|]. intros i w d A B. rewrite Nat.add_succ_comm. exact (R (S i) w d A B).
Qed.
(** The table of a spreadsheet: the headings of the first row, and of every row its own values in
    order. *)
Theorem excel_table_exact :
  forall first rows header body,
  let all := first :: rows in
  excel_table all = Ok (header, body) <->
  header = keys_of first /\ List.length body = List.length all /\
  forall i row line, nth_error all i = Some row -> nth_error body i = Some line ->
    List.length line = List.length row /\ forall j h v c, nth_error row j = Some (h, v) -> nth_error line j = Some c -> shown j v c.
Proof.
  intros first rows header body all. unfold excel_table, all. set (f := fun row : list cell => excel_row 1 (map snd row)).
  assert (F : forall row line, f row = Ok line <-> List.length line = List.length row /\ forall j h v c, nth_error row j = Some (h, v) -> nth_error line j = Some c -> shown j v c).
  { intros row line. unfold f. rewrite excel_row_exact, map_length. split; intros (L & R); (split; [exact L|]).
    - intros j h v c A B. apply (R j v c); [rewrite nth_error_map; exact (f_equal (option_map snd) A)|exact B].
    - intros j v c A B. rewrite nth_error_map in A. match type of A with option_map _ ?x = _ => destruct x as [(h, w)|] eqn:E end; [|discriminate]. injection A as <-. exact (R j h w c E B). }
  assert (B : forall l b, mapr f l = Ok b <-> List.length b = List.length l /\ forall i row line, nth_error l i = Some row -> nth_error b i = Some line -> f row = Ok line).
  { clear. intros l b. rewrite mapr_iff. split.
    - intro F2. split; [symmetry; exact (pair_len F2)|]. intros i row line A B. destruct (pair_nth F2 A) as (y & Y & E). congruence.
    - revert b. induction l as [|x l IH]; intros [|y b] (L & H); try discriminate; constructor; [exact (H 0 x y eq_refl eq_refl)|]. apply IH. split; [cbn in L; congruence|]. intros i. exact (H (S i)). }
  split.
  - intro H. apply bind_iff in H as (b & M & H). injection H as <- <-. apply B in M as (L & M). split; [reflexivity|]. split; [exact L|]. intros i row line A C. apply F. exact (M i row line A C).
  - intros (-> & L & H). rewrite (proj2 (B _ body)); [reflexivity|]. split; [exact L|]. intros i row line A C. apply F. exact (H i row line A C).
Qed.
Print Assumptions excel_table_exact.
(** every value of a row stands below its own heading *)
Definition below_own_headings (rows : list (list cell)) (header : list string) (body : list (list (style * json))) : Prop :=
  forall i row line j h, nth_error rows i = Some row -> nth_error body i = Some line -> nth_error header j = Some h ->
    match jget row h with
    | Some v => exists c, nth_error line j = Some c /\ shown j v c
    | None => nth_error line j = None \/ exists c, nth_error line j = Some (c, JStr "")
    end.
Lemma get_own row j h v : NoDup (keys_of row) -> nth_error row j = Some (h, v) -> jget row h = Some v.
Proof.
  revert j. induction row as [|(x, w) row IH]; intros [|j] N E; try discriminate.
  - injection E as -> ->. rewrite jget_cons, String.eqb_refl. reflexivity.
  - cbn [keys_of map fst] in N. inversion N as [|? ? A B]; subst. rewrite jget_cons. destruct (x =? h) eqn:X; [|apply (IH j); assumption].
    apply String.eqb_eq in X. subst x. destruct A. cbn [nth_error] in E. apply nth_error_In in E. apply (in_map fst) in E. exact E.
Qed.
Theorem excel_values_stand_below_their_headings_when :
  forall first rows header body, excel_table (first :: rows) = Ok (header, body) ->
  NoDup (keys_of first) -> (forall row, In row rows -> keys_of row = keys_of first) ->
  below_own_headings (first :: rows) header body.
Proof.
  intros first rows header body H N K i row line j h A B C. apply excel_table_exact in H as (-> & _ & H). destruct (H i row line A B) as (L & S).
  assert (R : keys_of row = keys_of first) by (destruct i; [injection A as ->; reflexivity|apply K; cbn [nth_error] in A; apply nth_error_In in A; exact A]).
  rewrite <- R in C, N. unfold keys_of in C. rewrite nth_error_map in C. match type of C with option_map _ ?x = _ => destruct x as [(h', v)|] eqn:E end; [|discriminate]. injection C as <-.
  rewrite (get_own row j h' v N E). destruct (nth_error line j) as [c|] eqn:X; [exists c; split; [reflexivity|exact (S j h' v c E X)]|].
  apply nth_error_None in X. assert (j < List.length row)%nat by (apply nth_error_Some; intro Z; apply (eq_trans (eq_sym E)) in Z; discriminate). lia.
Qed.
Print Assumptions excel_values_stand_below_their_headings_when.
(** Every value stands below its own heading. Refuted with the rows of two students: a course that
    the second one has not passed has no cell, and the next value takes its place. *)
Definition two_courses : study := one_rule "concentration" (all_of [named "A 1"; named "B 1"]) [].
Definition excel_values_stand_below_their_headings : Prop :=
  forall u cs cs' r r' header body, exported "1" u cs = Ok r -> exported "2" u cs' = Ok r' -> excel_table [r; r'] = Ok (header, body) ->
  below_own_headings [r; r'] header body.
Theorem excel_values_stand_below_their_headings_refuted : ~ excel_values_stand_below_their_headings.
Proof.
  intro H. destruct (exported "1" two_courses [mk_simple "100" "A" "1"; mk_simple "101" "B" "1"]) as [r|] eqn:R; [|vm_compute in R; discriminate].
  destruct (exported "2" two_courses [mk_simple "101" "B" "1"]) as [r'|] eqn:R'; [|vm_compute in R'; discriminate].
  destruct (excel_table [r; r']) as [(header, body)|] eqn:T; [|vm_compute in R, R'; injection R as <-; injection R' as <-; vm_compute in T; discriminate].
  specialize (H _ _ _ _ _ _ _ R R' T 1). vm_compute in R, R'. injection R as <-. injection R' as <-. vm_compute in T. injection T as <- <-.
  specialize (H _ _ 5 _ eq_refl eq_refl eq_refl). vm_compute in H. destruct H as [H|(c & H)]; discriminate.
Qed.
(** and the table of comma-separated values is refused when the first student lacks a course that
    the second has *)
Theorem csv_tables_are_refused :
  exists u cs cs' r r', exported "1" u cs = Ok r /\ exported "2" u cs' = Ok r' /\ csv_table [r; r'] = Err ValueErr /\ exists t, csv_table [r'; r] = Ok t.
Proof.
  exists two_courses, [mk_simple "101" "B" "1"], [mk_simple "100" "A" "1"; mk_simple "101" "B" "1"].
  eexists. eexists. split; [vm_compute; reflexivity|]. split; [vm_compute; reflexivity|]. split; [vm_compute; reflexivity|]. eexists. vm_compute. reflexivity.
Qed.
(** The colour of a text that begins with a status and a colon. *)
Definition colour_of_status (s : status) : style :=
  match s with
  | Done => StyleDone
  | PendingCurrent => StylePending
  | NeedsMoreItems => StylePartial
  | FailedInvariant => StyleFailed
  | _ => StyleDefault
  end.
Theorem text_is_coloured_by_its_status :
  forall s rest, fst (compute_style (status_value s ++ ":" ++ rest)) = colour_of_status s /\
  (s <> PendingCurrent -> s <> NeedsMoreItems -> snd (compute_style (status_value s ++ ":" ++ rest)) = status_value s ++ ":" ++ rest).
Proof.
  intros [] [|c rest]; (split; [cbv -[replace]; reflexivity|intros; try contradiction; cbv -[replace]; reflexivity]).
Qed.
Example excel_table_example :
  exists r r', exported "1" demo_area [] = Ok r /\ exported "2" demo_area [] = Ok r' /\
  excel_table [r; r'] = Ok (["Student"; "GPA"; "Status"; "Classification"; "Ant. Grad. Date"; "%y"],
    [[(StyleDefault, JStr "1"); (StyleDefault, JStr "0.00"); (StyleDefault, JStr "empty"); (StyleDefault, JStr "???"); (StyleDefault, JStr "May 2000"); (StyleDone, JStr "B 1")];
     [(StyleDefault, JStr "2"); (StyleDefault, JStr "0.00"); (StyleDefault, JStr "empty"); (StyleDefault, JStr "???"); (StyleDefault, JStr "May 2000"); (StyleDone, JStr "B 1")]]).
Proof. eexists. eexists. split; [vm_compute; reflexivity|]. split; [vm_compute; reflexivity|]. vm_compute. reflexivity. Qed.
Example style_example :
  compute_style "pending-current: 3 of 4" = (StylePending, "in-progress: 3 of 4") /\ compute_style "needs-more-items: 3 of 4" = (StylePartial, "partial: 3 of 4") /\
  compute_style "waived: 3" = (StyleDefault, "waived: 3") /\ compute_style "" = (StyleDefault, "").
Proof. vm_compute. auto. Qed.
