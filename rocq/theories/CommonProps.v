(** Property theorems about the rules common to all majors (C97, C98). *)
From Coq Require Import List ZArith QArith Bool String Lia Lqa.
From Verif Require Import Prelude Dec Status Course Claims Exceptions Op Context CondExpr Predicate Limit Apply Assertion Query CourseRule Tree Solve Transcript Driver Area Loader AreaLoad.
From Verif Require Import ListFacts OpProofs PredicateSpec PredicateProofs TranscriptSpec ExceptionsProofs AssertionSpec AssertionProofs AssertionProps QuerySpec QueryProofs QueryProps TreeProofs TreeStatusProps TreeAuditSpec LimitProps SolveProofs SolveSpec SolveProps AreaProofs AreaSpec AreaProps CommonSpec CommonProofs.
Import ListNotations.
Local Open Scope string_scope.
Local Open Scope list_scope.
Local Open Scope Q_scope.

Lemma quiet_of cx es : cx_exc cx = group_exceptions es -> no_common_exceptions es -> all_quiet cx.
Proof. intros E N p [s ->]. eapply common_quiet; eauto. Qed.
Lemma prepared cx c tm degree dept areas code rules : prepare_common cx c tm degree dept areas code = Ok rules ->
  exists bm a b, (bm = true <-> degree = Some "B.M.") /\
  load_common cx c tm "Credits at a C or higher" (common_body (Some c_or_better_query) false) "[0]" = Ok a /\
  load_common cx c tm "Credits taken S/U" (common_body (Some (s_u_query bm)) false) "[1]" = Ok b /\
  ((bm = true /\ rules = [a; b]) \/
   (bm = false /\ exists o, load_common cx c tm "Credits outside the major" (outside_body dept code (map a_code (filter (fun p => negb (String.eqb (a_code p) code)) areas))) "[2]" = Ok o /\ rules = [a; b; o])).
Proof.
  unfold prepare_common. set (bm := match degree with Some s => String.eqb s "B.M." | None => false end). intro H. exists bm.
  destruct (load_common cx c tm "Credits at a C or higher" _ _) as [a|]; cbn [bind] in H; [|discriminate].
  destruct (load_common cx c tm "Credits taken S/U" _ _) as [b|]; cbn [bind] in H; [|discriminate].
  exists a, b. split; [|split; [reflexivity|split; [reflexivity|]]].
  - unfold bm. destruct degree as [s|]; [|split; discriminate]. rewrite String.eqb_eq. split; [now intros ->|now intros [=]].
  - destruct bm; [left; split; [reflexivity|congruence]|right; split; [reflexivity|]].
    destruct (load_common cx c tm "Credits outside the major" _ _) as [o|]; cbn [bind] in H; [|discriminate]. exists o. split; [reflexivity|congruence].
Qed.

Lemma those_once P l a b : those P l a -> those P l b -> a = b.
Proof.
  intros (f & F & ->) (g & G & ->). induction l as [|c l IH]; [reflexivity|]. cbn.
  assert (E : f c = g c). { assert (A := F c (or_introl eq_refl)). assert (B := G c (or_introl eq_refl)). destruct (f c), (g c); intuition congruence. }
  rewrite E, IH; [reflexivity| |]; intros x X; [apply F|apply G]; now right.
Qed.
Lemma how_many_once {A} (P : A -> Prop) v w : how_many P v -> how_many P w -> v == w.
Proof.
  intros (l1 & A1 & B1 & C1) (l2 & A2 & B2 & C2). rewrite C1, C2. assert (Z : List.length l1 = List.length l2); [|rewrite Z; reflexivity].
  apply Nat.le_antisymm; apply NoDup_incl_length; try assumption; intros x I; [apply B2, B1, I|apply B1, B2, I].
Qed.
(** ** Samples *)
Definition taken (clbid subject : string) (credits : dec) (g : grade_code) (o : grade_option) (now : bool) : course :=
  let c := mk_simple clbid subject "1" in
  {| c_clbid := c_clbid c; c_attributes := c_attributes c; c_credits := credits; c_crsid := c_crsid c; c_course_type := c_course_type c; c_gereqs := c_gereqs c;
     c_gpa_points := c_gpa_points c; c_grade_code := g; c_grade_option := o; c_grade_points := c_grade_points c; c_institution := c_institution c;
     c_in_gpa := c_in_gpa c; c_in_progress := now; c_ip_this_term := now; c_ip_in_future := false; c_incomplete := c_incomplete c; c_repeat := c_repeat c;
     c_stolaf := c_stolaf c; c_lab := c_lab c; c_covid := c_covid c; c_level := c_level c; c_name := c_name c; c_number := c_number c; c_schedid := c_schedid c;
     c_section := c_section c; c_sub_type := c_sub_type c; c_subject := c_subject c; c_su_grade := c_su_grade c; c_term := c_term c;
     c_transcript_code := c_transcript_code c; c_year := c_year c; c_yearterm := c_yearterm c; c_identity := c_identity c; c_chbi := c_chbi c |}.
Definition full := mkDec 100 (-2).
Definition sample_ctx (l : list course) : ctx := mkCtx l l l [] [] (group_exceptions []) [] [] [] no_proficiencies.
Definition sample_const : constants := mkConst 0 0 (inl "") "".
Definition ptr (code : string) : area_ptr := mkArea code AsDeclared AkMajor code "B.A." (Some "X") None None.
Definition rule_status (i : nat) (degree dept : option string) (code : string) (l : list course) : option status :=
  match prepare_common (sample_ctx []) sample_const [] degree dept [ptr "140"; ptr "135"] code with
  | Ok rules => match nth_error rules i with
                | Some n => match best_or_fail (fun l => l) (sample_ctx l) n with Ok r => Some (status_of r) | Err _ => None end
                | None => None end
  | Err _ => None
  end.

(** ** C97 *)

(** The first common rule passes exactly if the courses given to it that have a C or better,
    or are in progress, and carry credit add up to six credits; it is complete exactly if the
    finished ones do. *)
Theorem six_credits_rule :
  forall ord cx cx' c tm es degree dept areas code a rest r,
  prepare_common cx c tm degree dept areas code = Ok (a :: rest) ->
  cx_exc cx = group_exceptions es -> cx_exc cx' = group_exceptions es -> no_common_exceptions es ->
  best_or_fail ord cx' a = Ok r ->
  exists cs, those for_six_credits (cx_transcript cx') cs /\
    (passing (status_of r) <-> 6 <= credits_of cs) /\
    (complete (status_of r) <-> 6 <= credits_of (finished cs)) /\
    (~ passing (status_of r) -> status_of r = if Qltb 0 (credits_of cs) then NeedsMoreItems else Empty).
Proof.
  intros ord cx cx' c tm es degree dept areas code a rest r H E E' N B.
  apply prepared in H as (bm & a' & b & _ & LA & _ & R). assert (a' = a) by (destruct R as [[_ R]|[_ [o [_ R]]]]; congruence). subst a'.
  assert (Q := quiet_of _ _ E N). assert (Q' := quiet_of _ _ E' N).
  assert (X := shape_best ord cx' a p_six KSumCredits OGte 6 for_six_credits Q' (six_shape _ _ _ _ Q LA) decides_six (or_introl eq_refl)).
  rewrite B in X. destruct X as (cs & v & T & M & P & C & S); [split; discriminate|].
  cbn [measures meets] in *. exists cs. split; [exact T|].
  assert (F : credits_of (finished cs) <= credits_of cs).
  { destruct T as (f & D & ->). clear - D. assert (NN : forall c, In c (filter f (cx_transcript cx')) -> 0 < dval (c_credits c)).
    { intros c I. apply filter_In in I as [I B]. apply D in B; [|exact I]. apply B. }
    revert NN. generalize (filter f (cx_transcript cx')). intros l NN. induction l as [|c l IH]; [cbn; lra|]. assert (L := NN c (or_introl eq_refl)). assert (IH' := IH (fun x I => NN x (or_intror I))).
    unfold finished in *. cbn [filter]. destruct (c_in_progress c); cbn [negb]; unfold credits_of in *; cbn [map fold_right]; lra. }
  change (inject_Z 6) with 6 in *. split; [rewrite P; split; lra|]. split.
  - rewrite C. split; [intros (_ & v' & A & L); lra|]. intro L. split; [lra|]. exists (credits_of (finished cs)). split; [reflexivity|exact L].
  - intro NP. rewrite P in NP. destruct (S NP) as [(A & L & ->)|(A & ->)].
    + replace (Qltb 0 (credits_of cs)) with true; [reflexivity|]. symmetry. apply Qltb_iff. lra.
    + replace (Qltb 0 (credits_of cs)) with false; [reflexivity|]. symmetry. apply Qltb_no. lra.
Qed.
Print Assumptions six_credits_rule.
Example six_credits_example :
  let a k := taken k "A" full GA GoGrade false in
  let five := [a "1"; a "2"; a "3"; a "4"; a "5"; taken "6" "A" full GCminus GoGrade false] in
  rule_status 0 (Some "B.A.") (Some "A") "1" five = Some NeedsMoreItems /\
  rule_status 0 (Some "B.A.") (Some "A") "1" (five ++ [taken "7" "A" full G_IP GoGrade true]) = Some PendingCurrent /\
  rule_status 0 (Some "B.A.") (Some "A") "1" (five ++ [taken "7" "A" full GC GoGrade false]) = Some Done.
Proof. vm_compute. auto. Qed.

(** The second passes exactly if at most one course of exactly one credit is taken S/U, in
    music none of any size; it is then complete, even if courses are in progress. *)
Theorem su_rule :
  forall ord cx cx' c tm es degree dept areas code a b rest r,
  prepare_common cx c tm degree dept areas code = Ok (a :: b :: rest) ->
  cx_exc cx = group_exceptions es -> cx_exc cx' = group_exceptions es -> no_common_exceptions es ->
  best_or_fail ord cx' b = Ok r ->
  exists bm cs n, (bm = true <-> degree = Some "B.M.") /\
    those (taken_su bm) (cx_transcript cx') cs /\ how_many (fun c => In c cs) n /\
    (passing (status_of r) <-> n <= if bm then 0 else 1) /\
    (complete (status_of r) <-> passing (status_of r)) /\
    (~ passing (status_of r) -> status_of r = if bm then Empty else FailedInvariant).
Proof.
  intros ord cx cx' c tm es degree dept areas code a b rest r H E E' N B.
  apply prepared in H as (bm & a' & b' & BM & _ & LB & R). assert (b' = b) by (destruct R as [[_ R]|[_ [o [_ R]]]]; congruence). subst b'.
  assert (Q := quiet_of _ _ E N). assert (Q' := quiet_of _ _ E' N).
  assert (X := shape_best ord cx' b (p_su bm) KCourses (if bm then OEq else OLte) (if bm then 0 else 1) (taken_su bm) Q' (su_shape _ _ _ _ _ Q LB) (decides_taken_su bm) (or_intror eq_refl)).
  rewrite B in X. destruct X as (cs & v & T & M & P & C & S); [destruct bm; split; discriminate|].
  exists bm, cs, v. split; [exact BM|]. split; [exact T|]. split; [exact M|]. cbn [measures] in *.
  assert (NN : 0 <= v). { destruct M as (l & _ & _ & ->). change 0 with (inject_Z 0). rewrite <- Zle_Qle. lia. }
  assert (FN : exists v', how_many (fun c => In c (finished cs)) v' /\ v' <= v).
  { destruct M as (l & ND & IN & VE). exists (inject_Z (Z.of_nat (List.length (filter (fun c => negb (c_in_progress c)) l)))). split.
    - exists (filter (fun c => negb (c_in_progress c)) l). split; [now apply NoDup_filter|]. split; [|reflexivity]. intro x. unfold finished. rewrite !filter_In, IN. tauto.
    - rewrite VE. rewrite <- Zle_Qle. apply inj_le. clear. induction l as [|c l IH]; cbn; [lia|]. destruct (c_in_progress c); cbn; lia. }
  destruct FN as (v' & FN & LE). assert (NN' : 0 <= v'). { destruct FN as (l & _ & _ & ->). change 0 with (inject_Z 0). rewrite <- Zle_Qle. lia. }
  assert (UN : forall w, how_many (fun c => In c (finished cs)) w -> w == v').
  { intros w (l1 & A1 & B1 & C1). destruct FN as (l2 & A2 & B2 & C2). rewrite C1, C2. f_equal. assert (Z : List.length l1 = List.length l2); [|rewrite Z; reflexivity].
    apply Nat.le_antisymm; apply NoDup_incl_length; try assumption; intros x I; [apply B2, B1, I|apply B1, B2, I]. }
  destruct bm; cbn [meets] in *; change (inject_Z 0) with 0 in *; change (inject_Z 1) with 1 in *.
  - split; [rewrite P; split; lra|]. split.
    + split; [now left|]. intro PS. apply C. split; [now apply P|]. exists v'. split; [exact FN|]. apply P in PS. lra.
    + intro NP. rewrite P in NP. destruct (S NP) as [(A & L & _)|(A & ->)]; [lra|reflexivity].
  - split; [exact P|]. split.
    + split; [now left|]. intro PS. apply C. split; [now apply P|]. exists v'. split; [exact FN|]. apply P in PS. lra.
    + intro NP. rewrite P in NP. exact (S NP).
Qed.
Print Assumptions su_rule.
(** two half courses, or two courses of 1.25 credits, taken S/U are no problem *)
Example su_example :
  let s k d := taken k "A" d G_S GoSU false in
  rule_status 1 (Some "B.A.") (Some "A") "1" [s "1" full; s "2" full] = Some FailedInvariant /\
  rule_status 1 (Some "B.A.") (Some "A") "1" [s "1" full; s "2" (mkDec 50 (-2)); s "3" (mkDec 125 (-2)); s "4" (mkDec 125 (-2))] = Some Done /\
  rule_status 1 (Some "B.M.") (Some "A") "1" [s "1" (mkDec 50 (-2))] = Some Empty /\
  rule_status 1 (Some "B.M.") (Some "A") "1" [] = Some Done.
Proof. vm_compute. auto. Qed.

(** The third exists unless the degree is B.M. It asks for enough credits outside the major:
    18, in full courses, for a double major in the arts, otherwise 21. If the department is not
    known it waits for the department's approval and never passes. *)
Theorem outside_rule :
  forall ord cx cx' c tm es degree dept areas code a b o rest r,
  prepare_common cx c tm degree dept areas code = Ok (a :: b :: o :: rest) ->
  cx_exc cx = group_exceptions es -> cx_exc cx' = group_exceptions es -> no_common_exceptions es ->
  best_or_fail ord cx' o = Ok r ->
  rest = [] /\ degree <> Some "B.M." /\
  match dept with
  | None => status_of r = PendingApproval
  | Some d => starts_dollar d = false ->
    let codes := map a_code (filter (fun p => negb (String.eqb (a_code p) code)) areas) in
    exists arts cs, (arts = true <-> both_arts code codes) /\
      those (fun c => if arts then outside_of ["ART"] c /\ full_course c
                      else outside_of (if String.eqb code "450" then ["MUSIC"; "MUSPF"; "MUSEN"] else [d]) c)
            (cx_transcript cx') cs /\
      let needed := if arts then 18 else 21 in
      (passing (status_of r) <-> needed <= credits_of cs) /\
      (complete (status_of r) <-> needed <= credits_of cs /\ needed <= credits_of (finished cs)) /\
      (~ passing (status_of r) -> status_of r = if Qltb 0 (credits_of cs) then NeedsMoreItems else Empty)
  end.
Proof.
  intros ord cx cx' c tm es degree dept areas code a b o rest r H E E' N B.
  apply prepared in H as (bm & a' & b' & BM & _ & _ & R). destruct R as [[_ R]|[BF [o' [LO R]]]]; [discriminate|]. assert (o' = o /\ rest = []) as [-> ->] by (injection R; auto).
  split; [reflexivity|]. split; [intro X; apply BM in X; congruence|].
  assert (Q := quiet_of _ _ E N). assert (Q' := quiet_of _ _ E' N). destruct dept as [d|].
  - intros D codes. destruct (outside_shape _ _ _ _ _ _ _ Q D LO) as (arts & AR & SH). fold codes in AR.
    set (PP := fun c0 : course => if arts then outside_of ["ART"] c0 /\ full_course c0 else outside_of (if String.eqb code "450" then ["MUSIC"; "MUSPF"; "MUSEN"] else [d]) c0).
    assert (DD : decides (p_outside arts (String.eqb code "450") d) PP).
    { unfold p_outside, PP. destruct arts; [exact decides_outside_arts|]. destruct (String.eqb code "450"); [exact decides_outside_music|exact (decides_outside d)]. }
    assert (X := shape_best ord cx' o _ _ _ _ _ Q' SH DD (or_introl eq_refl)).
    rewrite B in X. destruct X as (cs & v & T & M & P & C & S); [split; discriminate|].
    cbn [measures meets] in *. exists arts, cs. split; [exact AR|]. split; [exact T|]. cbv zeta.
    assert (NV : inject_Z (if arts then 18 else 21) = if arts then 18 else 21) by (destruct arts; reflexivity). rewrite NV in *. clear NV.
    assert (N0 : 0 < if arts then 18 else 21) by (destruct arts; reflexivity).
    split; [rewrite P; split; lra|]. split.
    + rewrite C. split; [intros (A & v' & A' & L); split; lra|]. intros [A L]. split; [lra|]. exists (credits_of (finished cs)). split; [reflexivity|exact L].
    + intro NP. rewrite P in NP. destruct (S NP) as [(A & L & ->)|(A & ->)].
      * replace (Qltb 0 (credits_of cs)) with true; [reflexivity|]. symmetry. apply Qltb_iff. lra.
      * replace (Qltb 0 (credits_of cs)) with false; [reflexivity|]. symmetry. apply Qltb_no. lra.
  - apply audited_shape in LO as (i & -> & AU & UN & OV).
    unfold best_or_fail, find_best_solution in B. cbn [solutions] in B. unfold waived in B. rewrite (quiet_waive _ _ (Q' _ UN)) in B.
    destruct i as [p ov nm au ct gp dj]. cbn in AU, OV. subst. cbn in B. injection B as <-. reflexivity.
Qed.
Print Assumptions outside_rule.
Example outside_example :
  let big k sub := taken k sub (mkDec 9 0) GA GoGrade false in
  rule_status 2 (Some "B.A.") (Some "A") "1" [big "1" "A"; big "2" "B"; big "3" "C"; big "4" "REG"] = Some NeedsMoreItems /\
  rule_status 2 (Some "B.A.") (Some "A") "1" [big "1" "A"; big "2" "B"; big "3" "C"; big "4" "MUSEN"] = Some Done /\
  rule_status 2 (Some "B.A.") (Some "A") "450" [big "1" "A"; big "2" "B"; big "3" "C"; big "4" "MUSEN"] = Some Done /\
  rule_status 2 (Some "B.A.") (Some "A") "450" [big "2" "B"; big "3" "C"; big "4" "MUSEN"] = Some NeedsMoreItems /\
  rule_status 2 (Some "B.A.") (Some "A") "140" [big "1" "A"; big "2" "B"; big "3" "C"] = Some Empty /\
  rule_status 2 (Some "B.A.") (Some "A") "140" (map (fun k => taken k "A" full GA GoGrade false) (map (fun n => String (Ascii.ascii_of_nat n) "") (seq 65 18))) = Some Done /\
  rule_status 2 (Some "B.A.") None "1" [] = Some PendingApproval /\ rule_status 2 (Some "B.M.") None "1" [] = None.
Proof. vm_compute. auto 9. Qed.

Ltac loads :=
  repeat match goal with |- context [get_waive ?x ?y] => destruct (get_waive x y) end; cbv -[get_value cx_exc];
  repeat match goal with |- context [get_value ?x ?y] => destruct (get_value x y) end; eexists; reflexivity.
(** The common rules always load, unless the department code looks like a constant. *)
Theorem common_rules_load :
  forall cx c tm degree dept areas code, (forall d, dept = Some d -> starts_dollar d = false) ->
  exists rules, prepare_common cx c tm degree dept areas code = Ok rules /\
    List.length rules = (if match degree with Some s => String.eqb s "B.M." | None => false end then 2 else 3)%nat.
Proof.
  assert (L0 : forall cx c tm, exists n, load_common cx c tm "Credits at a C or higher" (common_body (Some c_or_better_query) false) "[0]" = Ok n).
  { intros. cbv -[get_waive get_value cx_exc dval Qeq_bool starts_dollar]. loads. }
  assert (L1 : forall cx c tm bm, exists n, load_common cx c tm "Credits taken S/U" (common_body (Some (s_u_query bm)) false) "[1]" = Ok n).
  { intros. destruct bm; cbv -[get_waive get_value cx_exc dval Qeq_bool starts_dollar]; loads. }
  assert (L2 : forall cx c tm dept code others, (forall d, dept = Some d -> starts_dollar d = false) ->
    exists n, load_common cx c tm "Credits outside the major" (outside_body dept code others) "[2]" = Ok n).
  { intros cx c tm [d|] code others D; unfold outside_body, outside_query.
    - assert (D' := D d eq_refl). destruct (_ || _)%bool; [|destruct (String.eqb code "450")]; cbv -[get_waive get_value cx_exc dval Qeq_bool starts_dollar]; rewrite ?D'; loads.
    - eexists. cbv -[get_waive get_value cx_exc]. reflexivity. }
  intros cx c tm degree dept areas code D. unfold prepare_common.
  destruct (L0 cx c tm) as [a ->]. cbn [bind]. destruct (L1 cx c tm (match degree with Some s => String.eqb s "B.M." | None => false end)) as [b ->]. cbn [bind].
  destruct (match degree with Some s => String.eqb s "B.M." | None => false end); [eexists; split; reflexivity|].
  match goal with |- context [outside_body dept code ?l] => destruct (L2 cx c tm dept code l D) as [o ->] end. cbn [bind]. eexists; split; reflexivity.
Qed.
Print Assumptions common_rules_load.
Example common_rules_load_example :
  prepare_common (sample_ctx []) sample_const [] (Some "B.A.") (Some "$X") [] "1" = Err ValueErr.
Proof. vm_compute. reflexivity. Qed.

(** ** C98 *)
Definition statuses : list status := [Empty; PendingApproval; NeedsMoreItems; PendingRegistered; PendingCurrent; Done; Waived; FailedInvariant].
Lemma all_of_two a b : (passing (count_status 2 [a; b] []) <-> passing a /\ passing b) /\ (complete (count_status 2 [a; b] []) <-> complete a /\ complete b).
Proof.
  rewrite <- !passing_iff, <- !complete_iff, <- !andb_true_iff.
  assert (H : forallb (fun a => forallb (fun b => Bool.eqb (inS (count_status 2 [a; b] []) passing_statuses) (inS a passing_statuses && inS b passing_statuses) &&
    Bool.eqb (inS (count_status 2 [a; b] []) WAIVED_AND_DONE) (inS a WAIVED_AND_DONE && inS b WAIVED_AND_DONE))%bool statuses) statuses = true) by (vm_compute; reflexivity).
  assert (X : forall s, In s statuses) by (intro s; destruct s; cbn; tauto).
  rewrite forallb_forall in H. assert (H' := H a (X a)). rewrite forallb_forall in H'. assert (H2 := H' b (X b)). apply andb_true_iff in H2 as [A B]. apply eqb_prop in A, B. rewrite A, B. tauto.
Qed.
Lemma all_of_three a b c : (passing (count_status 3 [a; b; c] []) <-> passing a /\ passing b /\ passing c) /\ (complete (count_status 3 [a; b; c] []) <-> complete a /\ complete b /\ complete c).
Proof.
  rewrite <- !passing_iff, <- !complete_iff, <- !andb_true_iff.
  assert (H : forallb (fun a => forallb (fun b => forallb (fun c => Bool.eqb (inS (count_status 3 [a; b; c] []) passing_statuses) (inS a passing_statuses && (inS b passing_statuses && inS c passing_statuses)) &&
    Bool.eqb (inS (count_status 3 [a; b; c] []) WAIVED_AND_DONE) (inS a WAIVED_AND_DONE && (inS b WAIVED_AND_DONE && inS c WAIVED_AND_DONE)))%bool statuses) statuses) statuses = true) by (vm_compute; reflexivity).
  assert (X : forall s, In s statuses) by (intro s; destruct s; cbn; tauto).
  rewrite forallb_forall in H. assert (H' := H a (X a)). rewrite forallb_forall in H'. assert (H2 := H' b (X b)). rewrite forallb_forall in H2. assert (H3 := H2 c (X c)).
  apply andb_true_iff in H3 as [A B]. apply eqb_prop in A, B. rewrite A, B. tauto.
Qed.
(** The common block passes exactly if the courses claimed for the major contain six credits
    of C or better and not too many courses taken S/U and, unless the degree is B.M., all
    courses of the student contain enough credits outside the major. If the department is not
    known, it never passes. *)
Theorem common_block_demands :
  forall ord u cx0 cx c tm es dept areas code result common,
  set_order ord ->
  prepare_common cx0 c tm (u_degree u) dept areas code = Ok (u_common u) ->
  cx_exc cx0 = group_exceptions es -> cx_exc cx = group_exceptions es -> no_common_exceptions es ->
  (forall d, dept = Some d -> starts_dollar d = false) ->
  audit_common ord u cx result = Ok common ->
  exists bm claimed, (bm = true <-> u_degree u = Some "B.M.") /\ matched_courses result claimed /\
  (passing (status_of common) <->
     six_credits claimed /\ few_su bm claimed /\
     (bm = true \/ exists d, dept = Some d /\
        enough_outside d code (map a_code (filter (fun p => negb (String.eqb (a_code p) code)) areas)) (cx_excluded cx))).
Proof.
  intros ord u cx0 cx c tm es dept areas code result common SO PC E0 E N D H.
  assert (Q0 := quiet_of _ _ E0 N).
  apply common_block_exact in H; [|exact SO]. destruct H as (r0 & r1 & more & ccx & a & b & o & UC & CC & BA & BB & MO & ->).
  destruct CC as (lt & forced & CE & MC & _ & _). rewrite UC in PC.
  assert (EC : cx_exc ccx = group_exceptions es) by (rewrite CE; exact E).
  assert (TR : cx_transcript ccx = lt) by (rewrite CE; reflexivity).
  apply best_or_fail_ok in BA, BB.
  destruct (six_credits_rule _ _ _ _ _ _ _ _ _ _ _ _ _ PC E0 EC N BA) as (cs & T6 & P6 & _). rewrite TR in T6.
  destruct (su_rule _ _ _ _ _ _ _ _ _ _ _ _ _ _ PC E0 EC N BB) as (bm & ds & n & BM & TS & HM & PS & _). rewrite TR in TS.
  assert (K6 : passing (status_of a) <-> six_credits lt).
  { rewrite P6. split; [intro L; exists cs; auto|]. intros (cs' & T & L). replace cs with cs'; [exact L|]. eapply those_once; eauto. }
  assert (KS : passing (status_of b) <-> few_su bm lt).
  { rewrite PS. split; [intro L; exists ds, n; auto|]. intros (ds' & n' & T & HM' & L). rewrite (those_once _ _ _ _ T TS) in HM'. rewrite (how_many_once _ _ _ HM HM'). exact L. }
  exists bm, lt. split; [exact BM|]. split; [exact MC|]. rewrite <- K6, <- KS. cbn zeta in MO.
  destruct (prepared _ _ _ _ _ _ _ _ PC) as (bm' & a' & b' & BM' & _ & _ & R).
  assert (bm' = bm) by (destruct bm, bm'; intuition congruence). subst bm'.
  destruct R as [[B0 R]|[B0 [o' [LO R]]]].
  - assert (more = []) as -> by (injection R; auto). subst o. cbn [List.length]. cbn [status_of]. unfold req_status. cbn [e_overridden e_audited andb status_of n_overridden n_count n_audits map].
    change (2 + Z.of_nat 0)%Z with 2%Z. rewrite (proj1 (all_of_two _ _)). intuition.
  - assert (more = [o']) as -> by (injection R; auto).
    assert (EW : cx_exc (with_transcript cx (cx_excluded cx) [] [] []) = group_exceptions es) by exact E.
    assert (QW := quiet_of _ _ EW N).
    destruct MO as [(x & -> & BX)|(-> & RS)].
    + apply best_or_fail_ok in BX. destruct (outside_rule _ _ _ _ _ _ _ _ _ _ _ _ _ _ _ PC E0 EW N BX) as (_ & _ & OR).
      cbn [List.length]. cbn [status_of]. unfold req_status. cbn [e_overridden e_audited andb status_of n_overridden n_count n_audits map].
      change (2 + Z.of_nat 1)%Z with 3%Z. rewrite (proj1 (all_of_three _ _ _)).
      assert (KO : passing (status_of x) <-> exists d, dept = Some d /\ enough_outside d code (map a_code (filter (fun p => negb (String.eqb (a_code p) code)) areas)) (cx_excluded cx)).
      { destruct dept as [d|].
        - destruct (OR (D d eq_refl)) as (arts & es' & AR & TO & PO & _). cbn [with_transcript cx_transcript] in TO. rewrite PO. unfold enough_outside. split.
          + intro L. exists d. split; [reflexivity|]. destruct arts.
            * left. split; [now apply AR|]. exists es'. auto.
            * right. split; [intro F; apply AR in F; discriminate|]. exists es'. auto.
          + intros (d' & [= <-] & [(AA & fs & T & L)|(AA & fs & T & L)]).
            * apply AR in AA. subst arts. rewrite <- (those_once _ _ _ _ T TO). exact L.
            * destruct arts; [exfalso; apply AA, AR; reflexivity|]. rewrite <- (those_once _ _ _ _ T TO). exact L.
        - split; [|intros (d & X & _); discriminate]. rewrite OR. intros [[X|X]|[X|X]]; discriminate. }
      rewrite KO. intuition congruence.
    + exfalso. assert (F : best_or_fail ord (with_transcript cx (cx_excluded cx) [] [] []) o' = Err IndexErr).
      { unfold best_or_fail. rewrite (proj2 (find_best_raises ord _ [] o' false IndexErr) (or_introl RS)). reflexivity. }
      destruct dept as [d|].
      * destruct (outside_shape _ _ _ _ _ _ _ Q0 (D d eq_refl) LO) as (arts & AR & SH).
        assert (DD : exists PP, decides (p_outside arts (String.eqb code "450") d) PP).
        { unfold p_outside. destruct arts; [eexists; exact decides_outside_arts|]. destruct (String.eqb code "450"); eexists; [exact decides_outside_music|exact (decides_outside d)]. }
        destruct DD as [PP DD]. assert (X := shape_best ord _ o' _ _ _ _ _ QW SH DD (or_introl eq_refl)). rewrite F in X. apply X; [split; discriminate|reflexivity].
      * apply audited_shape in LO as (i & -> & AU & UN & OV). unfold best_or_fail, find_best_solution in F. cbn [solutions] in F. unfold waived in F. rewrite (quiet_waive _ _ (QW _ UN)) in F.
        destruct i as [p ov nm au ct gp dj]. cbn in AU, OV. subst. cbn in F. discriminate.
Qed.
Print Assumptions common_block_demands.
Definition plain_major (degree : string) (rules : list node) : study :=
  mkStudy "X" "major" (Some degree) (Some "A") "1" [] (of_ 0 false [] []) [] rules.
Example common_block_example :
  let claim_of c := NCourse KRes (leaf "A 1" false (Some (mkClaim c ["$"] false))) in
  let result l := of_ 0 false [] (map claim_of l) in
  let st l all := match prepare_common (sample_ctx []) sample_const [] (Some "B.A.") (Some "A") [] "1" with
    | Ok rules => match audit_common (fun l => l) (plain_major "B.A." rules) (sample_ctx all) (result l) with Ok n => Some (status_of n) | Err _ => None end
    | Err _ => None end in
  let a k d := taken k "A" d GA GoGrade false in
  let b := taken "b" "B" (mkDec 21 0) GA GoGrade false in
  st [a "1" (mkDec 3 0); a "2" (mkDec 3 0)] [a "1" (mkDec 3 0); a "2" (mkDec 3 0); b] = Some Done /\
  st [a "1" (mkDec 3 0)] [a "1" (mkDec 3 0); a "2" (mkDec 3 0); b] = Some NeedsMoreItems /\
  st [a "1" (mkDec 3 0); a "2" (mkDec 3 0)] [a "1" (mkDec 3 0); a "2" (mkDec 3 0)] = Some NeedsMoreItems.
Proof. vm_compute. auto. Qed.
