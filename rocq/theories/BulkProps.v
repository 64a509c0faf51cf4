(** C168, C169: auditing a list of students. *)
From Coq Require Import List ZArith QArith Bool String Ascii Sorted Permutation Lia.
From Verif Require Import Transcript Prelude Dec Status Course Exceptions Paths Context Predicate Tree Loader LimitLoad Driver Area AreaLoad Label StudentLoad Run Json Report Claimed Catalog Client Bulk.
From Verif Require Import LabelSpec StudentSpec LimitLoadSpec ClientSpec BulkSpec ListFacts LimitLoadProofs CatalogProps ClientProofs BulkProofs RunProps ClientProps.
Import ListNotations.
Local Open Scope string_scope.
Local Open Scope list_scope.

(** ** C168 *)

(** Every line is read as words; the different ones are audited in order, [n] times, up to the
    first at which the program ends; without any the exit code is 1. *)
Theorem bulk_exact :
  forall tord ord nord repr quote g4 dtext o n w lines,
  exists rows, to_do lines n rows /\
    let out := bulk_main tord ord nord repr quote g4 dtext o n w lines in
    (rows = [] -> out = ([], Ok 1%Z)) /\
    (rows <> [] -> exists ps, fst out = (if bo_table o then [BHeader] else []) ++ ps /\ rows_end tord ord nord repr quote g4 dtext o w rows ps (snd out)).
Proof.
  intros. exists (Bulk.asked lines n). split; [apply asked_exact|]. unfold bulk_main. destruct (Bulk.asked lines n) as [|r rows]; [split; [reflexivity|intro H; contradiction]|].
  split; [discriminate|]. intros _. destruct (bulk_rows tord ord nord repr quote g4 dtext o w (r :: rows)) as [ps z] eqn:E. exists ps. split; [reflexivity|]. apply BulkProofs.rows_exact. exact E.
Qed.
Print Assumptions bulk_exact.
(** What becomes of a row is settled by the row and the files. *)
Theorem each_row_has_one_end :
  forall tord ord nord repr quote g4 dtext o w row, exists out e, row_ends tord ord nord repr quote g4 dtext o w row out e /\
    forall out' e', row_ends tord ord nord repr quote g4 dtext o w row out' e' -> out' = out /\ e' = e.
Proof.
  intros. destruct (bulk_row tord ord nord repr quote g4 dtext o w row) as [out e] eqn:E. exists out, e. split; [apply row_exact; exact E|].
  intros out' e' H. apply row_exact in H. rewrite E in H. injection H as <- <-. auto.
Qed.
Print Assumptions each_row_has_one_end.

(** ** C169 *)

Lemma to_do_one lines n a b : to_do lines n a -> to_do lines n b -> a = b.
Proof.
  intros (x & SX & NX & IX & ->) (y & SY & NY & IY & ->). f_equal. f_equal.
  assert (P : Permutation x y) by (apply NoDup_Permutation; auto; intro l; rewrite IX, IY; reflexivity).
  assert (L : forall l, StronglySorted not_behind l -> StronglySorted (lebP row_leb) l) by (intros l S; induction S as [|h l S IH F]; constructor; [assumption|]; eapply Forall_impl; [|exact F]; intros z Z; apply row_leb_iff; exact Z).
  apply (sorted_perm_unique row_leb); auto. intros u v _ _ U V. clear - U V. revert v U V. induction u as [|h u IH]; destruct v as [|k v]; cbn; try discriminate; [reflexivity|].
  rewrite (String.eqb_sym k h). destruct (String.eqb_spec h k) as [->|NE]; intros U V; [f_equal; apply IH; assumption|]. exfalso. apply NE.
  assert (X := String.compare_antisym h k). unfold str_le in *. destruct (String.compare h k) eqn:C; [apply String.compare_eq_iff; exact C| |discriminate]. destruct (String.compare k h); discriminate.
Qed.
Lemma stops_not_zero tord ord nord repr quote g4 dtext o w row out z : row_ends tord ord nord repr quote g4 dtext o w row out (Some z) -> z <> Ok 0%Z.
Proof.
  assert (F : forall d e x, fails d e -> e = Some x -> x <> Ok 0%Z) by (intros d e x [[_ ->]|[_ ->]] E; injection E as <-; discriminate).
  intro H. inversion H as [| | | | | | |? ? ? ? ? ? ? ? ? ? ? ? ? ? ? ? ? ? A]; subst; try discriminate. inversion A; subst; try discriminate; eapply F; eauto.
Qed.
(** The exit code is 0 if and only if something was asked for and all of it went through. *)
Theorem exit_zero_iff_all_went_through :
  forall tord ord nord repr quote g4 dtext o n w lines rows, to_do lines n rows ->
  (snd (bulk_main tord ord nord repr quote g4 dtext o n w lines) = Ok 0%Z <->
   rows <> [] /\ forall r, In r rows -> exists out, row_ends tord ord nord repr quote g4 dtext o w r out None).
Proof.
  intros tord ord nord repr quote g4 dtext o n w lines rows T. destruct (bulk_exact tord ord nord repr quote g4 dtext o n w lines) as (rows' & T' & EM & NE).
  rewrite (to_do_one _ _ _ _ T' T) in *. clear rows' T'. cbv zeta in EM, NE. split.
  - intro Z0. assert (N : rows <> []) by (intro E; rewrite (EM E) in Z0; discriminate). split; [exact N|]. destruct (NE N) as (ps & _ & R). rewrite Z0 in R.
    inversion R as [rows' outs F|done outs r out z rest F R']; subst; [|destruct (stops_not_zero _ _ _ _ _ _ _ _ _ _ _ _ R' eq_refl)].
    intros r I'. clear - F I'. induction F as [|x out rows outs R F IH]; [destruct I'|]. destruct I' as [<-|I']; eauto.
  - intros (N & ALL). destruct (NE N) as (ps & _ & R). inversion R as [rows' outs F|done outs r out z rest F R']; subst; [congruence|].
    destruct (ALL r) as [out' G]; [apply in_or_app; right; left; reflexivity|]. destruct (each_row_has_one_end tord ord nord repr quote g4 dtext o w r) as (a & b & _ & U). destruct (U _ _ R') as [_ <-]. destruct (U _ _ G) as [_ X]. discriminate X.
Qed.
Print Assumptions exit_zero_iff_all_went_through.
(** the row of the table for one of those asked for: the best result of auditing the student,
    against the specification in the folder found *)
Definition tells tord ord nord (w : world) (row : list string) (p : bline) : Prop :=
  exists stnum catalog code y year folder d xs s an v n u q m, row = [stnum; catalog; code] /\ starts_of catalog y /\ py_int y = Ok year /\
    find_area (wd_listing w) year code = Some folder /\ wd_student w stnum = Ok (d, xs) /\ wd_area w folder code = Ok s /\
    comes_to tord ord nord d xs s an (Best v n) u /\ area_rank v = Ok (q, m) /\
    p = BTable stnum catalog code (JStr (str_of_dec (area_gpa v))) (JNum q) (JNum m).
(** With --table and exit code 0, there is one row for each of those asked for, in their order. *)
Theorem a_good_table_is_whole :
  forall tord ord nord repr quote g4 dtext o n w lines rows, to_do lines n rows -> bo_table o = true -> bo_transcript o = false -> bo_invocation o = false ->
  snd (bulk_main tord ord nord repr quote g4 dtext o n w lines) = Ok 0%Z ->
  exists ps, fst (bulk_main tord ord nord repr quote g4 dtext o n w lines) = BHeader :: ps /\ Forall2 (tells tord ord nord w) rows ps.
Proof.
  intros tord ord nord repr quote g4 dtext o n w lines rows T B TR IV Z0. destruct (bulk_exact tord ord nord repr quote g4 dtext o n w lines) as (rows' & T' & EM & NE).
  rewrite (to_do_one _ _ _ _ T' T) in *. clear rows' T'. cbv zeta in EM, NE. assert (N : rows <> []) by (intro E; rewrite (EM E) in Z0; discriminate).
  destruct (NE N) as (ps & -> & R). rewrite B. exists ps. split; [reflexivity|]. rewrite Z0 in R.
  inversion R as [rows' outs F|done outs r out z rest F R']; subst; [|destruct (stops_not_zero _ _ _ _ _ _ _ _ _ _ _ _ R' eq_refl)].
  clear - F B TR IV. induction F as [|r out rows outs R F IH]; [constructor|].
  assert (X : exists p, out = [p] /\ tells tord ord nord w r p).
  { inversion R as [| | | | | | |stnum catalog code y year folder d xs s ? ? S E FA I' ST AR G A]; subst; try congruence.
    inversion A as [es st T'|x e T'|an x u e T' C FL|an u T'|an v k u es st p T' C RS SH|an v k u es st e T' C RS SH FL]; subst; try congruence;
      try (match goal with H : fails _ None |- _ => destruct H as [[_ H]|[_ H]]; discriminate H end).
    destruct SH as [(_ & _ & q & m & RK & ->)|(X & _)]; [|congruence]. eexists. split; [reflexivity|]. exists stnum, catalog, code, y, year, folder, d, xs, s, an, v, k, u, q, m. do 8 (split; [assumption||reflexivity|]). reflexivity. }
  destruct X as (p & -> & TL). cbn. constructor; assumption.
Qed.
Print Assumptions a_good_table_is_whole.

(** ** Examples *)
Definition sample_world : world :=
  mkWorld [("2016-17", ["140.yaml"]); ("2018-19", ["140.yaml"])]
    (fun n => if String.eqb n "123" || String.eqb n "124" then Ok (run_data run_rows, run_exceptions) else Err OtherErr)
    (fun folder code => if String.eqb folder "2016-17" then Ok (run_spec "concentration") else Err OtherErr).
Definition table : bulk_options := mkBulk false false false true true true.
Definition sample_bulk (n : Z) (lines : list string) : list bline * res Z :=
  bulk_main (fun l => l) (fun l => l) (fun l => l) (fun x => x) (fun x => x) (fun _ => "") (fun _ => "") table n sample_world lines.
Definition row_of (p : bline) : list string := match p with BTable a b c _ _ _ => [a; b; c] | _ => [] end.
Example bulk_example :
  let '(out, code) := sample_bulk 2 ["124 2017-18 140"; "123   2016-17 140 "; "124 2017-18 140"] in
  map row_of out = [[]; ["123"; "2016-17"; "140"]; ["124"; "2017-18"; "140"]; ["123"; "2016-17"; "140"]; ["124"; "2017-18"; "140"]] /\ code = Ok 0%Z.
Proof. vm_compute. split; reflexivity. Qed.
Example no_lines_example : sample_bulk 1 [] = ([], Ok 1%Z) /\ sample_bulk 0 ["123 2016-17 140"] = ([], Ok 1%Z) /\ sample_bulk 1 [""] = ([BHeader], Err ValueErr).
Proof. vm_compute. split; [|split]; reflexivity. Qed.
(** every row that can be audited is shown, whatever becomes of others *)
Definition one_failure_leaves_the_others : Prop :=
  forall tord ord nord repr quote g4 dtext o n w lines rows r p, to_do lines n rows -> In r rows ->
  row_ends tord ord nord repr quote g4 dtext o w r [p] None -> In p (fst (bulk_main tord ord nord repr quote g4 dtext o n w lines)).
(** The program ends at the first that cannot be audited; those after it are not. *)
Theorem one_failure_leaves_the_others_refuted : ~ one_failure_leaves_the_others.
Proof.
  intro H.
  assert (R : exists p, bulk_row (fun l => l) (fun l => l) (fun l => l) (fun x => x) (fun x => x) (fun _ => "") (fun _ => "") table sample_world ["123"; "2016-17"; "140"] = ([p], None) /\ p <> BHeader)
    by (eexists; split; [vm_compute; reflexivity|discriminate]).
  destruct R as (p & R & NH). apply row_exact in R.
  specialize (H _ _ _ _ _ _ _ table 1%Z sample_world ["123 2016-17 140"; "122 2016-17 140"] _ _ _ (asked_exact _ _)
    ltac:(vm_compute; right; left; reflexivity) R).
  assert (E : fst (sample_bulk 1 ["123 2016-17 140"; "122 2016-17 140"]) = [BHeader]) by (vm_compute; reflexivity).
  unfold sample_bulk in E. rewrite E in H. destruct H as [H|[]]. congruence.
Qed.
Print Assumptions one_failure_leaves_the_others_refuted.
