(** Property theorems about whole runs with exceptions that change nothing (C190). *)
From Coq Require Import List ZArith QArith Bool Ascii String Lia Permutation.
From Verif Require Import Transcript Prelude Dec Status Course Claims Exceptions Op Context CondExpr Paths Predicate Limit LimitLoad Apply Assertion Query CourseRule EnumSpec LazyRun Tree Solve Driver Area Label StudentLoad Estimate Keys Loader AreaLoad Run.
From Verif Require Import ListFacts LoaderSpec LoaderProps TreeSpec TreeSolSpec TreeSolProps AreaLoadSpec AreaLoadProps CommonProps MonoProps MonoExcProps AreaEndProps FrameSpec FrameProofs FrameProps GoneSpec GoneProofs GoneProps ReorderProps RunProps ShownSpec ShownProofs ShownExcProps.
Import ListNotations.
Local Open Scope string_scope.
Local Open Scope list_scope.

(** the same table, or the same messages, or the same failure *)
Definition same_run (a b : res shown) : Prop :=
  match a, b with
  | Ok (ShTranscript l), Ok (ShTranscript l') => l' = l
  | Ok (ShGpa l), Ok (ShGpa l') => l' = l
  | Ok (ShAudit t), Ok (ShAudit t') => same_trace t t'
  | Err x, Err y => y = x
  | _, _ => False
  end.
(** an entry of the file of exceptions that is read as an exception for the area *)
Definition entry_for (s : spec) (e : raw_entry) (x : exc) : Prop :=
  re_area e = ar_code (sp_area s) /\ exists ms, mapr load_migration (sp_migrations s) = Ok ms /\ load_exception ms (re_exc e) = Ok x.

Lemma read_app code ms a b : area_exceptions code ms (a ++ b) = let! xs := area_exceptions code ms a in let! ys := area_exceptions code ms b in Ok (xs ++ ys).
Proof.
  induction a as [|e a IH]; cbn [app area_exceptions bind]; [destruct (area_exceptions code ms b); reflexivity|]. destruct (key (re_area e)) as [k|]; cbn [bind]; [|reflexivity]. destruct (k =? code); [|exact IH].
  destruct (load_exception ms (re_exc e)) as [x|]; cbn [bind]; [|reflexivity]. rewrite IH. destruct (area_exceptions code ms a); cbn [bind]; [|reflexivity]. destruct (area_exceptions code ms b); reflexivity.
Qed.
(** two runs from the same data with other lists of exceptions *)
Lemma run_alike tord ord nord sw args d xs xs' s :
  (forall code ms, ar_code (sp_area s) = Some code -> mapr load_migration (sp_migrations s) = Ok ms ->
    match area_exceptions code ms xs, area_exceptions code ms xs' with
    | Ok es, Ok es' => filter is_override es' = filter is_override es /\ forall c tm st,
        load_area c tm st es' false (sp_area s) = load_area c tm st es false (sp_area s) /\
        forall u, load_area c tm st es false (sp_area s) = Ok u -> same_trace (audit_area ord nord args u st es) (audit_area ord nord args u st es')
    | Err x, Err y => y = x
    | _, _ => False
    end) ->
  same_run (run tord ord nord sw args d xs s) (run tord ord nord sw args d xs' s).
Proof.
  intro H. unfold run, run_student. destruct (ar_code (sp_area s)) as [code|]; cbn [key bind]; [|exact eq_refl]. destruct (mapr load_migration (sp_migrations s)) as [ms|]; cbn [bind]; [|exact eq_refl].
  specialize (H code ms eq_refl eq_refl). destruct (area_exceptions code ms xs) as [es|], (area_exceptions code ms xs') as [es'|]; try (destruct H; fail); cbn [bind]; [|subst; exact eq_refl].
  destruct H as [F H]. rewrite F. destruct (load_student _ _ _ _ _) as [st|]; cbn [bind]; [|exact eq_refl].
  destruct (sw_transcript sw); [exact eq_refl|]. destruct (sw_gpa sw); [exact eq_refl|]. destruct (H (constants_of st) (templates_as_dict (sl_templates st)) (sl_student st)) as [L T]. rewrite L. clear L.
  destruct (load_area (constants_of st) (templates_as_dict (sl_templates st)) (sl_student st) es false (sp_area s)) as [u|]; cbn [bind]; [|exact eq_refl]. exact (T u eq_refl).
Qed.

(** ** C190 *)

(** An entry for a requirement that the area does not have may as well be missing from the file:
    whatever is asked for, the run shows the same and fails the same. *)
Theorem stale_entries_do_not_matter :
  forall tord ord nord sw args d a e b s x, (forall l, Permutation (nord l) l) ->
  entry_for s e x -> for_gone_requirement (sp_area s) x -> not_forced x -> is_override x = false ->
  same_run (run tord ord nord sw args d (a ++ b) s) (run tord ord nord sw args d (a ++ e :: b) s).
Proof.
  intros tord ord nord sw args d a e b s x NO [RA [ms [M LE]]] GR NF OV. apply run_alike. intros code ms' C M'. rewrite M in M'. injection M' as <-. rewrite !read_app.
  destruct (area_exceptions code ms a) as [xs|]; cbn [bind]; [|reflexivity]. cbn [area_exceptions]. rewrite RA, C. cbn [key bind]. rewrite String.eqb_refl, LE. cbn [bind].
  destruct (area_exceptions code ms b) as [ys|]; cbn [bind]; [|reflexivity]. split; [rewrite !filter_app; cbn [filter]; rewrite OV; reflexivity|].
  intros c tm st. split; [apply exceptions_for_gone_requirements_leave_the_rules_alone; exact GR|]. intros u L. exact (proj2 (exceptions_for_gone_requirements_show_nothing c tm st xs x ys false (sp_area s) ord nord args u GR NF NO L)).
Qed.
Print Assumptions stale_entries_do_not_matter.
(** Two entries for different parts of the area, not both in the common requirements and not both
    overrides of a course, may be listed in either order. *)
Theorem entries_may_be_swapped :
  forall tord ord nord sw args d a e f b s x y, (forall l, Permutation (nord l) l) ->
  entry_for s e x -> entry_for s f y -> ex_path x <> ex_path y -> ~ (for_common x /\ for_common y) -> is_override x = false \/ is_override y = false ->
  same_run (run tord ord nord sw args d (a ++ e :: f :: b) s) (run tord ord nord sw args d (a ++ f :: e :: b) s).
Proof.
  intros tord ord nord sw args d a e f b s x y NO [RA [ms [M LE]]] [RF [ms1 [M1 LF]]] NP NC OV. rewrite M in M1. injection M1 as <-.
  apply run_alike. intros code ms' C M'. rewrite M in M'. injection M' as <-. rewrite !read_app.
  destruct (area_exceptions code ms a) as [xs|]; cbn [bind]; [|reflexivity]. cbn [area_exceptions]. rewrite RA, RF, C. cbn [key bind]. rewrite String.eqb_refl, LE, LF. cbn [bind].
  destruct (area_exceptions code ms b) as [ys|]; cbn [bind]; [|reflexivity]. assert (R : reordered (xs ++ x :: y :: ys) (xs ++ y :: x :: ys)) by (apply ro_swap; assumption).
  split; [rewrite !filter_app; cbn [filter]; destruct OV as [E|E]; rewrite E; [reflexivity|]; destruct (is_override x); reflexivity|].
  intros c tm st. split; [symmetry; apply order_of_exceptions_leaves_the_rules_alone; exact R|]. intros u L. exact (proj2 (order_of_exceptions_shows_nothing c tm st _ _ false (sp_area s) ord nord args u R NO L)).
Qed.
Print Assumptions entries_may_be_swapped.

(** ** Samples *)
Definition stale_entry (ty : exc_type) : raw_entry := mkEntry (Some "140") (mkRaw (Some ty) ["$"; ".old"; "[0]"; "%Seminar"] (Some "7") None (Some (mkDec 25 (-2))) None).
Lemma stale_gone act : for_gone_requirement (sp_area (run_spec "concentration")) (mkExc ["$"; ".count"; "[0]"; "%Seminar"] act).
Proof.
  exists "Seminar", []. split; [|right; exists "[0]"; reflexivity]. intros [d E D|b I|k b I D|e I D|t E|E]; try discriminate E; try (destruct I; fail).
  injection E as <-. inversion D as [? x t n EC| |? k l x n EK LI I D'|? ? ? EN|? ? ? ? EN]; subst; try discriminate. injection EK as <-. inversion LI; subst; try discriminate.
  match goal with A : rk_all _ = Some _ |- _ => injection A as <- end. destruct I as [<-|[<-|[]]]; inversion D'; discriminate.
Qed.
Example stale_entry_example :
  (exists x, entry_for (run_spec "concentration") (stale_entry XOverride) x /\ for_gone_requirement (sp_area (run_spec "concentration")) x /\ not_forced x /\ is_override x = false) /\
  summary (run_it "concentration" (mkSwitches false false) (stale_entry XOverride :: run_exceptions)) = Some ([None; None; None; Some (Done, 2, 2)], None)%Z.
Proof.
  split; [|vm_compute; reflexivity]. exists (mkExc ["$"; ".count"; "[0]"; "%Seminar"] (AOverride Done)). split; [split; [reflexivity|exists [mkMig ["$"; ".old"] ["$"; ".count"]]; split; reflexivity]|].
  split; [apply stale_gone|]. split; [intros k E; discriminate E|reflexivity].
Qed.
Example swapped_entries_example :
  exists x y, entry_for (run_spec "concentration") (stale_entry XOverride) x /\ entry_for (run_spec "concentration") (nth 1 run_exceptions (stale_entry XOverride)) y /\
  ex_path x <> ex_path y /\ ~ (for_common x /\ for_common y) /\ is_override x = false.
Proof.
  exists (mkExc ["$"; ".count"; "[0]"; "%Seminar"] (AOverride Done)), (mkExc ["$"; ".count"; "[1]"; "*CSCI 251"] (AInsert "8" false)).
  split; [split; [reflexivity|exists [mkMig ["$"; ".old"] ["$"; ".count"]]; split; reflexivity]|]. split; [split; [reflexivity|exists [mkMig ["$"; ".old"] ["$"; ".count"]]; split; reflexivity]|].
  split; [discriminate|]. split; [intros [[r E] _]; discriminate E|reflexivity].
Qed.
(** An override of the credits of a course is for the course, wherever its path leads. *)
Definition stale_overrides_do_not_matter : Prop :=
  forall tord ord nord sw args d a e b s x, (forall l, Permutation (nord l) l) -> entry_for s e x -> for_gone_requirement (sp_area s) x -> not_forced x ->
  same_run (run tord ord nord sw args d (a ++ b) s) (run tord ord nord sw args d (a ++ e :: b) s).
Theorem stale_overrides_do_not_matter_refuted : ~ stale_overrides_do_not_matter.
Proof.
  intro H. specialize (H (fun l => l) (fun l => l) (fun l => l) (mkSwitches false true) plain_args (run_data run_rows) [] (stale_entry XCourseCredits) [] (run_spec "concentration") (mkExc ["$"; ".count"; "[0]"; "%Seminar"] (ACredits "7" (mkDec 25 (-2)))) (fun l => Permutation_refl l)).
  assert (EF : entry_for (run_spec "concentration") (stale_entry XCourseCredits) (mkExc ["$"; ".count"; "[0]"; "%Seminar"] (ACredits "7" (mkDec 25 (-2))))) by (split; [reflexivity|exists [mkMig ["$"; ".old"] ["$"; ".count"]]; split; reflexivity]).
  specialize (H EF (stale_gone _)). assert (NF : not_forced (mkExc ["$"; ".count"; "[0]"; "%Seminar"] (ACredits "7" (mkDec 25 (-2))))) by (intros k E; discriminate E). specialize (H NF). vm_compute in H. discriminate H.
Qed.
Print Assumptions stale_overrides_do_not_matter_refuted.
