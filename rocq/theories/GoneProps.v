(** Property theorems about exceptions for requirements that an area does not have (C183). *)
From Coq Require Import List ZArith QArith Bool Ascii String Lia Permutation.
From Verif Require Import Transcript Prelude Dec Status Course Claims Exceptions Op Context CondExpr Paths Predicate Limit LimitLoad Apply Assertion Query CourseRule Tree Solve Driver Area StudentLoad Run Loader AreaLoad.
From Verif Require Import ListFacts LoaderSpec LoaderProofs LoaderProps TreeSpec TreeSolSpec AreaLoadSpec AreaLoadProofs AreaLoadProps AreaEndProps CommonProps MonoProps MonoExcProps AreaEndProps FrameSpec FrameProofs FrameProps GoneSpec GoneProofs.
Import ListNotations.
Local Open Scope string_scope.
Local Open Scope list_scope.

(** ** The paths of a loaded area *)
Lemma keep_places ks f n : FrameSpec.places (keep_out ks f n) = FrameSpec.places n.
Proof. destruct n as [| | | | |k i [[k' r]|]]; reflexivity. Qed.
Lemma keep_asserts ks f n : own_assertions (keep_out ks f n) = own_assertions n.
Proof. destruct n; reflexivity. Qed.
Lemma keep_tidy clean ks f n : tidy_tree clean n -> tidy_tree clean (keep_out ks f n).
Proof. intros T x P. apply part_keep in P as [m [P ->]]. rewrite keep_places, keep_asserts, path_keep. exact (T m P). Qed.
Lemma keep_good clean p ks f n : good clean p n -> good clean p (keep_out ks f n).
Proof.
  intros [T [s [E G]]]. split; [apply keep_tidy, T|]. exists s. split; [rewrite path_keep; exact E|]. destruct n; cbn [keep_out]; try exact G. destruct G as [-> G]. split; [reflexivity|].
  intros x I. apply in_map_iff in I as [y [<- I]]. destruct (G y I) as [T' X]. split; [apply keep_tidy, T'|]. rewrite path_keep. exact X.
Qed.
Lemma keep_at ks f g n : (forall y p, part_of n y -> In p (FrameSpec.places y) -> f p = g p) -> keep_out ks f n = keep_out ks g n.
Proof.
  induction n as [k r|k q|k i items IH|k i o IH|k i t fo IHt IHf|k i c] using node_induction; intro H; cbn [keep_out]; try reflexivity.
  - rewrite (H _ (r_path r) (pt_self _)) by (left; reflexivity). reflexivity.
  - rewrite (H _ (q_path q) (pt_self _)) by (left; reflexivity). reflexivity.
  - f_equal. apply map_ext_in. intros x I. apply (IH x I). intros y p Y. apply H. eapply pt_count; eauto.
  - f_equal. destruct o as [x|]; [|reflexivity]. f_equal. apply (IH x eq_refl). intros y p Y. apply H. apply pt_req. exact Y.
  - f_equal; [apply IHt; intros y p Y; apply H; apply pt_true; exact Y|]. destruct fo as [x|]; [|reflexivity]. f_equal. apply (IHf x eq_refl). intros y p Y. apply H. apply pt_false. exact Y.
Qed.

(** paths that do not lead through a requirement of the name *)
Definition away (n : string) (p : path) : Prop := ~ In ("%" ++ n)%string p.
Definition other_name (n s : string) : Prop := s <> n.
Lemma away_more n p s : away n p -> unnamed s -> away n (p ++ [s]).
Proof. intros A U I. apply in_app_iff in I as [I|[->|[]]]; [exact (A I)|exact U]. Qed.
Lemma away_named n p s : away n p -> other_name n s -> away n (p ++ [("%" ++ s)%string]).
Proof. intros A U I. apply in_app_iff in I as [I|[I|[]]]; [exact (A I)|]. injection I as I. exact (U I). Qed.
(** the paths of the common requirements *)
Definition of_common (p : path) : Prop := exists r, p = "$" :: "%Common Requirements" :: r.
Lemma common_more p s : of_common p -> of_common (p ++ [s]).
Proof. intros [r ->]. exists (r ++ [s]). reflexivity. Qed.

Section Loaded.
  Variables (c : constants) (tm : list (string * list template)) (st : student) (all : bool) (s : aspec) (n : string).
  Hypothesis NONE : ~ has_requirement s n.
  Lemma ok_result d : ar_result s = Some d -> ok_data (other_name n) d.
  Proof. intros E m D ->. apply NONE. eapply hr_result; eauto. Qed.
  Lemma ok_reqs k b : In (k, b) (reqs_of (ar_reqs s)) -> other_name n k /\ ok_body (other_name n) b.
  Proof. intro I. split; [intros ->; apply NONE; eapply hr_req; eauto|intros m D ->; apply NONE; eapply hr_in; eauto]. Qed.
  Lemma ok_prefix t : other_name n ("Emphasis: " ++ t).
  Proof. intro E. apply NONE. apply (hr_prefix s n t). symmetry. exact E. Qed.
  Lemma ok_chosen e : In e (chosen_emphases st all (ar_emphases s)) -> ok_emphasis (other_name n) e.
  Proof. intro I. split; [exact ok_prefix|]. intros m D ->. apply NONE. eapply hr_emphasis; [apply filter_In in I; apply I|exact D]. Qed.
  Lemma ok_adds e l : ok_emphasis (other_name n) e -> emphasis_adds e l -> ok_added (other_name n) l.
  Proof.
    intros [OP OB] A a I. assert (PK : forall name k, other_name n (part_key name k)) by (intros name k; exact (OP (name ++ " → " ++ k)%string)).
    destruct A as [name l reqs N L R|name l xs d N L R NE F D|name d N R X].
    - apply in_map_iff in I as [[k b] [<- I]]. split; [apply PK|]. intros m H. apply OB. eapply di_body; eauto.
    - apply in_map_iff in I as [[k b] [<- I]]. split; [apply PK|]. destruct D as [_ D]. destruct (D k b I) as [pre [post [E _]]]. assert (J : In (k, b) xs) by (rewrite E; apply in_or_app; right; left; reflexivity).
      destruct L as (d0 & k0 & ER & EC & EA & _). assert (Y : exists r, In r l /\ rd_name r = Some (k, b)) by (clear - F J; induction F as [|r x l xs E F IH]; [destruct J|]; destruct J as [->|J]; [exists r; split; [left; reflexivity|exact E]|destruct (IH J) as [r' [A B]]; exists r'; split; [right; exact A|exact B]]).
      destruct Y as [r [IR ER']]. intros m H. apply OB. eapply di_result; [exact ER|]. eapply df_item; [exact EC|apply li_all; exact EA|exact IR|]. eapply df_body; eauto.
    - destruct I as [<-|[]]. split; [exact (OP name)|exact OB].
  Qed.
  Lemma top_parts cx x : load_top cx c tm (ar_result s) (ar_reqs s) (chosen_emphases st all (ar_emphases s)) = Ok x -> good (away n) ["$"] x.
  Proof.
    intro L. apply top_loaded in L as (d & adds & E & F & L). apply loaded_exactly in L.
    apply (proj1 (parts_all (away n) (other_name n) (away_more n) (away_named n) cx c tm) _ _ _ _ _ L); [intros [H|[]]; discriminate H|apply ok_result, E| | |reflexivity].
    - intros k b G. apply ok_reqs. clear - G. induction (reqs_of (ar_reqs s)) as [|[k' b'] l IH]; cbn in G; [discriminate|]. destruct (String.eqb_spec k k') as [->|_]; [injection G as <-; left; reflexivity|right; exact (IH G)].
    - clear L. destruct F as [F| ->]; [|intros a []]. assert (OE : forall e, In e (chosen_emphases st all (ar_emphases s)) -> ok_emphasis (other_name n) e) by exact ok_chosen. revert OE. induction F as [|e l es ls A F IH]; intros OE a I; [destruct I|].
      cbn in I. apply in_app_iff in I as [I|I]; [exact (ok_adds _ _ (OE e (or_introl eq_refl)) A a I)|exact (IH (fun e' J => OE e' (or_intror J)) a I)].
  Qed.
  Lemma common_parts cx degree dept areas code l x : prepare_common cx c tm degree dept areas code = Ok l -> In x l -> exists p, of_common p /\ good of_common p x.
  Proof.
    assert (ONE : forall name b i y, load_common cx c tm name b i = Ok y -> exists p, of_common p /\ good of_common p y).
    { intros name b i y L. unfold load_common in L. destruct (load_rule _ _ _ _ _ _ _) as [[z|]|] eqn:E; cbn [bind] in L; try discriminate. injection L as <-. exists (common_path i). split; [exists [".count"; i]; reflexivity|].
      apply (loaded_exactly cx c tm [] [(name, b)]) in E.
      apply (proj1 (parts_all of_common (fun _ => True) (fun p t H _ => common_more p t H) (fun p t H _ => common_more p _ H) cx c tm) _ _ _ _ _ E); [exists [".count"; i]; reflexivity|intros m _; exact Logic.I| |intros a []|reflexivity].
      intros k b' _. split; [exact Logic.I|intros m _; exact Logic.I]. }
    unfold prepare_common. intros L I.
    destruct (load_common cx c tm "Credits at a C or higher" _ _) as [y1|] eqn:E1; cbn [bind] in L; [|discriminate]. destruct (load_common cx c tm "Credits taken S/U" _ _) as [y2|] eqn:E2; cbn [bind] in L; [|discriminate].
    destruct (match degree with Some _ => _ | None => _ end).
    - injection L as <-. destruct I as [<-|[<-|[]]]; eauto.
    - destruct (load_common cx c tm "Credits outside the major" _ _) as [y3|] eqn:E3; cbn [bind] in L; [|discriminate]. injection L as <-. destruct I as [<-|[<-|[<-|[]]]]; eauto.
  Qed.
End Loaded.

(** ** C183 *)

(** An exception for a requirement that the area does not have changes nothing about what is
    loaded. *)
Theorem exceptions_for_gone_requirements_leave_the_rules_alone :
  forall c tm st a x b all_emphases s, for_gone_requirement s x ->
  load_area c tm st (a ++ x :: b) all_emphases s = load_area c tm st (a ++ b) all_emphases s.
Proof.
  intros c tm st a x b all s [n [post [NONE SH]]]. symmetry. unfold load_area. cbv zeta.
  assert (NC : n <> "Common Requirements") by (intro E; apply NONE; apply hr_common; exact E).
  assert (IN : In ("%" ++ n)%string (ex_path x)) by (destruct SH as [->|[k ->]]; cbn [In]; auto).
  assert (ATA : forall p, away n p -> exc_at (cx_exc (load_ctx st (a ++ b))) p = exc_at (cx_exc (load_ctx st (a ++ x :: b))) p) by (intros p A; apply at_more; intros ->; exact (A IN)).
  assert (ATC : forall p, of_common p -> exc_at (cx_exc (load_ctx st (a ++ b))) p = exc_at (cx_exc (load_ctx st (a ++ x :: b))) p).
  { intros p [r ->]. apply at_more. destruct SH as [->|[k ->]]; intro E; [injection E as E _; congruence|discriminate E]. }
  assert (EXP : forall k, has_waive_for_expression (cx_exc (load_ctx st (a ++ b))) k = has_waive_for_expression (cx_exc (load_ctx st (a ++ x :: b))) k).
  { intro k. unfold has_waive_for_expression. cbn [load_ctx with_transcript cx_exc]. rewrite (at_more a x b); [reflexivity|]. destruct SH as [->|[k' ->]]; discriminate. }
  destruct (mapr (check_emphasis c tm st) (ar_emphases s)); cbn [bind]; [|reflexivity].
  rewrite (top_same (away n) (other_name n) (away_more n) (away_named n) (load_ctx st (a ++ b)) (load_ctx st (a ++ x :: b)) c tm (fun d => eq_refl) ATA EXP); [|intros [H|[]]; discriminate H|apply ok_result, NONE|apply ok_reqs, NONE|apply ok_chosen, NONE].
  destruct (load_top _ c tm _ _ _) as [t|] eqn:L; cbn [bind]; [|reflexivity]. assert (G := top_parts c tm st all s n NONE _ _ L). destruct G as [G _].
  rewrite (required_same (away n) (load_ctx st (a ++ b)) (load_ctx st (a ++ x :: b)) (fun d => eq_refl) ATA) by (intros y p Y I; exact (proj1 (proj1 (G y Y) p I))).
  destruct (required_of _ t) as [cs|]; cbn [bind]; [|reflexivity].
  rewrite (limits_same (load_ctx st (a ++ b)) (load_ctx st (a ++ x :: b)) c (fun d => eq_refl) EXP). destruct (load_limits _ c _); cbn [bind]; [|reflexivity]. destruct (ar_bad s); [reflexivity|].
  rewrite (prepare_same of_common (fun _ => True) (fun p t H _ => common_more p t H) (fun p t H _ => common_more p _ H) (load_ctx st (a ++ b)) (load_ctx st (a ++ x :: b)) c tm (fun d => eq_refl) ATC EXP); [|intro; exact Logic.I|intro i; exists [".count"; i]; reflexivity].
  destruct (prepare_common _ _ _ _ _ _ _); cbn [bind]; [|reflexivity]. rewrite !result_kept. rewrite (keep_at _ (blocks_at (a ++ b)) (blocks_at (a ++ x :: b))); [reflexivity|].
  intros y p Y I. unfold blocks_at. rewrite !flat_map_app. cbn [flat_map]. destruct (ex_act x); try reflexivity. destruct (list_eq_dec string_dec (ex_path x) p) as [E|_]; [|reflexivity]. subst p. destruct (proj1 (proj1 (G y Y) _ I) IN).
Qed.
Print Assumptions exceptions_for_gone_requirements_leave_the_rules_alone.

(** In a loaded area the conditions of assertions are decided, *)
Lemma loaded_parts c tm st es all s u : load_area c tm st es all s = Ok u ->
  (forall n, ~ has_requirement s n -> good (away n) ["$"] (u_result u)) /\ (forall x, In x (u_common u) -> exists p, of_common p /\ good of_common p x).
Proof.
  unfold load_area. intro H. destruct (mapr _ (ar_emphases s)); cbn [bind] in H; [|discriminate]. destruct (load_top _ _ _ _ _ _) as [t|] eqn:L; cbn [bind] in H; [|discriminate]. destruct (required_of _ t) as [cs|]; cbn [bind] in H; [|discriminate].
  destruct (load_limits _ c _); cbn [bind] in H; [|discriminate]. destruct (ar_bad s); [discriminate|]. destruct (prepare_common _ _ _ _ _ _ _) as [l0|] eqn:C; cbn [bind] in H; [|discriminate]. injection H as <-. cbn [u_result u_common]. split.
  - intros n NONE. rewrite result_kept. apply keep_good. eapply top_parts; eauto.
  - intros x I. eapply common_parts; eauto.
Qed.
Lemma tidy_decided clean n : tidy_tree clean n -> decided n.
Proof. intros T x a P I. exact (proj1 (proj2 (T x P) a I)). Qed.
(** and an exception for a requirement that the area does not have is apart from it. *)
Lemma gone_is_apart c tm st es all s u x : load_area c tm st es all s = Ok u -> for_gone_requirement s x -> decided_area u /\ apart_from u x.
Proof.
  intros L [n [post [NONE SH]]]. destruct (loaded_parts _ _ _ _ _ _ _ L) as [G C]. specialize (G n NONE).
  assert (NC : n <> "Common Requirements") by (intro E; apply NONE; apply hr_common; exact E).
  assert (IN : In ("%" ++ n)%string (ex_path x)) by (destruct SH as [->|[k ->]]; cbn [In]; auto).
  assert (CO : forall r post', ex_path x <> "$" :: "%Common Requirements" :: r ++ post') by (intros r post' E; destruct SH as [SH|[k SH]]; rewrite SH in E; [injection E as E _; congruence|discriminate E]).
  assert (CP : forall m p, In m (u_common u) -> p = path_of m \/ names_part m p -> of_common p).
  { intros m p I [->|[y [Y J]]]; destruct (C m I) as [p0 [OC [T [t [E _]]]]]; [rewrite E; apply common_more, OC|exact (proj1 (proj1 (T y Y) p J))]. }
  split; [split; [exact (tidy_decided _ _ (proj1 G))|intros m I; destruct (C m I) as [p0 [_ [T _]]]; exact (tidy_decided _ _ T)]|]. split; [|split].
  - intros [[y [Y J]]|[[y [q [v [Y [A [V E]]]]]]|[m [I [N|[y [q [v [Y [A [V E]]]]]]]]]]].
    + exact (proj1 (proj1 (proj1 G y Y) _ J) IN).
    + destruct (proj2 (proj1 G y Y) q A) as [_ F]. specialize (F v V). rewrite <- E in F. exact (F IN).
    + destruct (CP m _ I (or_intror N)) as [r E]. apply (CO r []). rewrite app_nil_r. exact E.
    + destruct (C m I) as [p0 [_ [T _]]]. destruct (proj2 (T y Y) q A) as [_ F]. destruct (F v V) as [r E']. rewrite <- E in E'. apply (CO r []). rewrite app_nil_r. exact E'.
  - intros q A [r E]. assert (AQ : away n q) by (destruct (asked_names _ _ A) as [y [Y J]]; exact (proj1 (proj1 (proj1 G y Y) q J))).
    destruct (good_asked _ _ _ _ G A) as [[k1 [k2 [r' EQ]]]|[t [r' [NE EQ]]]]; subst q; destruct SH as [SH|[k SH]]; rewrite SH in E; cbn in E.
    + discriminate E.
    + injection E as _ E _. apply AQ. subst k2. right. right. right. left. reflexivity.
    + injection E as E _. apply AQ. subst t. right. left. reflexivity.
    + injection E as E _. exact (NE (eq_sym E)).
  - intros m p I P [r E]. destruct (CP m p I P) as [r' ->]. exact (CO r' r E).
Qed.
(** So such an exception changes nothing at all: the rules that are loaded are the same, and what
    is tried and found is the same. *)
Theorem exceptions_for_gone_requirements_change_nothing :
  forall c tm st a x b all_emphases s ord nord u, for_gone_requirement s x -> not_forced x -> (forall l, Permutation (nord l) l) ->
  load_area c tm st (a ++ b) all_emphases s = Ok u ->
  load_area c tm st (a ++ x :: b) all_emphases s = Ok u /\ same_solutions ord nord u st (a ++ b) (a ++ x :: b).
Proof.
  intros c tm st a x b all s ord nord u GR NF NO L. split; [rewrite exceptions_for_gone_requirements_leave_the_rules_alone by exact GR; exact L|].
  destruct (gone_is_apart _ _ _ _ _ _ _ _ L GR) as [D A]. apply exceptions_apart_change_nothing; assumption.
Qed.
Print Assumptions exceptions_for_gone_requirements_change_nothing.

(** A requirement and a course; the exception is for a requirement of an earlier year. *)
Definition two_rules : aspec :=
  mkAspec (Some "Sample") (Some "concentration") (Some "B.A.") (Some "100") [] (Some (d_all [d_ref "Core"; d_course "B 1"])) (Some [("Core", mkRbody (Some (d_course "Z 9")) None false false true None false)]) None [] false.
Definition waive_at (name : string) : exc := mkExc ["$"; ".count"; "[0]"; ("%" ++ name)%string] (AOverride Waived).
Lemma course_defines id n : ~ defines (d_course id) n.
Proof. intro D. inversion D; discriminate. Qed.
Example gone_requirement_example :
  for_gone_requirement two_rules (waive_at "Seminar") /\ not_forced (waive_at "Seminar") /\ (exists u, load_area sample_const [] both_taken [] false two_rules = Ok u) /\
  statuses two_rules both_taken [waive_at "Seminar"] = statuses two_rules both_taken [] /\ statuses two_rules both_taken [waive_at "Core"] <> statuses two_rules both_taken [].
Proof.
  split; [|split; [intros k E; discriminate E|split; [eexists; vm_compute; reflexivity|split; [vm_compute; reflexivity|vm_compute; discriminate]]]].
  exists "Seminar", []. split; [|right; exists "[0]"; reflexivity]. intros [d E D|b I|k b I D|e I D|t E|E].
  - injection E as <-. inversion D as [? x t n EC| |? k l x n EK LI I D'|? ? ? EN|? ? ? ? EN]; subst; try discriminate. injection EK as <-. inversion LI; subst; try discriminate.
    match goal with A : rk_all _ = Some _ |- _ => injection A as <- end. destruct I as [<-|[<-|[]]]; inversion D'; discriminate.
  - destruct I as [I|[]]. discriminate I.
  - destruct I as [I|[]]. injection I as <- <-. inversion D as [? d n ER D'|? ? ? ? ER|? ? ? ? ? ER]; subst; try discriminate. injection ER as <-. exact (course_defines _ _ D').
  - destruct I.
  - discriminate E.
  - discriminate E.
Qed.

(** What C182 asks of the assertions of an area is true of every area that has been loaded. *)
Theorem loaded_areas_are_decided :
  forall c tm st es all_emphases s u, load_area c tm st es all_emphases s = Ok u -> decided_area u.
Proof.
  intros c tm st es all s u L. split; [|intros m I; destruct (proj2 (loaded_parts _ _ _ _ _ _ _ L) m I) as [p [_ [T _]]]; exact (tidy_decided _ _ T)].
  destruct (area_top _ _ _ _ _ _ _ L) as (ks & n & d & adds & -> & _ & _ & W & _). apply loaded_exactly in W.
  assert (G := proj1 (parts_all (fun _ => True) (fun _ => True) (fun _ _ _ _ => Logic.I) (fun _ _ _ _ => Logic.I) (load_ctx st es) c tm) _ _ _ _ _ W Logic.I (fun _ _ => Logic.I) (fun _ _ _ => conj Logic.I (fun _ _ => Logic.I)) (fun _ _ => conj Logic.I (fun _ _ => Logic.I)) n eq_refl).
  apply (tidy_decided (fun _ => True)). apply keep_tidy. exact (proj1 G).
Qed.
Print Assumptions loaded_areas_are_decided.
