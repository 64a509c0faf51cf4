(** Property theorems about loading areas of study (C99 to C106). *)
From Coq Require Import List ZArith QArith Bool Ascii String Lia Sorted Permutation.
From Verif Require Import Transcript Prelude Dec Status Course Claims Exceptions Op Context CondExpr Paths Predicate Limit LimitLoad Apply Assertion Query CourseRule Tree Solve Driver Area Loader AreaLoad.
From Verif Require Import PathsSpec LimitSpec SolveSpec TreeSpec TreeSolSpec TreeAskSpec TreeAuditSpec AreaSpec LoaderSpec AreaLoadSpec AreaOnceSpec CommonSpec.
From Verif Require Import ClaimsProofs PredicateProofs ExceptionsProofs TreeSolProofs TreeProofs TreeAskProps AreaProofs LoaderProofs LoaderProps CommonProps AreaLoadProofs LimitLoadProps.
Import ListNotations.
Local Open Scope string_scope.
Local Open Scope list_scope.

Lemma department_plain st code o : plain_departments st -> department (t_areas st) code o -> forall d, o = Some d -> starts_dollar d = false.
Proof.
  intros P H d E. destruct H as [pre a post EA _ _|_]; [|discriminate]. eapply P; [|exact E]. rewrite EA, in_app_iff. right. left. reflexivity.
Qed.
Lemma valid_iff c tm st e : plain_departments st -> ((exists x, check_emphasis c tm st e = Ok x) <-> valid_alone c tm st e).
Proof.
  intro P. unfold check_emphasis, valid_alone. split.
  - intros [x H]. destruct (load_top _ _ _ _ _ _) as [n|] eqn:L; cbn [bind] in H; [|discriminate]. destruct (load_limits _ c _) as [ls|] eqn:LM; cbn [bind] in H; [|discriminate]. destruct (em_bad e); [discriminate|]. split; [reflexivity|]. split; [exists ls; apply limits_are_loaded_exactly; exact LM|]. exists n. apply load_top_exact. exact L.
  - intros [B [[ls LM] [n H]]]. apply load_top_exact in H. rewrite H. cbn [bind]. apply limits_are_loaded_exactly in LM. rewrite LM. cbn [bind]. rewrite B.
    match goal with |- context [prepare_common ?cx c tm ?dg ?dp ?ar ?cd] => destruct (common_rules_load cx c tm dg dp ar cd) as (r & E & _) end.
    + eapply department_plain; [exact P|]. apply dept_of_exact. reflexivity.
    + rewrite E. eexists. reflexivity.
Qed.
Lemma all_valid c tm st l : plain_departments st -> ((exists x, mapr (check_emphasis c tm st) l = Ok x) <-> forall e, In e l -> valid_alone c tm st e).
Proof.
  intro P. induction l as [|e l IH]; cbn [mapr]; [split; [intros _ e []|eexists; reflexivity]|]. split.
  - intros [x H] e' I. destruct (check_emphasis c tm st e) as [y|] eqn:E; cbn [bind] in H; [|discriminate]. destruct (mapr _ l) as [ys|] eqn:M; cbn [bind] in H; [|discriminate].
    destruct I as [<-|I]; [apply (valid_iff c tm st e P); eauto|apply IH; eauto].
  - intro H. destruct (proj2 (valid_iff c tm st e P)) as [y E]; [apply H; left; reflexivity|]. rewrite E. cbn [bind].
    destruct (proj2 IH) as [ys M]; [intros e' I; apply H; right; exact I|]. rewrite M. cbn [bind]. eexists. reflexivity.
Qed.
Lemma picked_chosen st all l : picked (fun e => declared st e \/ all = true) l (chosen_emphases st all l).
Proof.
  exists (fun e => existsb (String.eqb (em_key e)) (map a_code (filter (fun a => match a_kind a with AkEmphasis => true | _ => false end) (t_areas st))) || all). split; [|reflexivity].
  intros e I. assert (H := chosen_iff st all l e). unfold chosen_emphases in H. rewrite filter_In in H. tauto.
Qed.
Lemma picked_once {A} (P : A -> Prop) l a b : picked P l a -> picked P l b -> a = b.
Proof.
  intros (f & F & ->) (g & G & ->). apply filter_ext_in. intros x I. specialize (F x I). specialize (G x I). destruct (f x), (g x); intuition congruence.
Qed.

(** ** C99 *)

(** An area is loaded as its specification, its emphases and the exceptions say, and it is
    refused in all other cases. *)
Theorem area_loaded_exactly :
  forall c tm st es all s u, plain_departments st ->
  (load_area c tm st es all s = Ok u <-> exists chosen n cs, loaded_as c tm st es all s u chosen n cs).
Proof.
  intros c tm st es all s u P. unfold load_area. split.
  - intro H. destruct (mapr _ (ar_emphases s)) as [x|] eqn:V; cbn [bind] in H; [|discriminate].
    destruct (load_top _ _ _ _ _ _) as [n|] eqn:L; cbn [bind] in H; [|discriminate]. destruct (required_of _ n) as [cs|] eqn:R; cbn [bind] in H; [|discriminate].
    destruct (load_limits _ c _) as [ls|] eqn:LM; cbn [bind] in H; [|discriminate].
    destruct (ar_bad s) eqn:B; [discriminate|]. destruct (prepare_common _ _ _ _ _ _ _) as [common|] eqn:C; cbn [bind] in H; [|discriminate]. injection H as <-.
    exists (chosen_emphases st all (ar_emphases s)), n, cs. constructor; cbn [u_result u_name u_kind u_degree u_code u_dept u_limit u_multi u_common]; try reflexivity.
    + apply all_valid; eauto.
    + exact B.
    + apply picked_chosen.
    + apply load_top_exact. exact L.
    + exact R.
    + apply result_kept.
    + apply dept_of_exact. reflexivity.
    + apply limits_are_loaded_exactly. exact LM.
    + exact C.
  - intros (chosen & n & cs & H). destruct H as [V B CH W R RS N K D CO DE LI MU CM]. destruct (proj2 (all_valid c tm st (ar_emphases s) P) V) as [x ->]. cbn [bind].
    rewrite (picked_once _ _ _ _ (picked_chosen st all (ar_emphases s)) CH). apply load_top_exact in W. rewrite W. cbn [bind]. rewrite R. cbn [bind]. apply limits_are_loaded_exactly in LI. rewrite LI. cbn [bind]. rewrite B.
    rewrite CO in DE, CM. apply dept_of_exact in DE. rewrite DE. rewrite D in CM. rewrite CM. cbn [bind]. rewrite result_kept. destruct u. cbn in *. subst. reflexivity.
Qed.
Print Assumptions area_loaded_exactly.
(** ** C100 *)
Lemma area_top c tm st es all s u : load_area c tm st es all s = Ok u ->
  exists ks n d adds, u_result u = keep_out ks (blocks_at es) n /\ ar_result s = Some d /\
    (Forall2 emphasis_adds (chosen_emphases st all (ar_emphases s)) adds \/ adds = []) /\
    load_rule (load_ctx st es) c tm d (Ok (additions (load_ctx st es) c tm (List.concat adds))) (load_reqs (load_ctx st es) c tm (reqs_of (ar_reqs s))) ["$"] = Ok (Some n) /\
    (exists cs, required_of (load_ctx st es) n = Ok cs /\ ks = map c_clbid cs) /\ load_limits (load_ctx st es) c (ar_limit s) = Ok (u_limit u) /\ u_multi u = named_segments (ar_multi s).
Proof.
  unfold load_area. intro H. destruct (mapr _ (ar_emphases s)) as [x|] eqn:V; cbn [bind] in H; [|discriminate].
  destruct (load_top _ _ _ _ _ _) as [n|] eqn:L; cbn [bind] in H; [|discriminate]. destruct (required_of _ n) as [cs|] eqn:R; cbn [bind] in H; [|discriminate].
    destruct (load_limits _ c _) as [ls|] eqn:LM; cbn [bind] in H; [|discriminate].
  destruct (ar_bad s) eqn:B; [discriminate|]. destruct (prepare_common _ _ _ _ _ _ _) as [common|] eqn:C; cbn [bind] in H; [|discriminate]. injection H as <-.
  cbn [u_result u_limit u_multi]. apply top_loaded in L. destruct L as (d & adds & E & F & L). exists (map c_clbid cs), n, d, adds. rewrite result_kept. repeat (split; [reflexivity || assumption|]). split; [eauto|]. split; reflexivity.
Qed.
(** The tree of a loaded area holds nothing but rules that have not been audited. *)
Theorem loaded_area_is_unaudited :
  forall c tm st es all s u, load_area c tm st es all s = Ok u -> rule_tree (u_result u) /\ unaudited (u_result u).
Proof.
  intros c tm st es all s u H. destruct (area_top _ _ _ _ _ _ _ H) as (ks & n & d & adds & -> & _ & _ & L & _). destruct (loaded_is_unaudited _ _ _ _ _ _ _ _ L) as [R U]. split.
  - intros x P. apply part_keep in P. destruct P as (m & P & ->). rewrite kind_keep. apply R, P.
  - intros x P. apply part_keep in P. destruct P as (m & P & ->). destruct (U m P) as [A B]. rewrite kind_keep. split; [exact A|]. intros k i r E. destruct m; try discriminate E. eapply B, E.
Qed.
Print Assumptions loaded_area_is_unaudited.
(** No two parts of it have the same path. *)
Theorem loaded_area_places_differ :
  forall c tm st es all s u, load_area c tm st es all s = Ok u ->
  (forall chosen, picked (fun e => declared st e \/ all = true) (ar_emphases s) chosen -> distinct_names chosen) ->
  (forall e, In e (ar_emphases s) -> distinct_requirements e) ->
  NoDup (places (u_result u)) /\ forall q, In q (places (u_result u)) -> below ["$"] q.
Proof.
  intros c tm st es all s u H DN DR. destruct (area_top _ _ _ _ _ _ _ H) as (ks & n & d & adds & -> & _ & F & L & _). rewrite places_keep.
  eapply loaded_places_differ; [|exact L]. destruct F as [F| ->]; [|constructor]. eapply (added_keys_distinct (chosen_emphases st all (ar_emphases s))); [apply DN, picked_chosen| |exact F].
  intros e I. apply DR. apply chosen_iff in I. apply I.
Qed.
Print Assumptions loaded_area_places_differ.
Lemma places_head n : exists l, places n = path_of n :: l.
Proof. destruct n; cbn; eauto. Qed.
Lemma part_places n m : part_of n m -> NoDup (places n) -> NoDup (places m).
Proof.
  induction 1 as [n|k i items x y I P IH|k i x y P IH|k i t f y P IH|k i t x y P IH]; intro N; [exact N|apply IH|apply IH|apply IH|apply IH]; cbn in N; inversion N as [|? ? _ N']; subst.
  - clear - N' I. induction items as [|z l IHl]; [destruct I|]. cbn in N'. destruct I as [<-|I]; [apply NoDup_app_l in N'; exact N'|apply IHl; [exact I|apply NoDup_app_r in N'; exact N']].
  - exact N'.
  - apply NoDup_app_l in N'. exact N'.
  - apply NoDup_app_r in N'. exact N'.
Qed.
Lemma part_in_places n m : part_of n m -> incl (places m) (places n).
Proof.
  induction 1 as [n|k i items x y I P IH|k i x y P IH|k i t f y P IH|k i t x y P IH]; intros q J; [exact J| | | |]; right; apply IH in J.
  - apply in_flat_map. eauto.
  - exact J.
  - apply in_app_iff. auto.
  - apply in_app_iff. auto.
Qed.
Lemma children_differ items : NoDup (flat_map places items) -> NoDup (map path_of items).
Proof.
  induction items as [|x l IH]; cbn; intro N; [constructor|]. destruct (places_head x) as [r E]. rewrite E in N. cbn in N. inversion N as [|? ? NI N']; subst. constructor.
  - intro I. apply NI. apply in_app_iff. right. apply in_map_iff in I. destruct I as (y & EY & I). apply in_flat_map. exists y. split; [exact I|]. destruct (places_head y) as [r' ->]. left. exact EY.
  - apply IH. apply NoDup_app_r in N'. exact N'.
Qed.
(** So it meets what the theorem about classes used once asks of an area, if limits of its
    queries can be applied and no two children at the top are declared disjoint. *)
Theorem loaded_area_is_tidy :
  forall c tm st es all s u, load_area c tm st es all s = Ok u ->
  (forall chosen, picked (fun e => declared st e \/ all = true) (ar_emphases s) chosen -> distinct_names chosen) ->
  (forall e, In e (ar_emphases s) -> distinct_requirements e) ->
  ((forall k q, part_of (u_result u) (NQuery k q) -> coherent (q_limit q)) -> as_written (u_result u)) /\
  (one_disjoint (u_result u) -> tidy_top (u_result u)).
Proof.
  intros c tm st es all s u H DN DR. destruct (loaded_area_places_differ _ _ _ _ _ _ _ H DN DR) as [ND BE]. split.
  - intro CO. split; [|exact CO]. destruct (area_top _ _ _ _ _ _ _ H) as (ks & n & d & adds & EU & _ & _ & L & _). rewrite EU. intros r [[k P]|(k & i & k' & P)] FC; apply part_keep in P; destruct P as (m & P & E); destruct m; try discriminate E.
    + injection E as -> ->. destruct (loaded_is_fresh _ _ _ _ _ _ _ _ L _ P) as [_ (_ & _ & _ & _ & A)]. exact (A FC).
    + injection E as -> -> <-. destruct (loaded_is_fresh _ _ _ _ _ _ _ _ L _ P) as [_ (_ & _ & A)]. destruct (A _ _ eq_refl) as [_ (_ & _ & _ & _ & B)]. exact (B FC).
  - intros OD k i items HD. assert (P := heads_part _ _ HD). assert (N := part_places _ _ P ND). cbn in N. inversion N as [|? ? _ N']; subst. split; [split|split].
    + apply children_differ. exact N'.
    + apply Forall_forall. intros x I. destruct (BE (path_of x)) as (q & _ & W & ->).
      { eapply part_in_places; [exact P|]. right. apply in_flat_map. exists x. split; [exact I|]. destruct (places_head x) as [r ->]. left. reflexivity. }
      constructor; [|exact W]. right. intros t E. discriminate.
    + destruct (area_top _ _ _ _ _ _ _ H) as (ks & n & d & adds & EU & _ & _ & L & _). rewrite EU in P. apply part_keep in P. destruct P as (m & P & E). destruct m; try discriminate E. injection E as -> -> ->.
      destruct (loaded_is_fresh _ _ _ _ _ _ _ _ L _ P) as [_ [_ A]]. exact A.
    + exact (OD k i items HD).
Qed.
Print Assumptions loaded_area_is_tidy.

(** ** Samples *)
Definition pointer (kind : area_kind) (code : string) : area_ptr := mkArea code AsDeclared kind code "B.A." (Some "X") None None.
Definition enrolled (areas : list area_ptr) (l : list course) : student := mkStudent l l areas [] [] no_proficiencies.
Definition need (id : string) : rbody := body (Some (d_course id)) None.
Definition emph (key name : string) (b : rbody) : emphasis := mkEmphasis key (Some name) b None None None false.
(** lists its requirements, which are declared *)
Definition one : emphasis := emph "201" "One" (body (Some (d_all [d_ref "X"; d_ref "Y"])) (Some [("X", need "B 1"); ("Y", need "C 1")])).
(** lists requirements written in place *)
Definition two : emphasis := emph "202" "Two" (body (Some (d_all [d_named "X" (need "D 1"); d_named "Z" (need "E 1")])) None).
(** asks for something else *)
Definition three : emphasis := emph "203" "Three" (body (Some (d_all [d_course "F 1"])) None).
Definition sample_area (top : rdata) (ems : list emphasis) : aspec :=
  mkAspec (Some "Sample") (Some "major") (Some "B.A.") (Some "100") ems (Some top) (Some [("Core", need "A 1")]) None [] false.
Definition result_places (r : res study) : list path := match r with Ok u => places (u_result u) | Err _ => [] end.

(** Emphases that list requirements add them one by one, others are added as a whole; those
    not declared add nothing. *)
Example area_loaded_example :
  let st := enrolled [pointer AkMajor "100"; pointer AkEmphasis "201"; pointer AkEmphasis "203"] [] in
  plain_departments st /\
  result_places (load_area sample_const [] st [] false (sample_area (d_all [d_ref "Core"]) [one; two; three])) =
    [["$"; ".count"]; ["$"; ".count"; "[0]"; "%Core"]; ["$"; ".count"; "[0]"; "%Core"; "*A 1"];
     ["$"; ".count"; ".emphasis"; "%Emphasis: One → X"]; ["$"; ".count"; ".emphasis"; "%Emphasis: One → X"; "*B 1"];
     ["$"; ".count"; ".emphasis"; "%Emphasis: One → Y"]; ["$"; ".count"; ".emphasis"; "%Emphasis: One → Y"; "*C 1"];
     ["$"; ".count"; ".emphasis"; "%Emphasis: Three"]; ["$"; ".count"; ".emphasis"; "%Emphasis: Three"; ".count"]; ["$"; ".count"; ".emphasis"; "%Emphasis: Three"; ".count"; "[0]"; "*F 1"]].
Proof.
  split; [|vm_compute; reflexivity]. intros a d [<-|[<-|[<-|[]]]] E; injection E as <-; reflexivity.
Qed.
(** the hypotheses of the theorems above are met *)
Example area_tidy_example :
  let st := enrolled [pointer AkMajor "100"; pointer AkEmphasis "201"; pointer AkEmphasis "202"] [] in
  let s := sample_area (d_all [d_ref "Core"]) [one; two; three] in
  (forall chosen, picked (fun e => declared st e \/ false = true) (ar_emphases s) chosen -> distinct_names chosen) /\
  (forall e, In e (ar_emphases s) -> distinct_requirements e) /\
  result_places (load_area sample_const [] st [] false s) <> [].
Proof.
  cbn zeta. split; [|split; [|vm_compute; discriminate]].
  - intros chosen P. assert (E := picked_once _ _ _ _ P (picked_chosen _ false _)). assert (V : chosen = [one; two]) by (rewrite E; vm_compute; reflexivity). clear E P. subst chosen. split.
    + repeat constructor; cbn [map In]; intuition discriminate.
    + intros a b n m x [<-|[<-|[]]] [<-|[<-|[]]] A B; injection A as <-; injection B as <-; discriminate.
  - intros e [<-|[<-|[<-|[]]]] l E; try discriminate E. injection E as <-. repeat constructor; cbn [map In fst]; intuition discriminate.
Qed.
(** Without them, two children can have the same path: an emphasis called as another goes on. *)
Definition all_places_differ : Prop :=
  forall c tm st es all s u, load_area c tm st es all s = Ok u -> NoDup (places (u_result u)).
Theorem all_places_differ_refuted : ~ all_places_differ.
Proof.
  intro H. set (st := enrolled [pointer AkEmphasis "201"; pointer AkEmphasis "204"] []). set (four := emph "204" "One → X" (body (Some (d_all [d_course "F 1"])) None)).
  destruct (load_area sample_const [] st [] false (sample_area (d_all [d_ref "Core"]) [one; four])) as [u|] eqn:E; [|vm_compute in E; discriminate].
  assert (N := H _ _ _ _ _ _ _ E). vm_compute in E. injection E as <-. vm_compute in N.
  repeat match goal with N : NoDup (?x :: _) |- _ => inversion N as [|? ? NI N']; subst; clear N; rename N' into N; try (apply NI; cbn [In]; tauto); clear NI end.
Qed.
Print Assumptions all_places_differ_refuted.
