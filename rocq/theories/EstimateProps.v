(** C111: the number of solutions announced before an audit starts *)
From Coq Require Import List Bool Arith ZArith QArith String Lia.
From Verif Require Import Prelude Dec Status Transcript Course Claims Exceptions Op Context CondExpr Paths Predicate Limit Apply Assertion Query CourseRule Tree Solve Area Loader AreaLoad Estimate.
From Verif Require Import TreeSpec TreeSolSpec LoaderSpec LoaderProofs LoaderTree AreaLoadSpec AreaLoadProofs EstimateSpec EstimateProofs EstimateLoad.
From Verif Require Import CommonProps LoaderProps AreaLoadProps AreaEndProps.
From Verif Require Import Tree.
Import ListNotations.
Local Open Scope string_scope.
Local Open Scope list_scope.

(** A loaded tree meets what the estimates rely on: queries are marked as waived exactly when
    they are, and joined paths tell the children of every rule apart - whatever they are
    called. *)
Theorem loaded_areas_are_orderly :
  forall c tm st es all s u, load_area c tm st es all s = Ok u ->
  forall lt, orderly (limited_ctx u st es lt) (u_result u).
Proof.
  intros c tm st es all s u H lt x P. destruct (area_top _ _ _ _ _ _ _ H) as (ks & n & d & adds & EU & _ & _ & L & _).
  apply loaded_exactly in L. destruct (proj1 (orderly_all (load_ctx st es) c tm) _ _ _ _ _ L n eq_refl) as [O _].
  rewrite EU in P. apply part_keep in P. destruct P as (m & P & ->). specialize (O m P). destruct m; cbn [keep_out in_order] in *; try exact I.
  - exact O.
  - intros a b Ia Ib E. apply in_map_iff in Ia. destruct Ia as [a0 [<- Ia]]. apply in_map_iff in Ib. destruct Ib as [b0 [<- Ib]]. rewrite !path_keep in *. apply O; auto.
Qed.
Print Assumptions loaded_areas_are_orderly.

(** If no course rule has more than one class to choose from, the announced number is never
    less than the number of solutions. *)
Theorem announced_number_bounds_solutions :
  forall ord nord c tm st es all s u k, load_area c tm st es all s = Ok u ->
  (forall lt, In lt (g_items (transcripts ord u st es)) -> unrepeated ord (limited_ctx u st es lt) (u_result u)) ->
  area_estimate ord nord u st es = Ok k ->
  (Z.of_nat (List.length (g_items (area_solutions ord nord u st es))) <= k)%Z.
Proof.
  intros ord nord c tm st es all s u k L U H. unfold area_estimate in H. destruct (mapr _ _) as [ns|] eqn:M; cbn [bind] in H; [|discriminate].
  destruct (g_exn (transcripts ord u st es)) eqn:X; [discriminate|]. injection H as <-. rewrite add_zsum. unfold area_solutions. rewrite X.
  apply (from_bound ord nord u st es _ None ns); [|exact M]. intros lt I. split; [eapply loaded_areas_are_orderly; eauto|apply U; exact I].
Qed.
Print Assumptions announced_number_bounds_solutions.

(** If moreover every course rule has a class, the numbers announced for the queries are exact,
    conditionals have a branch for their condition, and nothing raises, then the announced
    number is the number of solutions. *)
Theorem announced_number_is_exact :
  forall ord nord c tm st es all s u k, load_area c tm st es all s = Ok u ->
  (forall lt, In lt (g_items (transcripts ord u st es)) -> exact_leaves ord (limited_ctx u st es lt) (u_result u)) ->
  area_estimate ord nord u st es = Ok k ->
  g_exn (area_solutions ord nord u st es) = None ->
  Z.of_nat (List.length (g_items (area_solutions ord nord u st es))) = k.
Proof.
  intros ord nord c tm st es all s u k L U H N. unfold area_estimate in H. destruct (mapr _ _) as [ns|] eqn:M; cbn [bind] in H; [|discriminate].
  destruct (g_exn (transcripts ord u st es)) eqn:X; [discriminate|]. injection H as <-. rewrite add_zsum. unfold area_solutions in *. rewrite X in *.
  apply (from_exact ord nord u st es _ None ns); [|exact M|exact N]. intros lt I. split; [eapply loaded_areas_are_orderly; eauto|apply U; exact I].
Qed.
Print Assumptions announced_number_is_exact.
(** A conditional without a branch for its condition announces no solution, wherever it stands,
    and offers none. *)
Theorem missing_branches_announce_none :
  forall ord nord cx k i b f t, (forall y, ~ in_force i b f y) ->
  estimate ord cx (NCond k i b f) = Ok 0%Z /\ top_estimate ord nord cx (NCond k i b f) = Ok 0%Z /\
  solutions ord cx (NCond k i b f) = gnil /\ top_solutions ord nord cx t (NCond k i b f) = (gnil, t).
Proof.
  intros ord nord cx k i b f t N. cbn [estimate top_estimate solutions top_solutions].
  destruct (e_result (d_cond i)) as [[|]|] eqn:E; [exfalso; eapply N; constructor; exact E| |repeat split].
  destruct f as [x|]; [exfalso; eapply N; econstructor; [exact E|reflexivity]|repeat split].
Qed.
Print Assumptions missing_branches_announce_none.

(** a check of all parts that can be computed *)
Fixpoint all_parts (f : node -> bool) (n : node) : bool :=
  f n && match n with
         | NCount _ _ l => forallb (all_parts f) l
         | NReq _ _ (Some x) => all_parts f x
         | NCond _ _ t fo => all_parts f t && match fo with Some x => all_parts f x | None => true end
         | _ => true
         end.
Lemma all_parts_in f n x : part_of n x -> all_parts f n = true -> f x = true.
Proof.
  induction 1 as [n|k i items x y I P IH|k i x y P IH|k i t fo y P IH|k i t x y P IH]; intro H.
  - destruct n; cbn in H; apply andb_true_iff in H; apply H.
  - cbn in H. apply andb_true_iff in H. destruct H as [_ H]. eapply forallb_forall in H; eauto.
  - cbn in H. apply andb_true_iff in H. apply IH, H.
  - cbn in H. apply andb_true_iff in H. destruct H as [_ H]. apply andb_true_iff in H. apply IH, H.
  - cbn in H. apply andb_true_iff in H. destruct H as [_ H]. apply andb_true_iff in H. apply IH, H.
Qed.
Definition exactly (ord : list course -> list course) (cx : ctx) (x : node) : bool :=
  match x with
  | NCourse _ _ => match solutions ord cx x with Gen [_] None => true | _ => false end
  | NQuery _ q => match g_exn (q_solutions ord cx q), q_estimate ord cx q with
                  | None, Ok k => (k =? Z.of_nat (List.length (g_items (q_solutions ord cx q))))%Z
                  | _, _ => false end
  | NProf _ _ _ => match g_exn (solutions ord cx x) with None => true | _ => false end
  | NCond _ _ _ _ => false
  | _ => true
  end.
Lemma exactly_ok ord cx x : exactly ord cx x = true -> leaf_exact ord cx x.
Proof.
  destruct x as [k r|k q| | |k i t f|k i o]; cbn [exactly leaf_exact]; intro H; auto; try discriminate.
  - destruct (solutions ord cx (NCourse k r)) as [[|a [|b l]] [e|]]; try discriminate. eauto.
  - destruct (g_exn (q_solutions ord cx q)); [discriminate|]. destruct (q_estimate ord cx q) as [z|]; [|discriminate]. apply Z.eqb_eq in H. rewrite H. auto.
  - destruct (g_exn (solutions ord cx (NProf k i o))); [discriminate|reflexivity].
Qed.
Definition same (l : list course) := l.
Definition samen (l : list node) := l.
Definition announced (s : aspec) (st : student) (es : list exc) : option (res Z * nat) :=
  match load_area sample_const [] st es false s with
  | Ok u => Some (area_estimate same samen u st es, List.length (g_items (area_solutions same samen u st es)))
  | Err _ => None
  end.
Definition overlapping : aspec := sample_area (d_all [d_course "A 1"; any_course; d_any [any_course; d_course "B 1"]]) [].
(** two queries and a choice over the same four classes *)
Example announced_example :
  announced overlapping (enrolled [] four) [] = Some (Ok 105%Z, 105%nat) /\
  exists u, load_area sample_const [] (enrolled [] four) [] false overlapping = Ok u /\
    (forall lt, In lt (g_items (transcripts same u (enrolled [] four) [])) -> exact_leaves same (limited_ctx u (enrolled [] four) [] lt) (u_result u)) /\
    (forall lt, In lt (g_items (transcripts same u (enrolled [] four) [])) -> unrepeated same (limited_ctx u (enrolled [] four) [] lt) (u_result u)).
Proof.
  split; [vm_compute; reflexivity|]. destruct (load_area sample_const [] (enrolled [] four) [] false overlapping) as [u|] eqn:L; [|vm_compute in L; discriminate]. exists u. split; [reflexivity|].
  assert (C : forallb (fun lt => all_parts (exactly same (limited_ctx u (enrolled [] four) [] lt)) (u_result u)) (g_items (transcripts same u (enrolled [] four) [])) = true)
    by (vm_compute in L; injection L as <-; vm_compute; reflexivity).
  assert (E : forall lt, In lt (g_items (transcripts same u (enrolled [] four) [])) -> exact_leaves same (limited_ctx u (enrolled [] four) [] lt) (u_result u)).
  { intros lt I x P. apply exactly_ok. eapply all_parts_in; [exact P|]. eapply forallb_forall in C; eauto. }
  split; [exact E|]. intros lt I x P. specialize (E lt I x P). destruct x; cbn [leaf_exact one_candidate] in *; try exact Logic.I. destruct E as [y ->]. cbn. lia.
Qed.
(** a waived query counts once; so does a rule that cannot be met *)
Example announced_once_example :
  announced overlapping (enrolled [] four) [mkExc ["$"; ".count"; "[1]"; ".query"] (AOverride Waived)] = Some (Ok 15%Z, 15%nat) /\
  announced overlapping (enrolled [] []) [] = Some (Ok 1%Z, 1%nat).
Proof. vm_compute. repeat split; reflexivity. Qed.

(** A class that was taken twice is announced as one choice and tried as two: the announced
    number does not bound the number of solutions. *)
Definition announced_number_bounds_all_solutions : Prop :=
  forall ord nord c tm st es all s u k, load_area c tm st es all s = Ok u -> area_estimate ord nord u st es = Ok k ->
  (Z.of_nat (List.length (g_items (area_solutions ord nord u st es))) <= k)%Z.
Definition twice : list course := map (fun x => taken (fst x) (snd x) full GA GoGrade false) [("1", "A"); ("2", "A"); ("3", "B")].
Definition repeated : aspec := sample_area (d_all [d_any [d_course "A 1"; d_course "B 1"]; d_any [d_course "A 1"; d_course "B 1"]]) [].
Theorem announced_number_bounds_all_solutions_refuted :
  ~ announced_number_bounds_all_solutions /\ announced repeated (enrolled [] twice) [] = Some (Ok 9%Z, 25%nat).
Proof.
  split; [|vm_compute; reflexivity]. intro H.
  destruct (load_area sample_const [] (enrolled [] twice) [] false repeated) as [u|] eqn:L; [|vm_compute in L; discriminate].
  specialize (H same samen _ _ _ _ _ _ _ 9%Z L). vm_compute in L. injection L as <-.
  assert (B := H ltac:(vm_compute; reflexivity)). vm_compute in B. apply B. reflexivity.
Qed.
Print Assumptions announced_number_bounds_all_solutions_refuted.
