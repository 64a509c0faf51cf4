(** Property theorems about loading rules from a specification (C91 to C96). *)
From Coq Require Import List ZArith QArith Bool Ascii String Lia.
From Verif Require Import Prelude Dec Status Course Claims Exceptions Op Context CondExpr Predicate Limit Assertion Query CourseRule Tree Loader.
From Verif Require Import PathsSpec TreeSolSpec TreeAuditSpec ClaimsProofs QueryProofs ClaimsProps CourseRuleProps LoaderSpec LoaderProofs LoaderTree AreaOnceSpec.
Import ListNotations.
Local Open Scope string_scope.
Local Open Scope list_scope.

(** ** Sample specifications *)
Definition rd0 := mkRd None None None None None None None None.
Definition d_course (id : string) : rdata := mkRd None None (Some (by_id id)) None None None None None.
Definition d_ref (name : string) : rdata := mkRd None None None None None None None (Some name).
Definition d_named (name : string) (b : rbody) : rdata := mkRd None None None None None None (Some (name, b)) None.
Definition d_template (key : string) : rdata := mkRd (Some key) None None None None None None None.
Definition rk0 := mkRcount None None None None None None false None false.
Definition d_count (k : rcount) : rdata := mkRd None None None None None (Some k) None None.
Definition d_all (l : list rdata) : rdata := d_count (mkRcount (Some l) None None None None None false None false).
Definition d_any (l : list rdata) : rdata := d_count (mkRcount None (Some l) None None None None false None false).
Definition d_both (l : list rdata) : rdata := d_count (mkRcount None None (Some l) None None None false None false).
Definition d_of (z : Z) (l : list rdata) : rdata := d_count (mkRcount None None None None (Some l) (Some (CvInt z)) false None false).
Definition d_if (x : xdata) (t : rdata) (f : option rdata) (hide : bool) : rdata := mkRd None None None None (Some (mkRcond x (Some t) f hide false)) None None None.
Definition body (d : option rdata) (reqs : option (list (string * rbody))) : rbody := mkRbody d reqs false false true None false.
Definition some_const : constants := mkConst 0 0 (inl "") "".
Definition load_reqs (cx : ctx) (c : constants) (tm : list (string * list template)) (reqs : list (string * rbody)) : children :=
  map (fun x => (fst x, load_body cx c tm (snd x) (fst x))) reqs.
Definition shape_of (n : node) : list (string * list string) := map (fun q => (last q "", q)) (places n).

(** ** C91 *)

(** What a rule is loaded as is determined by the specification, and a rule that does not have
    the form it describes is refused. *)
Theorem loaded_exactly :
  forall cx c tm ems reqs d p o,
  load_rule cx c tm d (Ok (additions cx c tm ems)) (load_reqs cx c tm reqs) p = Ok o <->
  written cx c tm ems (dget reqs) d p o.
Proof.
  intros. apply (proj1 (exact cx c tm)).
  - intro k. unfold load_reqs. induction reqs as [|[s b] t IH]; cbn; [reflexivity|].
    destruct (String.eqb_spec k s) as [->|N]; [reflexivity|exact IH].
  - intros k b _. apply (proj2 (exact cx c tm)).
  - intros a _. apply (proj2 (exact cx c tm)).
Qed.
Print Assumptions loaded_exactly.
Theorem requirement_loaded_exactly :
  forall cx c tm b name p n, load_body cx c tm b name p = Ok n <-> written_body cx c tm b name p n.
Proof. intros. apply (proj2 (exact cx c tm)). Qed.
Print Assumptions requirement_loaded_exactly.
(** A specification does not describe two different trees. *)
Theorem loaded_once :
  forall cx c tm ems reqs d p o o',
  written cx c tm ems (dget reqs) d p o -> written cx c tm ems (dget reqs) d p o' -> o = o'.
Proof. intros cx c tm ems reqs d p o o' H H'. apply loaded_exactly in H. apply loaded_exactly in H'. congruence. Qed.
Print Assumptions loaded_once.
(** a requirement, a named rule and two courses from a template *)
Definition a_template : template := mkTemplate "HIST" "101" "" "" (Some 2019%Z) "1" "" "" "".
Example loaded_example :
  let o := load_rule (c_ctx [] []) some_const [("t", [a_template; mkTemplate "" "" "" "" None "" "" "Calculus" ""])]
    (d_all [d_ref "Core"; d_named "Extra" (body (Some (d_any [d_course "A 1"; d_course "A 2"])) None); d_template "t"]) (Ok [])
    (load_reqs (c_ctx [] []) some_const [] [("Core", body (Some (d_course "B 1")) None)]) ["$"] in
  match o with
  | Ok (Some (NCount KRule i items)) =>
    n_count i = 4%Z /\ map path_of items =
      [["$"; ".count"; "[0]"; "%Core"]; ["$"; ".count"; "[1]"; "%Extra"];
       ["$"; ".count"; "[2]"; "*HIST 101 2019-1"]; ["$"; ".count"; "[3]"; "*Calculus"]]
  | _ => False
  end.
Proof. vm_compute. auto. Qed.
(** ... and what is refused: an unknown requirement, a requirement that is not used, a result
    that is hidden, three rules with "both", and more rules asked for than there are *)
Example refused_example :
  let load d reqs := load_rule (c_ctx [] []) some_const [] d (Ok []) (load_reqs (c_ctx [] []) some_const [] reqs) ["$"] in
  load (d_ref "Core") [] = Err KeyErr /\
  load (d_named "Top" (body (Some (d_course "A 1")) (Some [("Core", body (Some (d_course "B 1")) None)]))) [] = Err AssertErr /\
  load (d_named "Top" (body (Some (d_if (XOr []) (d_course "A 1") None true)) None)) [] = Err OtherErr /\
  load (d_both [d_course "A 1"; d_course "A 2"; d_course "A 3"]) [] = Err AssertErr /\
  load (d_of 2 [d_course "A 1"]) [] = Err AssertErr /\
  load (d_named "  " (body (Some (d_course "A 1")) None)) [] = Err AssertErr /\
  load rd0 [] = Err ValueErr.
Proof. vm_compute. repeat split. Qed.

(** ** C92 *)

(** No two parts of a loaded tree have the same path, and all paths lie below the path the rule
    was loaded at; courses of proficiencies are parts too. *)
Theorem loaded_places_differ :
  forall cx c tm ems reqs d p n,
  NoDup (map (fun a => snd (fst a)) ems) ->
  load_rule cx c tm d (Ok (additions cx c tm ems)) (load_reqs cx c tm reqs) p = Ok (Some n) ->
  NoDup (places n) /\ forall q, In q (places n) -> below p q.
Proof.
  intros cx c tm ems reqs d p n N H. apply loaded_exactly in H.
  assert (K : NoDup (added_keys ems)); [clear H|destruct (proj1 (places_all cx c tm) _ _ _ _ _ H K n eq_refl) as (A & B & _); auto].
  unfold added_keys. induction ems as [|[[[|a s] k] b] t IH]; [constructor|inversion N; auto|].
  inversion N; subst. cbn. constructor; [|apply IH; assumption]. intro I'. apply H1. clear - I'.
  induction t as [|[[[|a' s'] k'] b'] t IH]; cbn in *; auto. destruct I'; auto.
Qed.
Print Assumptions loaded_places_differ.
(** Without emphases nothing is needed for that. *)
Theorem loaded_body_places_differ :
  forall cx c tm b name p n, load_body cx c tm b name p = Ok n ->
  NoDup (places n) /\ path_of n = p ++ ["%" ++ name]%string /\ forall q, In q (places n) -> q = path_of n \/ below (path_of n) q.
Proof.
  intros cx c tm b name p n H. apply requirement_loaded_exactly in H.
  destruct (proj2 (proj2 (proj2 (proj2 (places_all cx c tm)))) _ _ _ _ H) as ((A & _) & B & C). auto.
Qed.
Print Assumptions loaded_body_places_differ.
Example places_example :
  let o := load_rule (c_ctx [] []) some_const []
    (d_all [d_ref "Core"; d_ref "Core"; d_any [d_course "A 1"; d_course "A 1"]]) (Ok [])
    (load_reqs (c_ctx [] []) some_const [] [("Core", body (Some (d_course "B 1")) None)]) ["$"] in
  match o with
  | Ok (Some n) => places n =
     [["$"; ".count"]; ["$"; ".count"; "[0]"; "%Core"]; ["$"; ".count"; "[0]"; "%Core"; "*B 1"];
      ["$"; ".count"; "[1]"; "%Core"]; ["$"; ".count"; "[1]"; "%Core"; "*B 1"];
      ["$"; ".count"; "[2]"; ".count"]; ["$"; ".count"; "[2]"; ".count"; "[0]"; "*A 1"]; ["$"; ".count"; "[2]"; ".count"; "[1]"; "*A 1"]]
  | _ => False
  end.
Proof. vm_compute. reflexivity. Qed.
(** Two emphases of the same name do end up at the same place. *)
Theorem emphases_places_differ_refuted :
  ~ (forall cx c tm ems reqs d p n,
     load_rule cx c tm d (Ok (additions cx c tm ems)) (load_reqs cx c tm reqs) p = Ok (Some n) -> NoDup (places n)).
Proof.
  intro H. specialize (H (c_ctx [] []) some_const []
    [("X", "Emphasis: X", body (Some (d_course "A 1")) None); ("X", "Emphasis: X", body (Some (d_course "B 1")) None)] [] (d_all []) ["$"]).
  vm_compute in H. specialize (H _ eq_refl). inversion H; subst. inversion H3; subst. apply H4. vm_compute. auto.
Qed.
Print Assumptions emphases_places_differ_refuted.

(** ** C93 *)

(** A loaded tree is a tree of rules to which nothing has happened: no part is waived (but
    conditionals, which look at their exceptions when they are loaded), nothing is claimed, no
    class is kept out of a rule, and a rule that takes claimed courses lets them be used
    again. *)
Theorem loaded_is_fresh :
  forall cx c tm ems reqs d p n,
  load_rule cx c tm d (Ok (additions cx c tm ems)) (load_reqs cx c tm reqs) p = Ok (Some n) ->
  forall x, part_of n x -> fresh_part x.
Proof.
  intros cx c tm ems reqs d p n H. apply loaded_exactly in H. exact (proj1 (fresh_all cx c tm) _ _ _ _ _ H n eq_refl).
Qed.
Print Assumptions loaded_is_fresh.
(** in particular it can be solved and audited *)
Theorem loaded_is_unaudited :
  forall cx c tm ems reqs d p n,
  load_rule cx c tm d (Ok (additions cx c tm ems)) (load_reqs cx c tm reqs) p = Ok (Some n) -> rule_tree n /\ unaudited n.
Proof.
  intros cx c tm ems reqs d p n H. assert (F := loaded_is_fresh _ _ _ _ _ _ _ _ H). split.
  - intros x P. apply (F x P).
  - intros x P. destruct (F x P) as [K M]. split; [rewrite K; discriminate|]. intros k i r ->. cbn in M. destruct M as (_ & _ & M). destruct (M KRes r eq_refl) as [[=] _].
Qed.
Print Assumptions loaded_is_unaudited.
(** a conditional can be waived from the start *)
Example fresh_example :
  let load es := load_rule (c_ctx [] es) some_const [] (d_if (XOr []) (d_course "A 1") (Some (d_course "A 2")) false) (Ok []) [] ["$"] in
  map (fun o => match o with Ok (Some (NCond k i _ _)) => Some (k, d_overridden i, e_result (d_cond i)) | _ => None end)
    [load []; load [mkExc ["$"; ".cond"] (AOverride Waived)]] = [Some (KRule, false, Some false); Some (KRule, true, Some false)].
Proof. vm_compute. reflexivity. Qed.

(** ** C94 *)

(** A count asks for no more children than it has, unless rules are hidden. *)
Theorem counts_have_enough_children :
  forall cx c tm ems reqs d p n,
  nothing_hidden d -> (forall s b, In (s, b) reqs -> nothing_hidden_in b) -> (forall a, In a ems -> nothing_hidden_in (snd a)) ->
  load_rule cx c tm d (Ok (additions cx c tm ems)) (load_reqs cx c tm reqs) p = Ok (Some n) -> enough_children n.
Proof.
  intros cx c tm ems reqs d p n HD HR HA H. apply loaded_exactly in H.
  destruct (proj1 (enough_all cx c tm) _ _ _ _ _ H HD) as (n' & [=<-] & E); auto.
  intros k b G. apply dget_Some_in in G. eapply HR, G.
Qed.
Print Assumptions counts_have_enough_children.
Lemma plain_shows d : rd_cond d = None -> rd_count d = None -> rd_name d = None -> nothing_hidden d.
Proof. intros A B C y M. intros x E. inversion M; subst; congruence. Qed.
Lemma nothing_hidden_in_list d y : mentions d y -> rd_cond d = None -> rd_name d = None ->
  y = d \/ exists x, In x (match rd_count d with Some k => match rk_items k with Some l => l | None => [] end | None => [] end) /\ mentions x y.
Proof.
  intros M A B. inversion M; subst; try congruence; [now left|right]. exists x. split; [|assumption].
  rewrite H. unfold rk_items. destruct H0 as [l E|l E1 E|l E1 E2 E|l E1 E2 E3 E|l E1 E2 E3 E4 E];
    repeat match goal with E : _ = None |- _ => rewrite E; clear E end; rewrite ?E; try assumption; now rewrite E1.
Qed.
Example enough_example :
  nothing_hidden (d_of 2 [d_course "A 1"; d_course "A 2"]) /\
  match load_rule (c_ctx [] []) some_const [] (d_of 2 [d_course "A 1"; d_course "A 2"]) (Ok []) [] ["$"] with
  | Ok (Some (NCount _ i items)) => n_count i = 2%Z /\ List.length items = 2%nat
  | _ => False
  end.
Proof.
  split; [|vm_compute; auto]. intros y M. destruct (nothing_hidden_in_list (d_of 2 [d_course "A 1"; d_course "A 2"]) y M) as [->|(x & X & M')]; try reflexivity.
  - intros x [=].
  - revert M'. apply plain_shows; destruct X as [<-|[<-|[]]]; reflexivity.
Qed.
(** A hidden rule makes a count impossible to satisfy: the loader compares the number with the
    rules as written, not with those that are left. *)
Theorem counts_have_enough_children_refuted :
  ~ (forall cx c tm d p n, load_rule cx c tm d (Ok []) [] p = Ok (Some n) -> enough_children n).
Proof.
  intro H. specialize (H (c_ctx [] []) some_const [] (d_of 2 [d_course "A 1"; d_if (XOr []) (d_course "A 2") None true]) ["$"]).
  vm_compute in H. specialize (H _ eq_refl _ _ _ (pt_self _)). vm_compute in H. destruct H as [[=]|H]. apply H. reflexivity.
Qed.
Print Assumptions counts_have_enough_children_refuted.

(** ** C95 *)

(** Every course that an exception inserts at a count of a loaded tree is one of the last
    children of the count, in the order of the exceptions; it names the class, is marked as
    inserted, and may be used again exactly if the exception forces it. *)
Theorem insertions_are_children :
  forall cx c tm ems reqs d p n,
  load_rule cx c tm d (Ok (additions cx c tm ems)) (load_reqs cx c tm reqs) p = Ok (Some n) ->
  insertions_present cx n.
Proof.
  intros cx c tm ems reqs d p n H. apply loaded_exactly in H. exact (proj1 (inserted_all cx c tm) _ _ _ _ _ H n eq_refl).
Qed.
Print Assumptions insertions_are_children.
(** for a single exception *)
Theorem insertion_is_a_child :
  forall c tm ems reqs d p n cx es, cx_exc cx = group_exceptions es ->
  load_rule cx c tm d (Ok (additions cx c tm ems)) (load_reqs cx c tm reqs) p = Ok (Some n) ->
  forall e clbid f k i items, In e es -> ex_act e = AInsert clbid f -> ex_path e = n_path i -> part_of n (NCount k i items) ->
  exists x crs, In x items /\ forced_by_clbid cx clbid = Ok crs /\ inserted_child (c_clbid crs) f x.
Proof.
  intros c tm ems reqs d p n cx es E H e clbid f k i items I' A EP P.
  assert (X := insertions_are_children _ _ _ _ _ _ _ _ H _ _ _ P). destruct X as (a & b & -> & F).
  assert (G : In e (get_inserts (cx_exc cx) (n_path i))) by (rewrite E; apply inserts_at; split; [exact I'|split; [exact EP|eauto]]).
  clear - F G A. induction F as [|e' x es' xs (k' & f' & crs & A' & FB & IC) F IH]; [destruct G|].
  destruct G as [->|G].
  - rewrite A in A'. injection A' as -> ->. exists x, crs. split; [apply in_or_app; right; now left|auto].
  - destruct (IH G) as (y & crs' & Y & R). exists y, crs'. split; [|exact R].
    rewrite in_app_iff in *. destruct Y; [auto|right; now right].
Qed.
Print Assumptions insertion_is_a_child.
Example insertion_example :
  match load_rule (c_ctx [hist] [mkExc ["$"; ".count"] (AInsert "100" true)]) some_const [] (d_any [d_course "A 1"]) (Ok []) [] ["$"] with
  | Ok (Some (NCount _ i [NCourse _ _; NCourse KRule r])) => r_path r = ["$"; ".count"; "[1]"; "*HIST 101"] /\ r_clbid r = Some "100" /\ r_inserted r = true /\ r_allow r = true
  | _ => False
  end.
Proof. vm_compute. auto. Qed.

(** ** C96 *)

(** All requirements declared inside a requirement are used by its result: otherwise it is
    refused. Requirements of the area itself need not be used. *)
Theorem declared_requirements_are_used :
  forall cx c tm b name p k i o, load_body cx c tm b name p = Ok (NReq k i o) ->
  forall l s b', rb_reqs b = Some l -> In (s, b') l -> match o with Some n => refers_to s n | None => rb_result b = None end.
Proof.
  intros cx c tm b name p k i o H l s b' R I'. apply requirement_loaded_exactly in H. inversion H; subst; eauto.
Qed.
Print Assumptions declared_requirements_are_used.
(** A reference stands for the requirement it names, and an unknown name is refused. *)
Theorem references_are_resolved :
  forall cx c tm reqs name p,
  load_rule cx c tm (d_ref name) (Ok []) (load_reqs cx c tm reqs) p =
  match dget reqs name with
  | Some b => match load_body cx c tm b name p with Ok n => Ok (Some n) | Err e => Err e end
  | None => Err KeyErr
  end.
Proof.
  intros. cbn. unfold load_named. unfold load_reqs.
  assert (E : dget (map (fun x => (fst x, load_body cx c tm (snd x) (fst x))) reqs) name = match dget reqs name with Some b => Some (load_body cx c tm b name) | None => None end).
  { induction reqs as [|[s b] t IH]; cbn; [reflexivity|]. destruct (String.eqb_spec name s) as [->|N]; [reflexivity|exact IH]. }
  match goal with |- some_node (match ?x with _ => _ end) = _ => replace x with (match dget reqs name with Some b => Some (load_body cx c tm b name) | None => None end) by (symmetry; exact E) end.
  destruct (dget reqs name) as [b|]; [|reflexivity]. unfold some_node. destruct (load_body cx c tm b name p); reflexivity.
Qed.
Print Assumptions references_are_resolved.
Example used_example :
  let inner := Some [("Core", body (Some (d_course "B 1")) None)] in
  let load d := load_body (c_ctx [] []) some_const [] (body (Some d) inner) "Top" ["$"] in
  match load (d_any [d_course "A 1"; d_ref "Core"]) with Ok n => refers_to "Top" n | Err _ => False end /\
  load (d_any [d_course "A 1"]) = Err AssertErr /\
  load (d_any [d_course "A 1"; d_if (XOr []) (d_ref "Core") None false]) = Err AssertErr.
Proof. split; [|vm_compute; auto]. vm_compute. now apply rt_req. Qed.
(** A requirement that is used only in a branch of a conditional that is not in force does
    not count as used: whether a specification is refused depends on the student. *)
Theorem validity_is_the_same_for_all_refuted :
  ~ (forall cx cx' c tm b name p n, load_body cx c tm b name p = Ok n -> exists n', load_body cx' c tm b name p = Ok n').
Proof.
  intro H.
  specialize (H (mkCtx [hist] [] [] [] [] (group_exceptions []) [] [] [] no_proficiencies) (c_ctx [] []) some_const []
    (body (Some (d_any [d_course "A 1"; d_if (XFun FHasCourse "HIST 101") (d_ref "Core") None false])) (Some [("Core", body (Some (d_course "B 1")) None)])) "Top" ["$"]).
  vm_compute in H. destruct (H _ eq_refl) as (n' & [=]).
Qed.
Print Assumptions validity_is_the_same_for_all_refuted.
