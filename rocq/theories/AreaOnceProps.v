(** Property theorems: no class is used twice in the result of an area (C90). *)
From Coq Require Import List ZArith QArith Bool String Lia Sorted Permutation.
From Verif Require Import Prelude Dec Status Course Claims Exceptions Op Context CondExpr Paths Predicate Limit Apply Assertion Query CourseRule Tree Solve Transcript Driver Area.
From Verif Require Import ListFacts LimitSpec LimitProps ClaimsSpec ClaimsProofs PathsSpec PathsProofs AssertionSpec QuerySpec QueryProofs QueryProps CourseRuleSpec CourseRuleProofs CourseRuleProps TreeSpec TreeProofs TreeSolSpec TreeSolProofs TreeSolProps TreeAuditSpec TreeAuditProofs TreeAuditProps SolveSpec SolveProofs SolveSafe SolveProps AreaSpec AreaProofs AreaProps AreaOnceSpec AreaOnceProofs.
Import ListNotations.
Local Open Scope string_scope.
Local Open Scope list_scope.

Lemma for_transcripts_in ord nord u st es t lts zs z : for_transcripts ord nord u st es t lts zs -> In z zs ->
  exists lt, In lt lts /\ z_ctx z = limited_ctx u st es lt /\ g_exn (fst (top_solutions ord nord (z_ctx z) [] (u_result u))) = None /\
    In (z_sol z) (g_items (fst (top_solutions ord nord (z_ctx z) [] (u_result u)))).
Proof.
  induction 1 as [t|t lt lts zs t' rest F _ IH]; intro I; [destruct I|]. apply in_app_iff in I. destruct I as [I|I].
  - destruct F as [G [M [C _]]]. rewrite Forall_forall in C. assert (E := C z I). exists lt. rewrite E. split; [simpl; auto|]. split; auto. split; auto. rewrite <- M. apply in_map. exact I.
  - destruct (IH I) as [lt' [J R]]. exists lt'. split; [simpl; auto|exact R].
Qed.
Lemma pool_of_student ord u st es lt c : set_order ord -> coherent (u_limit u) -> In lt (g_items (transcripts ord u st es)) ->
  in_pool (limited_ctx u st es lt) c -> of_student st c.
Proof.
  intros SO CO I [H|[H|[j H]]].
  - left. eapply (limited_sub ord); eauto.
  - right. exact H.
  - destruct (area_context u st es lt) as [_ [_ [_ [_ [_ [_ [_ [_ [_ F]]]]]]]]]. apply F in H. destruct H as [_ [pre [post [E _]]]]. left. rewrite E. apply in_or_app. simpl. auto.
Qed.

(** ** C90

    In the result of auditing a solution of an area, a class is claimed at most once by rules
    that do not let it be used again. The rules that do are named by [shareable]: an exception
    forces the class in, the course rule has "allow_claimed", the query allows claimed courses,
    looks at claimed courses or does not claim. Children of the top rule that are solved apart
    do not see each other's claims, so this rests on the choice of the children solved apart,
    and fails if two children are marked as disjoint although they are not (see below). *)
Theorem classes_are_used_once :
  forall ord nord u st es z r t' k,
  set_order ord -> (forall l, Permutation (nord l) l) -> coherent (u_limit u) ->
  rule_tree (u_result u) -> unaudited (u_result u) -> as_written (u_result u) -> tidy_top (u_result u) -> one_way es ->
  (forall c d, of_student st c -> of_student st d -> c_clbid c = c_clbid d -> c = d) ->
  (forall c, of_student st c -> c_clbid c = k -> ~ is_multicountable (u_multi u) c) ->
  g_exn (area_solutions ord nord u st es) = None -> In z (g_items (area_solutions ord nord u st es)) ->
  audit ord (z_ctx z) (z_claims z) (z_sol z) = Ok (r, t') ->
  forall l, subseq l (claims_of r) -> (forall cl, In cl l -> c_clbid (cl_course cl) = k /\ ~ shareable es (u_result u) (cl_by cl) k) ->
  (List.length l <= 1)%nat.
Proof.
  intros ord nord u st es z r t' k SO NO CO RT U AW TT OW UN PL G I A l S H.
  destruct (area_solutions_exact ord nord u st es G) as [_ FT]. destruct (for_transcripts_in _ _ _ _ _ _ _ _ _ FT I) as [lt [IL [EC [G' IS]]]].
  destruct l as [|a [|b rest]]; cbn; try lia. exfalso.
  destruct (H a) as [Ka Na]; [simpl; auto|]. destruct (H b) as [Kb Nb]; [simpl; auto|].
  destruct (area_context u st es lt) as [_ [_ [_ [_ [_ [_ [_ [_ [_ F]]]]]]]]].
  eapply (once_top ord nord st es (z_ctx z) k SO NO); eauto; rewrite EC.
  - reflexivity.
  - intros c. eapply pool_of_student; eauto.
  - intros j c D. apply F in D. destruct D as [_ [pre [post [_ [D _]]]]]. exact D.
  - intros x j c Ix Ax FB. unfold forced_by_clbid in FB. destruct (find_by_clbid _ j) eqn:FE; [injection FB as ->; reflexivity|]. destruct (dget _ j) as [d|] eqn:D; [|discriminate]. apply F in D. destruct D as [[e [Ie Ae]] _]. exfalso. exact (OW e x j Ie Ix Ae Ax).
  - intros c OS KC. exact (PL c OS KC).
Qed.
Print Assumptions classes_are_used_once.
(** The same for the result the student gets to see, before the common block of a major. *)
Theorem classes_are_used_once_in_results :
  forall ord nord u st es z v t' k,
  set_order ord -> (forall l, Permutation (nord l) l) -> coherent (u_limit u) ->
  rule_tree (u_result u) -> unaudited (u_result u) -> as_written (u_result u) -> tidy_top (u_result u) -> one_way es ->
  (forall c d, of_student st c -> of_student st d -> c_clbid c = c_clbid d -> c = d) ->
  (forall c, of_student st c -> c_clbid c = k -> ~ is_multicountable (u_multi u) c) ->
  g_exn (area_solutions ord nord u st es) = None -> In z (g_items (area_solutions ord nord u st es)) ->
  area_audit ord u z = Ok (v, t') ->
  forall l, subseq l (own_claims v) -> (forall cl, In cl l -> c_clbid (cl_course cl) = k /\ ~ shareable es (u_result u) (cl_by cl) k) ->
  (List.length l <= 1)%nat.
Proof.
  intros ord nord u st es z v t' k SO NO CO RT U AW TT OW UN PL G I A l S H. unfold area_audit in A.
  destruct (audit ord (z_ctx z) (z_claims z) (z_sol z)) as [[r t1]|] eqn:AU; cbn [bind] in A; [|discriminate].
  assert (X := classes_are_used_once ord nord u st es z r t1 k SO NO CO RT U AW TT OW UN PL G I AU l). apply X; auto. clear X.
  destruct (u_kind u =? "major") eqn:K.
  - destruct (audit_common _ _ _ _) as [c|]; cbn [bind] in A; [|discriminate]. destruct r; try discriminate. injection A as <- <-. unfold own_claims in S. cbn in S. rewrite K, removelast_app in S by discriminate. cbn in S. rewrite app_nil_r in S. exact S.
  - injection A as <- <-. unfold own_claims in S. cbn in S. rewrite K in S. destruct r; exact S.
Qed.
Print Assumptions classes_are_used_once_in_results.

Lemma three_ids c d : of_student (took three) c -> of_student (took three) d -> c_clbid c = c_clbid d -> c = d.
Proof.
  intros C D E. assert (H : forall x, of_student (took three) x -> x = mk_simple "100" "A" "1" \/ x = mk_simple "200" "B" "1" \/ x = mk_simple "300" "C" "1").
  { intros x [X|X]; destruct X as [<-|[<-|[<-|[]]]]; auto. }
  apply H in C. apply H in D. destruct C as [->|[->| ->]], D as [->|[->| ->]]; try reflexivity; discriminate.
Qed.
(** an area with two rules that compete for a class and one solved apart *)
Lemma clash_parts x : part_of clash x -> (exists n, x = named n) \/ x = one_of ["A 1"; "B 1"] \/ x = clash \/ exists p n, x = child p n.
Proof.
  assert (N : forall n y, part_of (named n) y -> y = named n) by (intros n y H; inversion H; reflexivity).
  assert (C : forall p n y, part_of (child p n) y -> y = child p n \/ part_of n y) by (intros p n y H; inversion H; subst; auto).
  intro P. inversion P as [|k i items c y I P'| | |]; subst; [eauto 6|]. destruct I as [<-|[<-|[<-|[]]]]; apply C in P'; destruct P' as [->|P']; eauto 6.
  inversion P' as [|k' i' items' c y' I P2| | |]; subst; [eauto 6|]. destruct I as [<-|[<-|[]]]; apply N in P2; subst; eauto 6.
Qed.
Lemma clash_meets : rule_tree clash /\ unaudited clash /\ as_written clash /\ tidy_top clash.
Proof.
  split; [|split; [|split]].
  - intros x P. apply clash_parts in P. destruct P as [[n ->]|[->|[->|[p [n ->]]]]]; reflexivity.
  - intros x P. apply clash_parts in P. destruct P as [[n ->]|[->|[->|[p [n ->]]]]]; split; discriminate.
  - split.
    + intros r [[k P]|[k [i [k' P]]]]; apply clash_parts in P; destruct P as [[n E]|[E|[E|[p [n E]]]]]; try discriminate. injection E as _ ->. discriminate.
    + intros k q P. apply clash_parts in P; destruct P as [[n E]|[E|[E|[p [n E]]]]]; discriminate.
  - intros k i items H. inversion H; subst. split; [|split; [cbn; lia|]].
    + split; [cbn; repeat constructor; cbn; intuition discriminate|]. repeat constructor; cbn; intuition discriminate.
    + intros c d Ic _ _ [D _]. destruct Ic as [<-|[<-|[<-|[]]]]; inversion D as [? ? ? E|? ? ? E]; subst; try discriminate; inversion E.
Qed.
(** each of its solutions claims every class once; without the three hypotheses on the student
    there is nothing to show *)
Example used_once_example :
  (rule_tree clash /\ unaudited clash /\ as_written clash /\ tidy_top clash) /\ coherent (u_limit (one_rule "concentration" clash [])) /\ one_way [] /\
  (forall c d, of_student (took three) c -> of_student (took three) d -> c_clbid c = c_clbid d -> c = d) /\
  let g := area_solutions same_order keep (one_rule "concentration" clash []) (took three) [] in
  g_exn g = None /\
  map (fun z => match area_audit same_order (one_rule "concentration" clash []) z with Ok (v, _) => map (fun cl => c_clbid (cl_course cl)) (own_claims v) | Err _ => [] end) (g_items g) =
    [["100"; "300"]; ["200"; "100"; "300"]].
Proof.
  split; [exact clash_meets|]. split; [intros l1 l2 []|]. split; [intros x y k []|]. split; [|vm_compute; auto].
  exact three_ids.
Qed.

(** Two children marked "disjoint: true" are solved apart whatever they match, and then use the
    same class both. *)
Definition marked (p : string) (n : node) : node := NReq KRule (mkReq ["$"; ".count"; p] false p false false true (Some true)) (Some n).
Definition marked_area : study := one_rule "concentration" (all_of [marked "%x" (named "A 1"); marked "%y" (named "A 1")]) [].
Definition used_once_whatever_is_declared : Prop :=
  forall ord nord u st es z r t' k,
  set_order ord -> (forall l, Permutation (nord l) l) -> coherent (u_limit u) ->
  rule_tree (u_result u) -> unaudited (u_result u) -> as_written (u_result u) -> one_way es ->
  (forall c d, of_student st c -> of_student st d -> c_clbid c = c_clbid d -> c = d) ->
  (forall c, of_student st c -> c_clbid c = k -> ~ is_multicountable (u_multi u) c) ->
  g_exn (area_solutions ord nord u st es) = None -> In z (g_items (area_solutions ord nord u st es)) ->
  audit ord (z_ctx z) (z_claims z) (z_sol z) = Ok (r, t') ->
  forall l, subseq l (claims_of r) -> (forall cl, In cl l -> c_clbid (cl_course cl) = k /\ ~ shareable es (u_result u) (cl_by cl) k) ->
  (List.length l <= 1)%nat.
Theorem used_once_whatever_is_declared_refuted : ~ used_once_whatever_is_declared.
Proof.
  intro H.
  assert (P : forall x, part_of (u_result marked_area) x -> x = u_result marked_area \/ x = named "A 1" \/ exists p, x = marked p (named "A 1")).
  { intros x P. inversion P as [|k i items c y I P'| | |]; subst; [auto|]. destruct I as [<-|[<-|[]]]; (inversion P' as [| |k' i' y' z Q| |]; subst; [eauto|inversion Q; subst; auto]). }
  assert (E : exists z r t' a b, g_items (area_solutions same_order keep marked_area (took three) []) = [z] /\ g_exn (area_solutions same_order keep marked_area (took three) []) = None /\
    audit same_order (z_ctx z) (z_claims z) (z_sol z) = Ok (r, t') /\ claims_of r = [a; b] /\ c_clbid (cl_course a) = "100" /\ c_clbid (cl_course b) = "100").
  { do 5 eexists. split; [vm_compute; reflexivity|]. split; [vm_compute; reflexivity|]. split; [vm_compute; reflexivity|]. split; [vm_compute; reflexivity|]. split; reflexivity. }
  destruct E as [z [r [t' [a [b [E1 [E2 [E3 [E4 [E5 E6]]]]]]]]]].
  specialize (H same_order keep marked_area (took three) [] z r t' "100").
  assert (X : (List.length [a; b] <= 1)%nat); [|cbn in X; lia]. apply H; try assumption.
  - intro l. apply Permutation_refl.
  - intro l. apply Permutation_refl.
  - intros l1 l2 [].
  - intros x Q. apply P in Q. destruct Q as [->|[->|[p ->]]]; reflexivity.
  - intros x Q. apply P in Q. destruct Q as [->|[->|[p ->]]]; split; discriminate.
  - split; [|intros k q Q; apply P in Q; destruct Q as [Q|[Q|[p Q]]]; discriminate].
    intros r' [[k Q]|[k [i [k' Q]]]]; apply P in Q; destruct Q as [Q|[Q|[p Q]]]; try discriminate. injection Q as _ ->. discriminate.
  - intros x y k [].
  - exact three_ids.
  - intros c _ _ [].
  - rewrite E1. simpl. auto.
  - rewrite E4. apply subseq_refl.
  - intros cl J. split; [destruct J as [<-|[<-|[]]]; auto|]. intros [[x [[] _]]|[[r' [[[k Q]|[k [i [k' Q]]]] [_ R]]]|[kd [q [Q _]]]]]; apply P in Q; destruct Q as [Q|[Q|[p Q]]]; try discriminate. injection Q as _ ->. discriminate.
Qed.
Print Assumptions used_once_whatever_is_declared_refuted.
