From Coq Require Import List Bool String Ascii Arith Lia.
From Verif Require Import Prelude Course Claims ClaimsSpec.
Import ListNotations.

Lemma bind_ok {A B} (x : res A) (f : A -> res B) b :
  bind x f = Ok b -> exists a, x = Ok a /\ f a = Ok b.
Proof. destruct x; simpl; [eauto | discriminate]. Qed.

(** ** dictionaries *)
Lemma dget_recorded t k : recorded t k = match dget t k with Some l => l | None => [] end.
Proof.
  unfold recorded. induction t as [|[k' v] t IH]; simpl; [reflexivity|].
  rewrite String.eqb_sym. destruct (String.eqb k k') eqn:E; [reflexivity|]. apply IH.
Qed.

Lemma dget_dset_same {V} (d : list (string * V)) k v : dget (dset d k v) k = Some v.
Proof.
  induction d as [|[k' v'] d IH]; simpl.
  - now rewrite String.eqb_refl.
  - destruct (String.eqb k k') eqn:E; simpl; rewrite E; auto.
Qed.

Lemma dget_dset_other {V} (d : list (string * V)) k k' v :
  k <> k' -> dget (dset d k v) k' = dget d k'.
Proof.
  intro N. induction d as [|[k0 v0] d IH]; simpl.
  - destruct (String.eqb_spec k' k); congruence.
  - destruct (String.eqb_spec k k0); simpl; destruct (String.eqb_spec k' k0); subst; congruence || auto.
Qed.

Lemma dget_None_notin {V} (d : list (string * V)) k : dget d k = None <-> ~ In k (map fst d).
Proof.
  induction d as [|[k0 v0] d IH]; simpl; [tauto|].
  destruct (String.eqb_spec k k0); subst; [split; [discriminate | intros H; exfalso; auto]|].
  rewrite IH. split; [intros H [C|C]; auto | tauto].
Qed.

Lemma dget_Some_in {V} (d : list (string * V)) k v : dget d k = Some v -> In (k, v) d.
Proof.
  induction d as [|[k0 v0] d IH]; simpl; [discriminate|].
  destruct (String.eqb_spec k k0); subst; [intros [= ->]; auto | auto].
Qed.

Lemma dset_keys {V} (d : list (string * V)) k v :
  map fst (dset d k v) = if dget d k then map fst d else map fst d ++ [k].
Proof.
  induction d as [|[k0 v0] d IH]; simpl; [reflexivity|].
  destruct (String.eqb_spec k k0); subst; simpl; [reflexivity|].
  rewrite IH. destruct (dget d k); reflexivity.
Qed.

Lemma dset_in {V} (d : list (string * V)) k v k' v' :
  In (k', v') (dset d k v) -> (k' = k /\ v' = v) \/ In (k', v') d.
Proof.
  induction d as [|[k0 v0] d IH]; simpl.
  - intros [[= <- <-]|[]]; auto.
  - destruct (String.eqb_spec k k0); simpl; intros [[= <- <-]|H]; subst; auto.
    destruct (IH H) as [[-> ->]|]; auto.
Qed.

Lemma recorded_record t cl k :
  recorded (record_claim t cl) k =
  if String.eqb k (c_clbid (cl_course cl)) then recorded t k ++ [cl] else recorded t k.
Proof.
  rewrite !dget_recorded. unfold record_claim.
  destruct (String.eqb_spec k (c_clbid (cl_course cl))) as [->|N].
  - destruct (dget t _) eqn:E; rewrite dget_dset_same; reflexivity.
  - destruct (dget t (c_clbid _)) eqn:E; rewrite dget_dset_other; congruence.
Qed.


Lemma table_ok_record t cl :
  table_ok t -> cl_failed cl = false -> path_ok (cl_by cl) -> table_ok (record_claim t cl).
Proof.
  intros (ND & NE & CL) F P. unfold record_claim.
  set (k := c_clbid (cl_course cl)).
  assert (keys : forall v, NoDup (map fst (dset t k v))).
  { intro v. rewrite dset_keys. destruct (dget t k) eqn:E; [exact ND|].
    apply dget_None_notin in E. clear -ND E. induction t as [|[a b] t IH]; simpl in *.
    - constructor; [tauto|constructor].
    - inversion ND; subst. constructor.
      + rewrite in_app_iff. simpl. intros [H|[H|[]]]; [tauto|]. apply E. auto.
      + apply IH; auto. }
  rewrite Forall_forall in NE, CL.
  assert (step : forall v, v <> [] ->
    Forall (fun c => c_clbid (cl_course c) = k /\ cl_failed c = false /\ path_ok (cl_by c)) v ->
    table_ok (dset t k v)).
  { intros v Hv Hc. split; [apply keys|].
    split; apply Forall_forall; intros [k' v'] I; apply dset_in in I; destruct I as [[-> ->]|I]; simpl; auto.
    - apply (NE _ I).
    - apply (CL _ I). }
  destruct (dget t k) as [l|] eqn:E.
  - apply step; [destruct l; discriminate|]. apply Forall_app. split; [|constructor; auto].
    apply dget_Some_in in E. apply (CL _ E).
  - apply step; [discriminate|]. constructor; auto.
Qed.

Lemma table_ok_dget t k l : table_ok t -> dget t k = Some l ->
  l <> [] /\ Forall (fun cl => c_clbid (cl_course cl) = k /\ cl_failed cl = false /\ path_ok (cl_by cl)) l.
Proof.
  intros (_ & NE & CL) E. apply dget_Some_in in E. rewrite Forall_forall in NE, CL.
  split; [apply (NE _ E) | apply (CL _ E)].
Qed.

(** ** requirement names of a path *)
Lemma is_req_component_spec s b : is_req_component s = Ok b -> (b = true <-> req_name s).
Proof.
  unfold req_name. destruct s as [|ch s]; simpl; [discriminate|]. intros [= <-].
  destruct (Ascii.eqb_spec ch "%"%char); subst; split; eauto; try discriminate.
  intros [r [= -> _]]. congruence.
Qed.

Lemma reqs_only_spec p : path_ok p -> exists rs, reqs_only p = Ok rs /\ reqs_of p rs.
Proof.
  induction p as [|s p IH]; intro H; simpl.
  - exists []. split; [reflexivity|constructor].
  - inversion H; subst. destruct (IH H3) as (rs & -> & R).
    destruct (is_req_component s) as [b|e] eqn:E.
    + simpl. pose proof (is_req_component_spec _ _ E) as S.
      destruct b; eexists; (split; [reflexivity|]).
      * apply ro_req; [tauto|auto].
      * apply ro_other; auto. intro. destruct S as [_ S]. specialize (S H0). discriminate.
    + destruct s; [congruence | discriminate].
Qed.

Lemma reqs_of_fun p rs1 rs2 : reqs_of p rs1 -> reqs_of p rs2 -> rs1 = rs2.
Proof.
  intro H. revert rs2. induction H; intros rs2 H2; inversion H2; subst; try reflexivity; try tauto.
  - f_equal. auto.
  - auto.
Qed.

Lemma path_eqb_spec p q : path_eqb p q = true <-> p = q.
Proof.
  unfold path_eqb. revert q. induction p as [|a p IH]; destruct q as [|b q]; simpl; split; intro H; try discriminate; auto.
  - apply andb_true_iff in H as [E H]. apply String.eqb_eq in E. apply IH in H. congruence.
  - injection H as -> ->. rewrite String.eqb_refl. apply IH. reflexivity.
Qed.

Lemma dget_multi_entry mc i ps : dget mc i = Some ps <-> multi_entry mc i ps.
Proof.
  unfold multi_entry. split.
  - induction mc as [|[k v] mc IH]; simpl; [discriminate|].
    destruct (String.eqb_spec i k); subst.
    + intros [= ->]. exists [], mc. auto.
    + intro H. destruct (IH H) as (pre & post & -> & N). exists ((k, v) :: pre), post.
      split; [reflexivity|]. simpl. intros [C|C]; auto.
  - intros (pre & post & -> & N). induction pre as [|[k v] pre IH]; simpl in *.
    + now rewrite String.eqb_refl.
    + destruct (String.eqb_spec i k); subst; [exfalso; auto|]. apply IH. auto.
Qed.

Lemma not_available_nil (ps : list path) l :
  filter (fun r : string => negb (existsb (str_eq_tuple r) ps)) l = l.
Proof.
  induction l as [|a l IH]; simpl; [reflexivity|].
  assert (E : existsb (str_eq_tuple a) ps = false).
  { clear. induction ps as [|x ps IHp]; [reflexivity|exact IHp]. }
  rewrite E. simpl. f_equal. exact IH.
Qed.

(** ** the outcome of one claim *)
Lemma mapr_reqs l : Forall (fun cl => path_ok (cl_by cl)) l ->
  exists x, mapr (fun cl => reqs_only (cl_by cl)) l = Ok x.
Proof.
  induction l as [|cl l IH]; intro H; simpl; [eauto|].
  inversion H; subst. destruct (reqs_only_spec _ H2) as (rs & -> & _).
  destruct (IH H3) as (x & ->). simpl. eauto.
Qed.

Theorem claim_effect_lemma mc t a :
  table_ok t -> path_ok (at_path a) ->
  exists cl t', make_claim mc t (at_course a) (at_path a) (at_shared a) = Ok (cl, t') /\
    cl_course cl = at_course a /\ cl_by cl = at_path a /\
    (cl_failed cl = true <-> must_fail mc t a) /\
    table_ok t' /\
    forall k, recorded t' k =
      if String.eqb k (c_clbid (at_course a)) && negb (at_shared a) && negb (cl_failed cl)
      then recorded t k ++ [cl] else recorded t k.
Proof.
  intros T P. destruct a as [c p sh]. simpl in *. unfold must_fail, claimed. simpl.
  unfold make_claim. destruct sh.
  { eexists _, t. repeat (split; [reflexivity|]). simpl. split; [split; [discriminate|intros [? _]; discriminate]|].
    split; [exact T|]. intro k. rewrite andb_false_r. reflexivity. }
  assert (REC : forall k, recorded (record_claim t (mkClaim c p false)) k =
    if String.eqb k (c_clbid c) && true && true then recorded t k ++ [mkClaim c p false] else recorded t k).
  { intro k. rewrite recorded_record. simpl. rewrite !andb_true_r. reflexivity. }
  assert (TOK : table_ok (record_claim t (mkClaim c p false))) by (apply table_ok_record; auto).
  assert (FR : forall k, recorded t k = if String.eqb k (c_clbid c) && true && false then recorded t k ++ [mkClaim c p true] else recorded t k).
  { intro k. rewrite andb_false_r. reflexivity. }
  destruct (dget t (c_clbid c)) as [prior|] eqn:E.
  - destruct (table_ok_dget _ _ _ T E) as [NE CL].
    assert (CLD : recorded t (c_clbid c) <> []) by (rewrite dget_recorded, E; exact NE).
    unfold course_ident. destruct (dget mc (c_identity c)) as [ps|] eqn:M.
    + unfold make_multicountable_claim. unfold course_ident. rewrite E, M.
      destruct (reqs_only_spec _ P) as (rs & -> & RO).
      destruct (mapr_reqs prior) as (x & Hx).
      { eapply Forall_impl; [|exact CL]. simpl. tauto. }
      simpl. rewrite Hx. simpl.
      destruct (find (fun reqpath => path_eqb reqpath rs) ps) as [rp|] eqn:FD.
      * apply find_some in FD. destruct FD as [I EQ]. apply path_eqb_spec in EQ. subst rp.
        rewrite not_available_nil. destruct rs as [|r rs].
        -- destruct prior; [congruence|]. eexists _, t. repeat (split; [reflexivity|]). simpl.
           split; [|split; [exact T|exact FR]]. split; [|reflexivity]. intros _.
           split; [reflexivity|]. split; [exact CLD|].
           intros (ps' & rs' & _ & _ & RO' & N'). apply N'. eapply reqs_of_fun; eauto.
        -- eexists _, _. repeat (split; [reflexivity|]). simpl. split; [|split; [exact TOK|exact REC]].
           split; [discriminate|]. intros (_ & _ & N). exfalso. apply N.
           exists ps, (r :: rs). apply dget_multi_entry in M.
           split; [exact M|]. split; [exact I|]. split; [exact RO|discriminate].
      * destruct prior; [congruence|]. eexists _, t. repeat (split; [reflexivity|]). simpl.
        split; [|split; [exact T|exact FR]]. split; [|reflexivity]. intros _.
        split; [reflexivity|]. split; [exact CLD|].
        intros (ps' & rs' & ME & I & RO' & N'). apply dget_multi_entry in ME.
        assert (ps' = ps) by congruence. subst ps'.
        pose proof (find_none _ _ FD _ I) as FN. simpl in FN.
        assert (rs' = rs) by (eapply reqs_of_fun; eauto). subst.
        assert (path_eqb rs rs = true) by (apply path_eqb_spec; reflexivity). congruence.
    + destruct prior; [congruence|]. eexists _, t. repeat (split; [reflexivity|]). simpl.
      split; [|split; [exact T|exact FR]]. split; [|reflexivity]. intros _.
      split; [reflexivity|]. split; [exact CLD|].
      intros (ps' & rs' & ME & _). apply dget_multi_entry in ME. congruence.
  - eexists _, _. repeat (split; [reflexivity|]). simpl. split; [|split; [exact TOK|exact REC]].
    split; [discriminate|]. intros (_ & N & _). exfalso. apply N. rewrite dget_recorded, E. reflexivity.
Qed.

(** ** histories *)

Lemma run_claims_total mc l : forall t, table_ok t -> good_history l ->
  exists outs t', run_claims mc t l = Ok (outs, t') /\ table_ok t' /\ List.length outs = List.length l.
Proof.
  induction l as [|a l IH]; intros t T G; simpl.
  - eexists _, _. split; [reflexivity|]. split; [exact T|reflexivity].
  - inversion G; subst. destruct (claim_effect_lemma mc t a T H1) as (cl & t1 & -> & _ & _ & _ & T1 & _).
    destruct (IH t1 T1 H2) as (outs & t2 & E & T2 & L). simpl. rewrite E. simpl.
    eexists _, _. split; [reflexivity|]. split; [exact T2|]. simpl. now rewrite L.
Qed.

Lemma table_ok_nil : table_ok [].
Proof. repeat split; constructor. Qed.

Lemma run_cons mc t a l outs t' :
  run_claims mc t (a :: l) = Ok (outs, t') ->
  exists cl t1 outs', make_claim mc t (at_course a) (at_path a) (at_shared a) = Ok (cl, t1) /\
    run_claims mc t1 l = Ok (outs', t') /\ outs = cl :: outs'.
Proof.
  simpl. intro H. apply bind_ok in H as ((cl, t1) & E & H).
  apply bind_ok in H as ((cls, t2) & E2 & H). injection H as <- <-. eauto 6.
Qed.


Lemma not_multi_not_listed mc c p : ~ is_multicountable mc c -> ~ listed mc c p.
Proof.
  intros N (ps & rs & (pre & post & -> & _) & _). apply N. unfold is_multicountable.
  rewrite map_app, in_app_iff. simpl. auto.
Qed.

Lemma exclusive_step mc l : forall t outs t' k, table_ok t -> good_history l ->
  run_claims mc t l = Ok (outs, t') -> plain_in mc k l -> List.length (recorded t k) <= 1 ->
  List.length (recorded t' k) <= 1 /\
  forall i a cl, nth_error l i = Some a -> nth_error outs i = Some cl -> c_clbid (at_course a) = k ->
    (cl_failed cl = true <->
     at_shared a = false /\
     (claimed t k \/ exists j a', j < i /\ nth_error l j = Some a' /\ c_clbid (at_course a') = k /\ at_shared a' = false)).
Proof.
  induction l as [|a l IH]; intros t outs t' k T G R PL LE.
  - simpl in R. injection R as <- <-. split; [exact LE|]. intros [|i]; simpl; discriminate.
  - apply run_cons in R as (cl & t1 & outs' & MC & R & ->).
    inversion G; subst. destruct (claim_effect_lemma mc t a T H1) as (cl0 & t10 & MC' & CC & CB & FL & T1 & REC).
    rewrite MC in MC'. injection MC' as <- <-.
    assert (PL' : plain_in mc k l) by (intros x Hx; apply PL; simpl; auto).
    assert (NL : c_clbid (at_course a) = k -> ~ listed mc (at_course a) (at_path a)).
    { intro Hk. apply not_multi_not_listed. apply PL; simpl; auto. }
    assert (LE1 : List.length (recorded t1 k) <= 1).
    { rewrite REC. destruct (String.eqb_spec k (c_clbid (at_course a))) as [Ek|]; simpl; [|exact LE].
      destruct (at_shared a) eqn:SH; simpl; [exact LE|]. destruct (cl_failed cl) eqn:CF; simpl; [exact LE|].
      destruct (recorded t k) as [|z zs] eqn:RK; simpl; [lia|]. exfalso.
      assert (false = true); [|discriminate]. apply FL. unfold must_fail, claimed. rewrite <- Ek, RK.
      split; [auto|]. split; [discriminate|]. apply NL. auto. }
    destruct (IH t1 outs' t' k T1 H2 R PL' LE1) as [L1 SP]. split; [exact L1|].
    assert (CLM : claimed t1 k <-> claimed t k \/ (c_clbid (at_course a) = k /\ at_shared a = false)).
    { unfold claimed. rewrite REC. destruct (String.eqb_spec k (c_clbid (at_course a))) as [Ek|N]; simpl.
      2:{ split; [auto|]. intros [H|[H _]]; [auto|congruence]. }
      destruct (at_shared a) eqn:SH; simpl; [split; [auto|intros [H|[_ H]]; [auto|discriminate]]|].
      destruct (cl_failed cl) eqn:CF; simpl.
      - split; [auto|]. intros _. assert (must_fail mc t a) as (_ & Q & _) by (apply FL; reflexivity).
        unfold claimed in Q. congruence.
      - split; [auto|]. intros _. destruct (recorded t k); discriminate. }
    intros [|i] a' cl' NA NC Hk; simpl in NA, NC.
    + injection NA as <-. injection NC as <-. rewrite FL. unfold must_fail. subst k.
      split.
      * intros (S & C & _). auto.
      * intros (S & [C|(j & a' & Lj & _)]); [|lia]. auto.
    + rewrite (SP i a' cl' NA NC Hk). rewrite CLM. split.
      * intros (Hs & [[C|[Ca Sa]]|(j & b & Lj & Nj & Cj & Sj)]); split; auto.
        -- right. exists 0, a. repeat split; auto. lia.
        -- right. exists (S j), b. repeat split; auto. lia.
      * intros (S & [C|([|j] & b & Lj & Nj & Cj & Sj)]); split; auto.
        -- simpl in Nj. injection Nj as <-. auto.
        -- right. exists j, b. repeat split; auto. lia.
Qed.

Lemma claims_exclusive_lemma mc l k :
  good_history l -> plain_in mc k l ->
  exists outs t, run_claims mc [] l = Ok (outs, t) /\ List.length outs = List.length l /\
    List.length (recorded t k) <= 1 /\
    forall i a cl, nth_error l i = Some a -> nth_error outs i = Some cl -> c_clbid (at_course a) = k ->
      (cl_failed cl = true <->
       at_shared a = false /\
       exists j a', j < i /\ nth_error l j = Some a' /\ c_clbid (at_course a') = k /\ at_shared a' = false).
Proof.
  intros G PL. destruct (run_claims_total mc l [] table_ok_nil G) as (outs & t & R & T & L).
  exists outs, t. split; [exact R|]. split; [exact L|].
  destruct (exclusive_step mc l [] outs t k table_ok_nil G R PL) as [LE SP]; [simpl; lia|].
  split; [exact LE|]. intros i a cl NA NC Hk. rewrite (SP i a cl NA NC Hk).
  split; intros (S & H); split; auto. destruct H as [C|H]; auto. exfalso. apply C. reflexivity.
Qed.

Lemma extra_step mc l : forall t outs t' k, table_ok t -> good_history l ->
  run_claims mc t l = Ok (outs, t') ->
  Forall (fun cl => listed mc (cl_course cl) (cl_by cl)) (tl (recorded t k)) ->
  Forall (fun cl => listed mc (cl_course cl) (cl_by cl)) (tl (recorded t' k)) /\
  exists rest, recorded t' k = recorded t k ++ rest.
Proof.
  induction l as [|a l IH]; intros t outs t' k T G R PL.
  - simpl in R. injection R as <- <-. split; [exact PL|]. exists []. now rewrite app_nil_r.
  - apply run_cons in R as (cl & t1 & outs' & MC & R & ->).
    inversion G; subst. destruct (claim_effect_lemma mc t a T H1) as (cl0 & t10 & MC' & CC & CB & FL & T1 & REC).
    rewrite MC in MC'. injection MC' as <- <-.
    assert (PL1 : Forall (fun cl => listed mc (cl_course cl) (cl_by cl)) (tl (recorded t1 k)) /\
                  exists rest, recorded t1 k = recorded t k ++ rest).
    { rewrite REC. destruct (String.eqb_spec k (c_clbid (at_course a))) as [Ek|]; simpl.
      2:{ split; [exact PL|]. exists []. now rewrite app_nil_r. }
      destruct (at_shared a) eqn:SH; simpl; [split; [exact PL|]; exists []; now rewrite app_nil_r|].
      destruct (cl_failed cl) eqn:CF; simpl; [split; [exact PL|]; exists []; now rewrite app_nil_r|].
      split; [|eauto]. destruct (recorded t k) as [|z zs] eqn:RK; simpl; [constructor|].
      apply Forall_app. split; [exact PL|]. constructor; [|constructor].
      rewrite CC, CB.
      (* excluded middle is not needed: listed is decided by the table *)
      destruct (dget mc (c_identity (at_course a))) as [ps|] eqn:M.
      - destruct (reqs_only_spec _ H1) as (rs & _ & RO).
        destruct (in_dec (list_eq_dec string_dec) rs ps) as [I|NI].
        + destruct rs as [|r rs].
          * exfalso. assert (false = true); [|discriminate]. apply FL. unfold must_fail, claimed.
            rewrite <- Ek, RK. split; [auto|]. split; [discriminate|].
            intros (ps' & rs' & _ & _ & RO' & N'). apply N'. eapply reqs_of_fun; eauto.
          * exists ps, (r :: rs). apply dget_multi_entry in M. split; [exact M|]. split; [exact I|].
            split; [exact RO|discriminate].
        + exfalso. assert (false = true); [|discriminate]. apply FL. unfold must_fail, claimed.
          rewrite <- Ek, RK. split; [auto|]. split; [discriminate|].
          intros (ps' & rs' & ME & I & RO' & N'). apply dget_multi_entry in ME.
          assert (ps' = ps) by congruence. subst.
          assert (rs' = rs) by (eapply reqs_of_fun; eauto). subst. auto.
      - exfalso. assert (false = true); [|discriminate]. apply FL. unfold must_fail, claimed.
        rewrite <- Ek, RK. split; [auto|]. split; [discriminate|].
        intros (ps' & rs' & ME & _). apply dget_multi_entry in ME. congruence. }
    destruct PL1 as [PL1 [r1 E1]]. destruct (IH t1 outs' t' k T1 H2 R PL1) as [PL2 [r2 E2]].
    split; [exact PL2|]. exists (r1 ++ r2). rewrite E2, E1, app_assoc. reflexivity.
Qed.

Lemma extra_claims_lemma mc l outs t k first rest :
  good_history l -> run_claims mc [] l = Ok (outs, t) -> recorded t k = first :: rest ->
  Forall (fun cl => listed mc (cl_course cl) (cl_by cl)) rest.
Proof.
  intros G R E. destruct (extra_step mc l [] outs t k table_ok_nil G R) as [H _]; [constructor|].
  rewrite E in H. exact H.
Qed.
