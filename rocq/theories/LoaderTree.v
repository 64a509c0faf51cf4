(** What follows for the trees that are loaded. *)
From Coq Require Import List ZArith QArith Bool Ascii String Lia.
From Verif Require Import Prelude Dec Status Course Claims Exceptions Op Context CondExpr Predicate Limit Assertion Query CourseRule Tree Loader.
From Verif Require Import PathsSpec PathsProofs TreeSolSpec TreeAuditSpec LoaderSpec ClaimsProofs PredicateProofs LoaderProofs AreaOnceSpec.
Import ListNotations.
Local Open Scope string_scope.
Local Open Scope list_scope.

Lemma part_inv n y : part_of n y -> y = n \/
  match n with
  | NCount _ _ items => exists x, In x items /\ part_of x y
  | NReq _ _ (Some x) => part_of x y
  | NCond _ _ t f => part_of t y \/ exists x, f = Some x /\ part_of x y
  | _ => False
  end.
Proof. destruct 1; auto; right; eauto. Qed.

(** the name a loaded course adds to its path *)
Lemma course_place p r x : load_course p r = Ok x -> exists s, r_path x = p ++ [s] /\ is_name s.
Proof.
  unfold load_course, c_path_name. intro H. destruct (c_label r) as [lb|]; cbn -[append] in H; [|discriminate].
  assert (N : forall s, exists t, (if given (rc_section r) then (("*" ++ s) ++ or_empty (rc_section r))%string else ("*" ++ s)%string) = String "*" t) by (intro s; destruct (given (rc_section r)); cbn; eauto).
  destruct (N lb) as (t1 & E1). rewrite E1 in H. clear N E1.
  assert (N : forall s, exists t, (if given (rc_sub_type r) then (String "*" s ++ "." ++ or_empty (rc_sub_type r))%string else String "*" s) = String "*" t) by (intro s; destruct (given (rc_sub_type r)); cbn; eauto).
  destruct (N t1) as (t2 & E2). rewrite E2 in H. clear N E2.
  match type of H with bind (bind ?y _) _ = _ => assert (Y : forall s, y = Ok s -> exists t, s = String "*" t); [|destruct y as [s3|]] end.
  { intros s. destruct (rc_year r); [destruct (rc_term r)|]; intros [=<-]; cbn; eauto. }
  2: discriminate.
  destruct (Y s3 eq_refl) as (t3 & ->). cbn -[append] in H.
  assert (N : forall s, exists t, (if given (rc_institution r) then (String "*" s ++ "(institution=" ++ or_empty (rc_institution r) ++ ")")%string else String "*" s) = String "*" t) by (intro s; destruct (given (rc_institution r)); cbn; eauto).
  destruct (N t3) as (t4 & E4). rewrite E4 in H. clear N E4.
  assert (N : forall s, exists t, (if given (rc_grade r) then (String "*" s ++ "(grade >= " ++ or_empty (rc_grade r) ++ ")")%string else String "*" s) = String "*" t) by (intro s; destruct (given (rc_grade r)); cbn; eauto).
  destruct (N t4) as (t5 & E5). rewrite E5 in H. clear N E5.
  destruct (rc_bad r); [discriminate|]. destruct (negb _); [discriminate|].
  match type of H with bind ?y _ = _ => destruct y end; cbn -[append] in H; [|discriminate].
  match type of H with bind ?y _ = _ => destruct y end; cbn -[append] in H; [|discriminate].
  injection H as <-. exists (String "*" t5). split; [reflexivity|]. intros t [=].
Qed.
Lemma query_place cx c p r x : load_query cx c p r = Ok x -> q_path x = p ++ [".query"].
Proof.
  unfold load_query. intro H. repeat match type of H with bind ?y _ = _ => destruct y; cbn in H; [|discriminate] end.
  destruct (rq_limits_key r); [discriminate|]. match type of H with bind ?y _ = _ => destruct y as [[|]|]; cbn in H; try discriminate end.
  destruct (rq_assert r), (rq_all r); try discriminate; destruct (rq_bad r); try discriminate; injection H as <-; reflexivity.
Qed.

Lemma wf_one s : is_name s -> wf_path [s].
Proof. intro H. constructor; [now right|constructor]. Qed.
Lemma name_dot t : is_name (String "." t). Proof. intros u [=]. Qed.
Lemma name_pct t : is_name (String "%" t). Proof. intros u [=]. Qed.
Lemma name_slash t : is_name (String "/" t). Proof. intros u [=]. Qed.
Lemma below_app p s q : wf_path s -> below (p ++ s) q -> below p q.
Proof.
  intros W (t & N & W' & ->). exists (s ++ t). split; [destruct s; [exact N|discriminate]|]. split; [now apply Forall_app|now rewrite app_assoc].
Qed.
Lemma below_one p s : is_name s -> below p (p ++ [s]).
Proof. intro H. exists [s]. split; [discriminate|]. split; [now apply wf_one|reflexivity]. Qed.
Lemma not_below_self p : ~ below p p.
Proof. intros (s & N & _ & E). rewrite <- (app_nil_r p) in E at 1. apply app_inv_head in E. congruence. Qed.
Lemma below_diff p a b q : a <> b -> below (p ++ [a]) q -> below (p ++ [b]) q -> False.
Proof.
  intros N (s & _ & _ & ->) (t & _ & _ & E). rewrite <- !app_assoc in E. apply app_inv_head in E. cbn in E. congruence.
Qed.

Lemma nodup_two (l m : list path) : NoDup l -> NoDup m -> (forall x, In x l -> In x m -> False) -> NoDup (l ++ m).
Proof.
  induction 1 as [|x l N D IH]; intros M X; [exact M|]. cbn. constructor.
  - rewrite in_app_iff. intros [H|H]; [auto|]. apply (X x); [now left|exact H].
  - apply IH; [exact M|]. intros y Y. apply X. now right.
Qed.

Section Trees.
  Variables (cx : ctx) (c : constants) (tm : list (string * list template)).

  (** the keys of emphases among the entries, as far as they share a path *)
  Definition keys_of (es : list entry) : list string :=
    flat_map (fun e => match e with EEmphasis (String _ _) k => [k] | _ => [] end) es.
  Definition added_keys (ems : list added) : list string := keys_of (map (fun a => EEmphasis (fst (fst a)) (snd (fst a))) ems).
  Lemma expands_keys l es : expands tm l es -> keys_of es = [].
  Proof.
    induction 1 as [|d l es T X IH|d l es key ts rs T G F X IH|d l es key T G X IH]; auto.
    unfold keys_of in *. rewrite flat_map_app, IH, app_nil_r. clear. induction rs; auto.
  Qed.
  Lemma courses_keys rs : keys_of (map ECourse rs) = [].
  Proof. induction rs; auto. Qed.
  Lemma entries_keys l es ems ins : expands tm l es ->
    keys_of (es ++ map (fun a : added => EEmphasis (fst (fst a)) (snd (fst a))) ems ++ map ECourse ins) = added_keys ems.
  Proof.
    intro X. unfold added_keys. assert (A := expands_keys l es X). assert (B := courses_keys ins). unfold keys_of in *.
    rewrite !flat_map_app, A, B, app_nil_r. reflexivity.
  Qed.

  Definition placed (p : path) (n : node) : Prop := NoDup (places n) /\ (forall q, In q (places n) -> below p q) /\ In (path_of n) (places n).
  (** where children lie *)
  Definition kid_place (p : path) (i : nat) (es : list entry) (q : path) : Prop :=
    (exists j, (i <= j)%nat /\ below (p ++ [index_comp j]) q) \/ (exists k, In k (keys_of es) /\ (q = p ++ [".emphasis"; ("%" ++ k)%string] \/ below (p ++ [".emphasis"; ("%" ++ k)%string]) q)).
  Lemma kid_apart p i e es q : NoDup (keys_of (e :: es)) ->
    (match e with EEmphasis (String _ _) k => q = p ++ [".emphasis"; ("%" ++ k)%string] \/ below (p ++ [".emphasis"; ("%" ++ k)%string]) q | _ => below (p ++ [index_comp i]) q end) ->
    kid_place p (S i) es q -> False.
  Proof.
    intros N H K.
    assert (EN : forall j, ".emphasis" <> index_comp j) by (intros j [=]).
    assert (BE : forall k q', q' = p ++ [".emphasis"; ("%" ++ k)%string] \/ below (p ++ [".emphasis"; ("%" ++ k)%string]) q' -> exists t, q' = p ++ [".emphasis"] ++ ("%" ++ k)%string :: t).
    { intros k q' [->|(t & _ & _ & ->)]; [exists []; reflexivity|exists t]. rewrite <- app_assoc. reflexivity. }
    assert (IX : forall j q', below (p ++ [index_comp j]) q' -> exists t, q' = p ++ [index_comp j] ++ t).
    { intros j q' (t & _ & _ & ->). exists t. now rewrite <- app_assoc. }
    assert (II : forall j k, index_comp j = index_comp k -> j = k) by (intros; now apply index_comp_inj).
    destruct e as [d|r|[|a s] k]; cbn [keys_of flat_map] in N.
    1,2,3: apply IX in H as (t & ->); destruct K as [(j & L & B)|(k' & _ & B)];
      [apply IX in B as (t' & E); apply app_inv_head in E; apply (f_equal (hd "")) in E; cbn [hd app] in E; apply II in E; lia
      |apply BE in B as (t' & E); apply app_inv_head in E; apply (f_equal (hd "")) in E; cbn [hd app] in E; now apply (EN i)].
    apply BE in H as (t & ->). destruct K as [(j & L & B)|(k' & K' & B)].
    - apply IX in B as (t' & E). apply app_inv_head in E. apply (f_equal (hd "")) in E. cbn [hd app] in E. now apply (EN j).
    - apply BE in B as (t' & E). apply app_inv_head in E. cbn [app append] in E. assert (k = k') by congruence. subst k'. inversion N; contradiction.
  Qed.

  Lemma places_all :
    (forall ems sc d p o, written cx c tm ems sc d p o -> NoDup (added_keys ems) -> forall n, o = Some n -> placed p n) /\
    (forall sc d p o, written_opt cx c tm sc d p o -> forall n, o = Some n -> placed p n) /\
    (forall ems sc p i es ns, kids cx c tm ems sc p i es ns -> NoDup (keys_of es) ->
       NoDup (flat_map places ns) /\ (forall q, In q (flat_map places ns) -> kid_place p i es q)) /\
    (forall ems sc e p o, written_entry cx c tm ems sc e p o -> forall n, o = Some n ->
       match e with EEmphasis _ k => exists n', placed p n /\ (n = n' /\ path_of n = p ++ [("%" ++ k)%string] /\ forall q, In q (places n) -> q = path_of n \/ below (path_of n) q) | _ => placed p n end) /\
    (forall b name p n, written_body cx c tm b name p n -> placed p n /\ path_of n = p ++ [("%" ++ name)%string] /\ forall q, In q (places n) -> q = path_of n \/ below (path_of n) q).
  Proof.
    apply written_induction.
    - intros ems sc d p name Sh _ n [=<-]. split; [repeat constructor; intros []|]. split; [|now left].
      intros q [<-|[]]. apply below_one, name_dot.
    - intros ems sc d p name r x Sh L _ n [=<-]. destruct (course_place _ _ _ L) as (s & E & N).
      assert (B : below (p ++ [(".proficiency=" ++ name)%string]) (r_path x)) by (rewrite E; now apply below_one).
      cbn -[append] in *. split; [|split; [|now left]].
      + cbn [places f_path]. constructor; [|repeat constructor; intros []]. intros [H|[]]. cbn [f_path] in H. rewrite H in B. now apply not_below_self in B.
      + intros q [<-|[<-|[]]]; [apply below_one, name_dot|]. eapply below_app; [|exact B]. apply wf_one, name_dot.
    - intros ems sc d p r x Sh L _ n [=<-]. destruct (course_place _ _ _ L) as (s & E & N).
      split; [repeat constructor; intros []|]. split; [|now left]. intros q [<-|[]]. rewrite E. now apply below_one.
    - intros ems sc d p r x Sh L _ n [=<-]. apply query_place in L.
      split; [repeat constructor; intros []|]. split; [|now left]. intros q [<-|[]]. rewrite L. apply below_one, name_dot.
    - intros ems sc d p x cond t nt nf Sh BD L T WT IT WF IF waived o O H _ n [=<-].
      destruct (IT (NoDup_nil _) nt eq_refl) as (ND & B & _).
      assert (XT : p ++ [".cond"; "/t"] = (p ++ [".cond"]) ++ ["/t"]) by now rewrite <- app_assoc.
      assert (XF : p ++ [".cond"; "/f"] = (p ++ [".cond"]) ++ ["/f"]) by now rewrite <- app_assoc.
      rewrite XT in B. rewrite XF in IF.
      assert (BF : NoDup (match nf with Some x => places x | None => [] end) /\ forall q, In q (match nf with Some x => places x | None => [] end) -> below ((p ++ [".cond"]) ++ ["/f"]) q).
      { destruct nf as [y|]; [|split; [constructor|intros q []]]. destruct (IF y eq_refl) as (A1 & A2 & _). split; assumption. }
      destruct BF as [NF BF]. split; [|split; [|now left]]; cbn [places d_path].
      + constructor.
        * rewrite in_app_iff. intros [K|K]; [apply B in K|apply BF in K]; (eapply below_app in K; [|apply wf_one, name_slash]); now apply not_below_self in K.
        * apply nodup_two; [exact ND|exact NF|]. intros q Q1 Q2. eapply (below_diff (p ++ [".cond"]) "/t" "/f"); [discriminate|apply B, Q1|apply BF, Q2].
      + intros q [<-|Q]; [apply below_one, name_dot|]. eapply below_app; [apply wf_one, name_dot|].
        apply in_app_or in Q as [Q|Q]; [apply B in Q|apply BF in Q]; (eapply below_app; [apply wf_one, name_slash|exact Q]).
    - intros. discriminate.
    - intros ems sc d p k l es ins audits nodes z Sh L X IN entries K IK AU AK BD Z0 HI NK n [=<-].
      destruct IK as (ND & B). { match goal with |- NoDup ?x => replace x with (added_keys ems) by (symmetry; exact (entries_keys l es ems ins X)) end. exact NK. }
      assert (B' : forall q, In q (flat_map places nodes) -> below (p ++ [".count"]) q).
      { intros q Q. apply B in Q as [(j & _ & Q)|(k' & _ & [->|Q])].
        - eapply below_app; [|exact Q]. constructor; [left; eauto|constructor].
        - exists [".emphasis"; ("%" ++ k')%string]. split; [discriminate|]. split; [|reflexivity]. constructor; [right; apply name_dot|]. apply wf_one, name_pct.
        - eapply below_app; [|exact Q]. constructor; [right; apply name_dot|]. apply wf_one, name_pct. }
      split; [|split; [|now left]]; cbn [places n_path].
      + constructor; [|exact ND]. intro Q. apply B' in Q. now apply not_below_self in Q.
      + intros q [<-|Q]; [apply below_one, name_dot|]. eapply below_app; [apply wf_one, name_dot|]. now apply B'.
    - intros ems sc d p name b n Sh W IW _ n' [=<-]. apply IW.
    - intros ems sc d p name b n Sh S W IW _ n' [=<-]. apply IW.
    - intros. discriminate.
    - intros sc d p o W IW n E. apply IW; [constructor|exact E].
    - intros ems sc p i _. split; [constructor|intros q []].
    - intros ems sc p i e es n ns W IW K IK N.
      assert (N' : NoDup (keys_of es)) by (destruct e as [| |[|a s] k]; cbn in N; try exact N; inversion N; assumption).
      destruct (IK N') as [ND B]. specialize (IW n eq_refl).
      assert (PL : NoDup (places n) /\ forall q, In q (places n) -> match e with EEmphasis (String _ _) k => q = p ++ [".emphasis"; ("%" ++ k)%string] \/ below (p ++ [".emphasis"; ("%" ++ k)%string]) q | _ => below (p ++ [index_comp i]) q end).
      { destruct e as [d|r|[|a s] k]; cbn [entry_path] in IW.
        - destruct IW as (A1 & A2 & _). split; assumption.
        - destruct IW as (A1 & A2 & _). split; assumption.
        - destruct IW as (_ & (A1 & A2 & _) & _). split; assumption.
        - destruct IW as (_ & (A1 & A2 & _) & _ & A3 & A4). split; [assumption|]. intros q Q. apply A4 in Q. rewrite A3, <- app_assoc in Q. exact Q. }
      destruct PL as [P1 P2]. cbn [flat_map]. split.
      + apply nodup_two; [exact P1|exact ND|]. intros q Q1 Q2. eapply kid_apart; [exact N|apply P2, Q1|apply B, Q2].
      + intros q Q. apply in_app_or in Q as [Q|Q].
        * apply P2 in Q. destruct e as [d|r|[|a s] k]; [left; exists i; split; [lia|exact Q]..|]. right. exists k. split; [now left|exact Q].
        * apply B in Q. destruct Q as [(j & J & Q)|(k & K' & Q)]; [left; exists j; split; [lia|exact Q]|right; exists k; split; [|exact Q]].
          destruct e as [| |[|a s] k']; cbn; try exact K'. now right.
    - intros ems sc p i e es ns W IW K IK N.
      assert (N' : NoDup (keys_of es)) by (destruct e as [| |[|a s] k]; cbn in N; try exact N; inversion N; assumption).
      destruct (IK N') as [ND B]. split; [exact ND|]. intros q Q. apply B in Q.
      destruct Q as [(j & J & Q)|(k & K' & Q)]; [left; exists j; split; [lia|exact Q]|right; exists k; split; [|exact Q]].
      destruct e as [| |[|a s] k']; cbn; try exact K'. now right.
    - intros ems sc d p o W IW n E. apply IW; [constructor|exact E].
    - intros ems sc r p x L n [=<-]. destruct (course_place _ _ _ L) as (s & E & N).
      split; [repeat constructor; intros []|]. split; [|now left]. intros q [<-|[]]. rewrite E. now apply below_one.
    - intros ems sc s k b p n S W IW n' [=<-]. exists n. destruct IW as (A & B & C). auto.
    - intros b name p d n BD RS NB W IW U. destruct (IW (NoDup_nil _) n eq_refl) as (ND & B & _).
      split; [|split; [reflexivity|]].
      + split; [|split; [|now left]]; cbn [places e_path].
        * constructor; [|exact ND]. intro Q. apply B in Q. now apply not_below_self in Q.
        * intros q [<-|Q]; [apply below_one, name_pct|]. eapply below_app; [apply wf_one, name_pct|]. now apply B.
      + intros q [<-|Q]; [now left|right; now apply B].
    - intros b name p BD RS AU NB. split; [|split; [reflexivity|]].
      + split; [repeat constructor; intros []|]. split; [|now left]. intros q [<-|[]]. apply below_one, name_pct.
      + intros q [<-|[]]. now left.
  Qed.

  Lemma course_fresh p r x : load_course p r = Ok x -> fresh_course x.
  Proof.
    unfold load_course. intro H. repeat match type of H with bind ?y _ = _ => destruct y; cbn -[append] in H; [|discriminate] end.
    destruct (rc_bad r); [discriminate|]. destruct (negb _); [discriminate|].
    repeat match type of H with bind ?y _ = _ => destruct y; cbn -[append] in H; [|discriminate] end.
    injection H as <-. repeat split; try reflexivity. cbn. intros ->. now rewrite orb_true_r.
  Qed.
  Lemma query_fresh p r x : load_query cx c p r = Ok x -> fresh_part (NQuery KRule x).
  Proof.
    unfold load_query. intro H. repeat match type of H with bind ?y _ = _ => destruct y; cbn in H; [|discriminate] end.
    destruct (rq_limits_key r); [discriminate|]. match type of H with bind ?y _ = _ => destruct y as [[|]|]; cbn in H; try discriminate end.
    destruct (rq_assert r), (rq_all r); try discriminate; destruct (rq_bad r); try discriminate; injection H as <-; unfold fresh_part; cbn [kind_of q_excluded q_claims q_forced q_source q_allow];
      (split; [reflexivity|]); (split; [reflexivity|]); (split; [reflexivity|]); (split; [reflexivity|]); intros ->; reflexivity.
  Qed.
  Definition all_fresh (n : node) : Prop := forall x, part_of n x -> fresh_part x.
  Lemma leaf_fresh n : fresh_part n -> match n with NCount _ _ _ | NReq _ _ (Some _) | NCond _ _ _ _ => False | _ => True end -> all_fresh n.
  Proof. intros F L x H. apply part_inv in H as [->|H]; [exact F|]. destruct n as [| | |? ? [|]| |]; contradiction. Qed.
  Lemma fresh_all :
    (forall ems sc d p o, written cx c tm ems sc d p o -> forall n, o = Some n -> all_fresh n) /\
    (forall sc d p o, written_opt cx c tm sc d p o -> forall n, o = Some n -> all_fresh n) /\
    (forall ems sc p i es ns, kids cx c tm ems sc p i es ns -> forall n, In n ns -> all_fresh n) /\
    (forall ems sc e p o, written_entry cx c tm ems sc e p o -> forall n, o = Some n -> all_fresh n) /\
    (forall b name p n, written_body cx c tm b name p n -> all_fresh n).
  Proof.
    apply written_induction.
    - intros ems sc d p name Sh n [=<-]. apply leaf_fresh; [|exact I]. split; [reflexivity|]. repeat split; discriminate.
    - intros ems sc d p name r x Sh L n [=<-]. apply leaf_fresh; [|exact I]. split; [reflexivity|]. split; [reflexivity|]. split; [reflexivity|].
      intros k r' [=<- <-]. split; [reflexivity|]. eapply course_fresh, L.
    - intros ems sc d p r x Sh L n [=<-]. apply leaf_fresh; [|exact I]. split; [reflexivity|]. eapply course_fresh, L.
    - intros ems sc d p r x Sh L n [=<-]. apply leaf_fresh; [|exact I]. eapply query_fresh, L.
    - intros ems sc d p x cond t nt nf Sh BD L T WT IT WF IF waived o O H n [=<-] y Y.
      apply part_inv in Y as [->|[Y|(z & -> & Y)]]; [split; [reflexivity|exact I]|now apply (IT nt eq_refl)|now apply (IF z eq_refl)].
    - intros. discriminate.
    - intros ems sc d p k l es ins audits nodes z Sh L X IN entries K IK AU AK BD Z0 HI n [=<-] y Y.
      apply part_inv in Y as [->|(x & X' & Y)]; [split; [reflexivity|]; split; [reflexivity|exact Z0]|now apply (IK x X')].
    - intros ems sc d p name b n Sh W IW n' [=<-]. apply IW.
    - intros ems sc d p name b n Sh S W IW n' [=<-]. apply IW.
    - intros. discriminate.
    - auto.
    - intros ems sc p i n [].
    - intros ems sc p i e es n ns W IW K IK x [<-|H]; auto.
    - auto.
    - auto.
    - intros ems sc r p x L n [=<-]. apply leaf_fresh; [|exact I]. split; [reflexivity|]. eapply course_fresh, L.
    - intros ems sc s k b p n S W IW n' [=<-]. apply IW.
    - intros b name p d n BD RS NB W IW U y Y. apply part_inv in Y as [->|Y]; [split; [reflexivity|]|now apply (IW n eq_refl)].
      split; [reflexivity|]. split; [exact NB|discriminate].
    - intros b name p BD RS AU NB. apply leaf_fresh; [|exact I]. split; [reflexivity|]. repeat split; auto.
  Qed.

  (** ** From places to siblings *)
  Lemma places_part n x : part_of n x -> exists a b, places n = a ++ places x ++ b.
  Proof.
    induction 1 as [n|k i items x y X P IH|k i x y P IH|k i t f y P IH|k i t x y P IH].
    - exists [], []. now rewrite app_nil_r.
    - destruct IH as (a & b & E). apply in_split in X as (l1 & l2 & ->). cbn [places]. rewrite flat_map_app. cbn [flat_map]. rewrite E.
      exists (n_path i :: flat_map places l1 ++ a), (b ++ flat_map places l2). cbn. now rewrite <- !app_assoc.
    - destruct IH as (a & b & E). cbn [places]. rewrite E. exists (e_path i :: a), b. reflexivity.
    - destruct IH as (a & b & E). cbn [places]. rewrite E. exists (d_path i :: a), (b ++ match f with Some x => places x | None => [] end). cbn. now rewrite <- !app_assoc.
    - destruct IH as (a & b & E). cbn [places]. rewrite E. exists (d_path i :: places t ++ a), b. cbn. now rewrite <- !app_assoc.
  Qed.
  Lemma nodup_mid (a x b : list path) : NoDup (a ++ x ++ b) -> NoDup x.
  Proof. induction a as [|y a IH]; cbn; intro H; [|inversion H; auto]. induction x as [|z x IH]; [constructor|]. cbn in H. inversion H; subst. constructor; [intro; apply H2, in_or_app; auto|auto]. Qed.
  Lemma own_place n : In (path_of n) (places n).
  Proof. destruct n; now left. Qed.
  Lemma nodup_paths l : NoDup (flat_map places l) -> NoDup (map path_of l).
  Proof.
    induction l as [|x l IH]; cbn; [constructor|]. intro H. constructor.
    - rewrite in_map_iff. intros (y & E & Y).
      assert (A := own_place x). assert (B : In (path_of x) (flat_map places l)) by (apply in_flat_map; exists y; split; [exact Y|]; rewrite <- E; apply own_place).
      clear - H A B. induction (places x) as [|z t IH]; [destruct A|]. cbn in H. inversion H; subst. destruct A as [->|A]; [apply H2, in_or_app; now right|auto].
    - apply IH. rewrite <- (app_nil_r (flat_map places l)) in H. now apply (nodup_mid (places x) (flat_map places l) []).
  Qed.
  Lemma siblings_of n p : wf_path p -> NoDup (places n) -> (forall q, In q (places n) -> below p q) ->
    forall k i items, part_of n (NCount k i items) -> siblings items.
  Proof.
    intros W N B k i items P. apply places_part in P as (a & b & E). rewrite E in N, B. apply nodup_mid in N. cbn [places] in N. inversion N; subst.
    split; [now apply nodup_paths|]. apply Forall_forall. intros x X.
    destruct (B (path_of x)) as (s & _ & Ws & ->); [|now apply Forall_app].
    apply in_or_app. right. apply in_or_app. left. right. apply in_flat_map. exists x. split; [exact X|apply own_place].
  Qed.

  (** ** Hidden rules *)
  Lemma leaf_enough n : match n with NCount _ _ _ | NReq _ _ (Some _) | NCond _ _ _ _ => False | _ => True end -> enough_children n.
  Proof. intros L k i items H. apply part_inv in H as [<-|H]; [contradiction|]. destruct n as [| | |? ? [|]| |]; contradiction. Qed.
  Lemma expands_from l es : expands tm l es -> forall d, In (EData d) es -> In d l.
  Proof.
    induction 1 as [|d l es T X IH|d l es key ts rs T G F X IH|d l es key T G X IH]; intros y; cbn; try tauto.
    - intros [[=->]|H]; auto.
    - rewrite in_app_iff. intros [H|H]; [|auto]. apply in_map_iff in H as (r & [=] & _).
    - auto.
  Qed.
  Definition shown_scope (sc : scope) : Prop := forall k b, sc k = Some b -> nothing_hidden_in b.
  Definition shown_added (ems : list added) : Prop := forall a, In a ems -> nothing_hidden_in (snd a).
  Lemma shown_with ems : forall sc, shown_scope sc -> shown_added ems -> shown_scope (with_added sc ems).
  Proof.
    induction ems as [|[[e k] b] t IH]; intros sc S A; cbn; [exact S|]. apply IH; [|intros a I'; apply A; now right].
    intros s b'. destruct (String.eqb_spec s k) as [->|N]; [|apply S]. intros [=<-]. apply (A (e, k, b)). now left.
  Qed.
  Lemma shown_nil : shown_added [].
  Proof. intros a []. Qed.
  Lemma enough_all :
    (forall ems sc d p o, written cx c tm ems sc d p o -> nothing_hidden d -> shown_scope sc -> shown_added ems -> exists n, o = Some n /\ enough_children n) /\
    (forall sc d p o, written_opt cx c tm sc d p o -> (forall x, d = Some x -> nothing_hidden x) -> shown_scope sc -> forall n, o = Some n -> enough_children n) /\
    (forall ems sc p i es ns, kids cx c tm ems sc p i es ns -> (forall d, In (EData d) es -> nothing_hidden d) -> shown_scope sc -> shown_added ems ->
       List.length ns = List.length es /\ forall n, In n ns -> enough_children n) /\
    (forall ems sc e p o, written_entry cx c tm ems sc e p o -> (forall d, e = EData d -> nothing_hidden d) -> shown_scope sc -> shown_added ems -> exists n, o = Some n /\ enough_children n) /\
    (forall b name p n, written_body cx c tm b name p n -> nothing_hidden_in b -> enough_children n).
  Proof.
    apply written_induction.
    - intros. eexists. split; [reflexivity|]. now apply leaf_enough.
    - intros. eexists. split; [reflexivity|]. now apply leaf_enough.
    - intros. eexists. split; [reflexivity|]. now apply leaf_enough.
    - intros. eexists. split; [reflexivity|]. now apply leaf_enough.
    - intros ems sc d p x cond t nt nf Sh BD LE TH Wt It Wf If_ wv o OV NH HD SS SA. eexists. split; [reflexivity|].
      assert (RC : rd_cond d = Some x) by apply Sh.
      destruct It as (n & [=<-] & Et); [intros y Y; apply HD; eapply mt_then; eauto|exact SS|exact shown_nil|].
      intros k i items P. apply part_inv in P as [[=]|[P|(y & -> & P)]]; [eapply Et, P|].
      eapply If_; [|exact SS|reflexivity|exact P]. intros z Z y' Y'. apply HD. eapply mt_else; eauto.
    - intros ems sc d p x cond t nt nf Sh BD LE TH Wt It Wf If_ ER RH GW HD SS SA.
      assert (RC : rd_cond d = Some x) by apply Sh. assert (X := HD d (mt_self d) x RC). congruence.
    - intros ems sc d p k l es ins au ns z Sh L XE IN entries K IK AU AK BD Z0 HI HD SS SA. eexists. split; [reflexivity|].
      assert (RK : rd_count d = Some k) by apply Sh.
      destruct IK as [LN EK]; [|exact SS|exact SA|].
      { intros y Y. unfold entries in Y. rewrite !in_app_iff in Y. destruct Y as [Y|[Y|Y]].
        - intros z' Z'. apply HD. eapply mt_item; eauto. eapply expands_from; eauto.
        - apply in_map_iff in Y as (? & [=] & _).
        - apply in_map_iff in Y as (? & [=] & _). }
      intros k' i items P. apply part_inv in P as [[= -> -> ->]|(y & Y & P)]; [cbn|eapply EK; eauto].
      rewrite LN. exact HI.
    - intros ems sc d p name b n Sh W IW HD SS SA. eexists. split; [reflexivity|]. apply IW. intros y Y. apply HD. eapply mt_named; [apply Sh|exact Y].
    - intros ems sc d p name b n Sh S W IW HD SS SA. eexists. split; [reflexivity|]. apply IW. eapply SS, S.
    - discriminate.
    - intros sc d p o W IW HD SS n ->. destruct IW as (n' & [=<-] & E); auto using shown_nil.
    - intros. split; [reflexivity|]. intros n [].
    - intros ems sc p i e es n ns We Ie K IK HD SS SA. destruct Ie as (n' & [=<-] & E); auto; [intros d ->; apply HD; now left|].
      destruct IK as [L EK]; auto; [intros d I'; apply HD; now right|]. split; [cbn; now rewrite L|]. intros y [<-|Y]; auto.
    - intros ems sc p i e es ns We Ie K IK HD SS SA. destruct Ie as (n' & [=] & E); auto; intros d ->; apply HD; now left.
    - intros ems sc d p o W IW HD SS SA. apply IW; auto using shown_nil, shown_with.
    - intros. eexists. split; [reflexivity|]. now apply leaf_enough.
    - intros ems sc s k b p n S W IW HD SS SA. eexists. split; [reflexivity|]. apply IW. eapply shown_with; eauto.
    - intros b name p d n BD RS NB W IW U HD. destruct IW as (n' & [=<-] & E).
      + intros y Y. apply HD. eapply mi_result; eauto.
      + intros k b' O y Y. unfold own_scope in O. destruct (rb_reqs b) as [l|] eqn:R; [|discriminate]. apply HD. eapply mi_req; [exact R|eapply dget_Some_in, O|exact Y].
      + exact shown_nil.
      + intros k i items P. apply part_inv in P as [[=]|P]. eapply E, P.
    - intros. now apply leaf_enough.
  Qed.

  (** ** Inserted courses *)
  Lemma leaf_inserted n : match n with NCount _ _ _ | NReq _ _ (Some _) | NCond _ _ _ _ => False | _ => True end -> insertions_present cx n.
  Proof. intros L k i items H. apply part_inv in H as [<-|H]; [contradiction|]. destruct n as [| | |? ? [|]| |]; contradiction. Qed.
  Lemma kids_app ems sc p : forall es i fs ns, kids cx c tm ems sc p i (es ++ fs) ns ->
    exists a b, ns = a ++ b /\ kids cx c tm ems sc p (i + List.length es) fs b.
  Proof.
    induction es as [|e es IH]; intros i fs ns K; cbn in K.
    - exists [], ns. split; [reflexivity|]. cbn. now rewrite Nat.add_0_r.
    - cbn [List.length]. rewrite Nat.add_succ_r. inversion K; subst.
      + match goal with K' : kids _ _ _ _ _ _ (S i) _ _ |- _ => destruct (IH (S i) fs ns0 K') as (a & b & -> & K2) end. exists (n :: a), b. split; [reflexivity|exact K2].
      + match goal with K' : kids _ _ _ _ _ _ (S i) _ _ |- _ => destruct (IH (S i) fs ns K') as (a & b & -> & K2) end. exists a, b. split; [reflexivity|exact K2].
  Qed.
  Lemma kids_courses ems sc p : forall rs i ns, kids cx c tm ems sc p i (map ECourse rs) ns ->
    Forall2 (fun r n => exists q x, load_course q r = Ok x /\ n = NCourse KRule x) rs ns.
  Proof.
    induction rs as [|r rs IH]; intros i ns K; cbn in K; inversion K; subst; [constructor| |]; match goal with W : written_entry _ _ _ _ _ _ _ _ |- _ => inversion W; subst end.
    constructor; [eauto|eapply IH; eauto].
  Qed.
  Lemma course_fields p r x : load_course p r = Ok x -> r_clbid x = rc_clbid r /\ r_inserted x = rc_inserted r /\ (rc_from_claimed r = false -> r_allow x = rc_allow r).
  Proof.
    unfold load_course. intro H. repeat match type of H with bind ?y _ = _ => destruct y; cbn -[append] in H; [|discriminate] end.
    destruct (rc_bad r); [discriminate|]. destruct (negb _); [discriminate|].
    repeat match type of H with bind ?y _ = _ => destruct y; cbn -[append] in H; [|discriminate] end.
    injection H as <-. repeat split; try reflexivity. cbn. intros ->. now rewrite orb_false_r.
  Qed.
  Lemma inserted_here es : forall rs, Forall2 (insertion cx) es rs -> forall ns,
    Forall2 (fun r n => exists q x, load_course q r = Ok x /\ n = NCourse KRule x) rs ns ->
    Forall2 (fun e x => exists k f c, ex_act e = AInsert k f /\ forced_by_clbid cx k = Ok c /\ inserted_child (c_clbid c) f x) es ns.
  Proof.
    induction 1 as [|e r es rs (k & f & c' & A & FB & ->) _ IH]; intros ns H; inversion H; subst; constructor; [|auto].
    destruct H2 as (q & x & L & ->). apply course_fields in L as (L1 & L2 & L3). cbn in *. exists k, f, c'. split; [exact A|]. split; [exact FB|].
    exists x. auto.
  Qed.
  Lemma inserted_all :
    (forall ems sc d p o, written cx c tm ems sc d p o -> forall n, o = Some n -> insertions_present cx n) /\
    (forall sc d p o, written_opt cx c tm sc d p o -> forall n, o = Some n -> insertions_present cx n) /\
    (forall ems sc p i es ns, kids cx c tm ems sc p i es ns -> forall n, In n ns -> insertions_present cx n) /\
    (forall ems sc e p o, written_entry cx c tm ems sc e p o -> forall n, o = Some n -> insertions_present cx n) /\
    (forall b name p n, written_body cx c tm b name p n -> insertions_present cx n).
  Proof.
    apply written_induction.
    - intros ems sc d p name Sh n [=<-]. now apply leaf_inserted.
    - intros ems sc d p name r x Sh L n [=<-]. now apply leaf_inserted.
    - intros ems sc d p r x Sh L n [=<-]. now apply leaf_inserted.
    - intros ems sc d p r x Sh L n [=<-]. now apply leaf_inserted.
    - intros ems sc d p x cond t nt nf Sh BD LE TH Wt It Wf If_ wv o OV NH n [=<-] k i items P.
      apply part_inv in P as [[=]|[P|(y & -> & P)]]; [eapply It, P; reflexivity|eapply If_, P; reflexivity].
    - discriminate.
    - intros ems sc d p k l es ins au ns z Sh L XE IN entries K IK AU AK BD Z0 HI n [=<-] k' i items P.
      apply part_inv in P as [[= -> -> ->]|(y & Y & P)]; [|eapply IK; eauto]. cbn [n_path].
      unfold entries in K. rewrite app_assoc in K. apply kids_app in K as (a & b & -> & K). exists a, b. split; [reflexivity|].
      eapply inserted_here; [exact IN|eapply kids_courses, K].
    - intros ems sc d p name b n Sh W IW n' [=<-]. exact IW.
    - intros ems sc d p name b n Sh S W IW n' [=<-]. exact IW.
    - discriminate.
    - auto.
    - intros ems sc p i n [].
    - intros ems sc p i e es n ns We Ie K IK y [<-|Y]; auto.
    - auto.
    - auto.
    - intros ems sc r p x L n [=<-]. now apply leaf_inserted.
    - intros ems sc s k b p n S W IW n' [=<-]. exact IW.
    - intros b name p d n BD RS NB W IW U k i items P. apply part_inv in P as [[=]|P]. eapply IW, P. reflexivity.
    - intros. now apply leaf_inserted.
  Qed.
End Trees.
