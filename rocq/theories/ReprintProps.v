(** C175: a stored result printed again looks as it did when it was printed first. *)
From Coq Require Import List ZArith QArith Bool String Ascii Permutation Lia.
From Verif Require Import Transcript Prelude Dec Course Exceptions Paths Keys Json Report Area Reprint ReprintSpec.
From Verif Require Import Op Predicate ListFacts TranscriptSpec TranscriptProofs TranscriptProps PredicateProofs JsonProps ReportProps.
Import ListNotations.
Local Open Scope string_scope.
Local Infix "+++" := (@app _) (at level 61, right associativity).

(** ** The printer looks up the ids that are in the dictionary, and nothing else *)
Lemma bind_ext {A B} (a : res A) (f g : A -> res B) : (forall x, a = Ok x -> f x = g x) -> bind a f = bind a g.
Proof. destruct a; cbn; auto. Qed.
Lemma mapr_ext {A B} (f g : A -> res B) l : (forall x, In x l -> f x = g x) -> mapr f l = mapr g l.
Proof. induction l as [|x l IH]; intro H; [reflexivity|]. cbn. rewrite (H x (or_introl eq_refl)), IH; [reflexivity|]. intros y I. apply H. right. exact I. Qed.
Lemma jfind_ext {B} (f g : json -> B) k d : (forall v, In (k, v) d -> f v = g v) -> jfind f k d = jfind g k d.
Proof.
  induction d as [|[x v] d IH]; intro H; [reflexivity|]. cbn. destruct (x =? k) eqn:E.
  - apply String.eqb_eq in E. subst x. rewrite (H v (or_introl eq_refl)). reflexivity.
  - apply IH. intros w I. apply H. right. exact I.
Qed.
Lemma jsub_ext {B} (f g : json -> res B) k d : (forall v, In (k, v) d -> f v = g v) -> jsub f k d = jsub g k d.
Proof. intro H. unfold jsub. rewrite (jfind_ext f g k d H). reflexivity. Qed.
Lemma jget_in d k v : jget d k = Some v -> In (k, v) d.
Proof.
  unfold jget. induction d as [|[x w] d IH]; [discriminate|]. cbn. destruct (x =? k) eqn:E; intro H; [|right; auto].
  injection H as <-. apply String.eqb_eq in E. subst. left. reflexivity.
Qed.
Lemma jkey_in d k v : jkey d k = Ok v -> In (k, v) d.
Proof. unfold jkey, key. destruct (jget d k) eqn:E; [|discriminate]. intro H. injection H as <-. apply jget_in, E. Qed.
Lemma jitems_is j l : jitems j = Ok l -> j = JList l.
Proof. destruct j; cbn; try discriminate. intro H. injection H as <-. reflexivity. Qed.
Lemma jobj_is j d : jobj j = Ok d -> j = JObj d.
Proof. destruct j; cbn; try discriminate. intro H. injection H as <-. reflexivity. Qed.
Lemma jtext_is j s : jtext j = Ok s -> j = JStr s.
Proof. destruct j; cbn; try discriminate. intro H. injection H as <-. reflexivity. Qed.
Lemma jtexts_in j l s : jtexts j = Ok l -> In s l -> occurs s j.
Proof.
  unfold jtexts. destruct (jitems j) as [js|] eqn:E; cbn [bind]; [|discriminate]. apply jitems_is in E. subst j. intros M I. apply mapr_ok in M.
  assert (X : exists x, In x js /\ jtext x = Ok s).
  { clear -M I. induction M as [|x y js l H M IH]; [destruct I|]. destruct I as [<-|I]; [exists x; split; [left; reflexivity|exact H]|]. destruct (IH I) as [z [J K]]. exists z. split; [right; exact J|exact K]. }
  destruct X as [x [J K]]. apply jtext_is in K. subst x. apply (oc_list s js _ J). constructor.
Qed.

Section Same.
  Variables (repr quote : string -> string) (g4 dtext : Q -> string) (cs cs' : list course) (paths ranks : bool).
  Definition agree (j : json) : Prop := forall k, occurs k j -> on_transcript cs k = on_transcript cs' k.
  Lemma agree_list l j : agree (JList l) -> In j l -> agree j.
  Proof. intros A I k O. apply A. apply (oc_list k l j I O). Qed.
  Lemma agree_obj d x j : agree (JObj d) -> In (x, j) d -> agree j.
  Proof. intros A I k O. apply A. apply (oc_obj k d x j I O). Qed.
  Lemma agree_text k : agree (JStr k) -> on_transcript cs k = on_transcript cs' k.
  Proof. intro A. apply A. constructor. Qed.

  Lemma print_course_same indent j : agree j ->
    print_course repr quote g4 dtext cs paths ranks indent j = print_course repr quote g4 dtext cs' paths ranks indent j.
  Proof.
    intro A. unfold print_course. apply bind_ext. intros d D. apply jobj_is in D. subst j.
    apply bind_ext. intros ps _. apply bind_ext. intros rp _. apply bind_ext. intros cls C.
    destruct (jkey d "claims") as [l|] eqn:K; cbn [bind] in C; [|discriminate]. apply jkey_in in K. apply jitems_is in C. subst l.
    match goal with |- bind ?a ?f = bind ?b ?f => assert (E : a = b) end; [|rewrite E; reflexivity].
    destruct cls as [|x cls]; [reflexivity|]. apply bind_ext. intros k H. apply bind_ext. intros s T. apply jtext_is in T. subst k.
    destruct (jobj x) as [cd|] eqn:X; cbn [bind] in H; [|discriminate]. apply jobj_is in X. subst x. apply jkey_in in H.
    f_equal. apply agree_text. eapply agree_obj; [|exact H]. eapply agree_list; [|apply in_eq]. eapply agree_obj; [exact A|exact K].
  Qed.
  Lemma print_proficiency_same indent d : agree (JObj d) ->
    print_proficiency repr quote g4 dtext cs paths ranks indent d = print_proficiency repr quote g4 dtext cs' paths ranks indent d.
  Proof.
    intro A. unfold print_proficiency. do 4 (apply bind_ext; intros ? _). apply bind_ext. intros c C. apply jkey_in in C.
    apply bind_ext. intros s _. destruct (ok_value s); [|reflexivity]. rewrite (print_course_same (indent + 4) c); [reflexivity|]. eapply agree_obj; eauto.
  Qed.
  Lemma single_same indent ins d : agree (JObj d) ->
    str_single_assertion repr quote g4 dtext cs paths ranks indent ins d = str_single_assertion repr quote g4 dtext cs' paths ranks indent ins d.
  Proof.
    intro A. unfold str_single_assertion. do 10 (apply bind_ext; intros ? _). apply bind_ext. intros ks K. apply bind_ext. intros ip _.
    match goal with |- bind ?a ?f = bind ?b ?f => assert (E : a = b) end; [|rewrite E; reflexivity].
    apply mapr_ext. intros k I. apply bind_ext. intros own _.
    assert (S : on_transcript cs k = on_transcript cs' k); [|rewrite S; reflexivity].
    apply (Permutation_in _ (isort_perm _ _)) in I. destruct (jget d "resolved_clbids") as [l|] eqn:G; [|injection K as <-; destruct I].
    apply jget_in in G. apply A. apply (oc_obj k d _ _ G). eapply jtexts_in; eauto.
  Qed.
  (** induction on dictionaries *)
  Lemma json_nested (P : json -> Prop) : P JNull -> (forall b, P (JBool b)) -> (forall z, P (JInt z)) -> (forall t, P (JStr t)) -> (forall q, P (JNum q)) ->
    (forall l, (forall x, In x l -> P x) -> P (JList l)) -> (forall d, (forall x v, In (x, v) d -> P v) -> P (JObj d)) -> forall j, P j.
  Proof.
    intros HN HB HI HS HQ HL HO. fix IH 1. intros [|b|z|t|q|l|d]; [exact HN|apply HB|apply HI|apply HS|apply HQ|apply HL|apply HO].
    - induction l as [|y l IL]; [intros x []|]. intros x [<-|I]; [apply IH|apply IL, I].
    - induction d as [|[k y] d ID]; [intros x v []|]. intros x v [E|I]; [|apply (ID x v I)]. injection E as _ <-. apply IH.
  Qed.
  Lemma assertion_same j : forall indent ins, agree j ->
    str_assertion repr quote g4 dtext cs paths ranks indent ins j = str_assertion repr quote g4 dtext cs' paths ranks indent ins j.
  Proof.
    induction j as [| | | | |l IH|d IH] using json_nested; intros indent ins A; [reflexivity|reflexivity|reflexivity|reflexivity|reflexivity|reflexivity|].
    cbn [str_assertion]. apply bind_ext. intros ty _. destruct (jis ty "assertion"); [apply single_same, A|].
    destruct (jis ty "assertion--if" || jis ty "assertion--when"); [|reflexivity].
    do 4 (apply bind_ext; intros ? _).
    rewrite (jsub_ext (str_assertion repr quote g4 dtext cs paths ranks (indent + 4) ins) (str_assertion repr quote g4 dtext cs' paths ranks (indent + 4) ins))
      by (intros v I; apply (IH _ _ I); eapply agree_obj; eauto).
    apply bind_ext. intros t _.
    match goal with |- bind (match jfind ?f _ _ with _ => _ end) _ = bind (match jfind ?g _ _ with _ => _ end) _ => rewrite (jfind_ext f g) end; [reflexivity|].
    intros v I. destruct (jtrue v); [|reflexivity]. rewrite (IH _ _ I); [reflexivity|eapply agree_obj; eauto].
  Qed.
  Lemma claim_same {B} (f : string -> option course -> B) x : agree x ->
    (let! k := let! x := jobj x in let! k := jkey x "clbid" in jtext k in Ok (f k (on_transcript cs k))) =
    (let! k := let! x := jobj x in let! k := jkey x "clbid" in jtext k in Ok (f k (on_transcript cs' k))).
  Proof.
    intro A. apply bind_ext. intros k H. destruct (jobj x) as [d|] eqn:D; cbn [bind] in H; [|discriminate]. apply jobj_is in D. subst x.
    destruct (jkey d "clbid") as [v|] eqn:K; cbn [bind] in H; [|discriminate]. apply jkey_in in K. apply jtext_is in H. subst v.
    rewrite (agree_text k); [reflexivity|]. eapply agree_obj; eauto.
  Qed.
  Lemma print_query_same indent d : agree (JObj d) ->
    print_query repr quote g4 dtext cs paths ranks indent d = print_query repr quote g4 dtext cs' paths ranks indent d.
  Proof.
    intro A. unfold print_query. do 7 (apply bind_ext; intros ? _).
    assert (L : forall k l, (let! l := jkey d k in jitems l) = Ok l -> forall y, In y l -> agree y).
    { intros k l H y I. destruct (jkey d k) as [v|] eqn:K; cbn [bind] in H; [|discriminate]. apply jkey_in in K. apply jitems_is in H. subst v.
      eapply agree_list; [|exact I]. eapply agree_obj; eauto. }
    apply bind_ext. intros cls C. specialize (L "claims" cls C) as LC.
    erewrite (mapr_ext _ _ cls). 2: { intros y I. apply (claim_same (fun k o => match o with None => _ | Some c => _ end) y (LC y I)). }
    apply bind_ext. intros cl _. apply bind_ext. intros fls F. specialize (L "failures" fls F) as LF.
    erewrite (mapr_ext _ _ fls). 2: { intros y I. apply (claim_same (fun k o => match o with None => _ | Some c => _ end) y (LF y I)). }
    apply bind_ext. intros fl _. apply bind_ext. intros al AL. specialize (L "assertions" al AL) as LA.
    erewrite (mapr_ext _ _ al). 2: { intros y I. apply assertion_same, (LA y I). }
    reflexivity.
  Qed.
  Lemma count_lines_same indent d items : agree (JObj d) ->
    count_lines repr quote g4 dtext cs paths ranks indent d items = count_lines repr quote g4 dtext cs' paths ranks indent d items.
  Proof.
    intro A. unfold count_lines. do 5 (apply bind_ext; intros ? _). apply bind_ext. intros au H. apply jkey_in in H. destruct (jtrue au); [|reflexivity].
    match goal with |- bind ?a ?f = bind ?b ?f => assert (E : a = b) end; [|rewrite E; reflexivity].
    apply bind_ext. intros st _. apply bind_ext. intros l L. apply jitems_is in L. subst au.
    erewrite (mapr_ext _ _ l). 2: { intros y I. apply assertion_same. eapply agree_list; [|exact I]. eapply agree_obj; eauto. }
    reflexivity.
  Qed.
  Definition same_at (j : json) : Prop := forall only indent, agree j ->
    print_result repr quote g4 dtext cs paths ranks only indent j = print_result repr quote g4 dtext cs' paths ranks only indent j.
  Lemma print_same_within j : same_at j /\ forall l x, j = JList l -> In x l -> same_at x.
  Proof.
    induction j as [| | | | |l IH|d IH] using json_nested; [split; [intros only indent A; reflexivity|intros ? ? E; discriminate E]..| |].
    { split; [intros only indent A; reflexivity|]. intros l' x E I. injection E as <-. apply (IH x I). }
    split; [|intros ? ? E; discriminate E]. intros only indent A.
    assert (B : forall k v, In (k, v) d -> agree v) by (intros k v I; eapply agree_obj; eauto).
    cbn [print_result]. apply bind_ext. intros ty _. destruct (jis ty "area").
    { apply bind_ext. intros l _. erewrite jsub_ext; [reflexivity|]. intros v I. apply (IH _ _ I). eauto. }
    destruct (jis ty "course"); [apply print_course_same, A|]. destruct (jis ty "count").
    { apply bind_ext. intros items I. rewrite (count_lines_same indent d items A). apply bind_ext. intros l _.
      erewrite jsub_ext; [reflexivity|]. intros v J. destruct v as [| | | | |vs|]; [reflexivity|reflexivity|reflexivity|reflexivity|reflexivity| |reflexivity]. apply mapr_ext. intros x K.
      apply (proj2 (IH _ _ J) vs x eq_refl K). eapply agree_list; [|exact K]. eauto. }
    destruct (jis ty "query"); [apply print_query_same, A|]. destruct (jis ty "requirement").
    { apply bind_ext. intros [|] _; [reflexivity|]. apply bind_ext. intros l _. apply bind_ext. intros au _. destruct (jtrue au); [reflexivity|].
      erewrite jsub_ext; [reflexivity|]. intros v I. cbv beta. destruct (jtrue v); [|reflexivity]. apply (IH _ _ I). eauto. }
    destruct (jis ty "conditional").
    { do 3 (apply bind_ext; intros ? _).
      erewrite jsub_ext; [|intros v I; apply (IH _ _ I); eauto]. apply bind_ext. intros t _.
      match goal with |- bind (match jfind ?f _ _ with _ => _ end) _ = bind (match jfind ?g _ _ with _ => _ end) _ => rewrite (jfind_ext f g) end; [reflexivity|].
      intros v I. destruct (jtrue v); [|reflexivity]. rewrite (proj1 (IH _ _ I)); [reflexivity|eauto]. }
    destruct (jis ty "proficiency"); [apply print_proficiency_same, A|reflexivity].
  Qed.
End Same.

(** ** The classes *)
Lemma load_same now os df r : as_in_the_file now os df r -> load_course now os df r = load_course None [] [] r.
Proof.
  intros [NC [NS [ND G]]]. unfold load_course, row_credits. rewrite (no_credit_none os _ NC), (no_subject_none os _ NS). cbn [credit_override subject_override].
  assert (S : sget df ("name=" ++ r_name r) = None).
  { unfold sget. destruct (find _ df) as [[k t]|] eqn:F; [|reflexivity]. apply find_some in F. destruct F as [I F]. apply String.eqb_eq in F. cbn in F. subst k. destruct (ND t I). }
  rewrite S. unfold sget at 1. cbn [find]. apply bind_ext. intros cr _. apply bind_ext. intros g EG. do 6 (apply bind_ext; intros ? _).
  assert (E : match truthy now with
      | Some now => if ip_grade g then (if Transcript.str_leb (yearterm_of (r_year r) (r_term r)) now then (true, false) else (false, true)) else (false, false)
      | None => (false, false) end = (false, false)).
  { destruct G as [->|[->|[G1 G2]]]; [reflexivity|reflexivity|]. assert (N : ip_grade g = false).
    { apply of_table_ok in EG. destruct g; try reflexivity; exfalso; [apply G1|apply G2]; cbn in EG; repeat (destruct EG as [EG|EG]; [try discriminate EG; injection EG; congruence|]); destruct EG. }
    rewrite N. destruct (truthy now); reflexivity. }
  cbv zeta. rewrite E. reflexivity.
Qed.
Lemma loads_without now os df r c d : load_course now os df r = Ok c -> dec_of_str (r_credits r) = Ok d -> exists c', load_course None [] [] r = Ok c'.
Proof.
  intros L D. destruct (load_course_inv _ _ _ _ _ L) as (cr & g & pts & op & sub & ty & tc & _ & G & P & O & U & T & C & _).
  unfold load_course in *. destruct (row_credits os df r); [|discriminate L]. cbn [bind] in L. unfold row_credits. cbn [credit_override subject_override]. unfold sget. cbn [find]. rewrite D. cbn [bind].
  rewrite G in *. cbn [bind] in *. rewrite P in *. cbn [bind] in *. rewrite O in *. cbn [bind] in *. rewrite U in *. cbn [bind] in *. rewrite T in *. cbn [bind] in *. rewrite C in *. cbn [bind] in *.
  destruct (if r_su_grade r =? "?" then _ else _) as [su|]; [|discriminate L]. cbn [bind]. eexists. reflexivity.
Qed.
Lemma loaded_id now os df r c : load_course now os df r = Ok c -> c_clbid c = r_clbid r.
Proof. intro L. destruct (load_course_inv _ _ _ _ _ L) as (cr & g & pts & op & sub & ty & tc & H). decompose [and] H. assumption. Qed.
Lemma lookup_in cs k c : NoDup (map c_clbid cs) -> In c cs -> c_clbid c = k -> on_transcript cs k = Some c.
Proof.
  intros ND I E. unfold on_transcript. destruct (find _ (rev cs)) as [x|] eqn:F.
  - apply find_some in F. destruct F as [J F]. apply String.eqb_eq in F. apply in_rev in J. f_equal.
    clear -ND I J E F. assert (X : c_clbid x = c_clbid c) by congruence. clear E F. induction cs as [|y cs IH]; [destruct I|]. cbn in ND. apply NoDup_cons_iff in ND. destruct ND as [N ND].
    destruct I as [<-|I], J as [<-|J]; auto; exfalso; apply N; [rewrite <- X|rewrite X]; apply in_map; assumption.
  - assert (Z := find_none _ _ F c (proj1 (in_rev _ _) I)). cbv beta in Z. apply String.eqb_eq in E. congruence.
Qed.
Lemma lookup_none cs k : (forall c, In c cs -> c_clbid c <> k) -> on_transcript cs k = None.
Proof.
  intro H. unfold on_transcript. destruct (find _ (rev cs)) as [x|] eqn:F; [|reflexivity]. apply find_some in F. destruct F as [J F]. apply String.eqb_eq in F. apply in_rev in J. destruct (H x J F).
Qed.

(** If the ids of the student's classes are distinct, and those mentioned in the result are loaded
    for the audit as the file says, the result is printed again as it was printed. *)
Theorem printed_again_as_at_first :
  forall repr quote g4 dtext now os df rows t j,
  student_courses now os df false rows = Ok t -> NoDup (map r_clbid rows) ->
  (forall r, In r rows -> exists d, dec_of_str (r_credits r) = Ok d) ->
  (forall r, In r rows -> occurs (r_clbid r) j -> as_in_the_file now os df r /\ ~ left_out now os df r) ->
  reprint repr quote g4 dtext j rows = print_result repr quote g4 dtext t true true None 0 j.
Proof.
  intros repr quote g4 dtext now os df rows t j ST ND CR H.
  assert (L : exists l, Forall2 (fun r c => load_course now os df r = Ok c) rows l).
  { destruct (loaded_transcript_is_clean now os df rows t ST) as (l & _ & _ & F & _). eauto. }
  destruct L as [l F]. destruct (distinct_rows_keep_their_ids now os df false rows l F ND) as [t0 [ST0 IN]]. rewrite ST in ST0. injection ST0 as <-.
  assert (M : exists l', mapr (load_course None [] []) rows = Ok l' /\ Forall2 (fun r c => load_course None [] [] r = Ok c) rows l').
  { clear -F CR. induction F as [|r c rows l L F IH]; [exists []; split; [reflexivity|constructor]|]. destruct (CR r (or_introl eq_refl)) as [d D].
    destruct (loads_without _ _ _ _ _ _ L D) as [c' L']. destruct IH as [l' [M F']]; [intros; apply CR; right; assumption|]. exists (c' :: l'). cbn. rewrite L', M. split; [reflexivity|constructor; assumption]. }
  destruct M as [l' [M F']]. unfold reprint, reprint_transcript. rewrite M. cbn [bind].
  assert (IDS : forall n o f l, Forall2 (fun r c => load_course n o f r = Ok c) rows l -> map c_clbid l = map r_clbid rows).
  { clear. intros n o f l F. induction F as [|r c rows l L F IH]; [reflexivity|]. cbn. rewrite (loaded_id _ _ _ _ _ L), IH. reflexivity. }
  apply print_same_within. intros k O.
  assert (ND' : NoDup (map c_clbid l')) by (rewrite (IDS _ _ _ _ F'); exact ND).
  assert (NDt : NoDup (map c_clbid t)) by (destruct (loaded_transcript_is_clean now os df rows t ST) as (a & b & c & _ & _ & _ & _ & N & _); exact N).
  destruct (in_dec string_dec k (map r_clbid rows)) as [I|N].
  - apply in_map_iff in I. destruct I as [r [<- I]]. destruct (H r I O) as [A NL].
    assert (X : exists c, load_course now os df r = Ok c /\ In c l).
    { clear -F I. induction F as [|r0 c rows l L F IH]; [destruct I|]. destruct I as [<-|I]; [exists c; split; [exact L|left; reflexivity]|]. destruct (IH I) as [x [E J]]. exists x. split; [exact E|right; exact J]. }
    destruct X as [c [L J]]. assert (J' : In c l').
    { rewrite (load_same now os df r A) in L. clear -F' I L. induction F' as [|r0 x rows l' E F IH]; [destruct I|]. destruct I as [<-|I]; [left; congruence|right; auto]. }
    rewrite (lookup_in l' _ c ND' J' (loaded_id _ _ _ _ _ L)). symmetry. apply (lookup_in t _ c NDt); [|exact (loaded_id _ _ _ _ _ L)].
    apply IN. split; [exact J|]. split; [intro D; apply NL; exists c; auto|intro D; destruct NL; exists c; auto].
  - rewrite lookup_none; [symmetry; apply lookup_none|].
    + intros c J E. apply IN in J. apply N. rewrite <- (IDS _ _ _ _ F), <- E. apply in_map, J.
    + intros c J E. apply N. rewrite <- (IDS _ _ _ _ F'), <- E. apply in_map, J.
Qed.
Print Assumptions printed_again_as_at_first.

(** What [dp] printed of the result of an audit begins with the lines that are printed again. *)
Theorem an_area_is_printed_again :
  forall repr quote g4 dtext now os df rows t v j printed,
  student_courses now os df false rows = Ok t -> NoDup (map r_clbid rows) ->
  (forall r, In r rows -> exists d, dec_of_str (r_credits r) = Ok d) ->
  area_json v = Ok j ->
  (forall r, In r rows -> occurs (r_clbid r) j -> as_in_the_file now os df r /\ ~ left_out now os df r) ->
  print_area repr quote g4 dtext true true t None v = Ok printed ->
  exists lines rest, reprint repr quote g4 dtext j rows = Ok lines /\ printed = String.concat newline lines :: rest.
Proof.
  intros repr quote g4 dtext now os df rows t v j printed ST ND CR J H P.
  rewrite (printed_again_as_at_first repr quote g4 dtext now os df rows t j ST ND CR H).
  unfold print_area in P. rewrite J in P. cbn [bind] in P. unfold summarize in P.
  destruct (print_result repr quote g4 dtext t true true None 0 j) as [lines|]; cbn [bind] in P; [|discriminate]. exists lines.
  match type of P with bind ?a _ = _ => destruct a as [name|]; cbn [bind] in P; [|discriminate] end.
  match type of P with bind ?a _ = _ => destruct a as [more|]; cbn [bind] in P; [|discriminate] end.
  injection P as <-. eexists. split; reflexivity.
Qed.
Print Assumptions an_area_is_printed_again.

(** ** Examples *)
Definition class_row (clbid subject grade schedid : string) (under_way : bool) : row :=
  mkRow [] clbid "SE" "1.00" "" true false under_way false true [] grade "grade" "3.00" "STOLAF" 100 (subject ++ " 1") "1"
    (Some schedid) "" "" subject "?" "1" "" 2019.
(** the result of auditing the student of these rows *)
Definition stored (now : option string) (os : list exc) (rows : list row) : res (list course * area_result * json) :=
  let! t := student_courses now os [] false rows in
  let! v := audited demo_area t in
  let! j := area_json v in Ok (t, v, j).
(** what was printed, and what is printed again *)
Definition both_printed (now : option string) (os : list exc) (rows : list row) : res (list string * list string) :=
  let! (t, j) := let! x := stored now os rows in Ok (fst (fst x), snd x) in
  let! a := print_result (quoted "'"%char) (quoted """"%char) fraction fraction t true true None 0 j in
  let! b := reprint (quoted "'"%char) (quoted """"%char) fraction fraction j rows in Ok (a, b).
Definition finished_rows : list row := [class_row "100" "A" "B" "s" false; class_row "200" "B" "F" "s" false].
Definition without_text (k : string) : json -> bool :=
  fix go (j : json) : bool :=
    match j with
    | JStr t => negb (t =? k)
    | JList l => forallb go l
    | JObj d => forallb (fun x => go (snd x)) d
    | _ => true
    end.
Lemma without k j : without_text k j = true -> ~ occurs k j.
Proof.
  intros W O. induction O as [|l j I O IH|d x j I O IH]; cbn [without_text] in W.
  - rewrite String.eqb_refl in W. discriminate.
  - rewrite forallb_forall in W. apply IH, (W j I).
  - rewrite forallb_forall in W. apply IH, (W (x, j) I).
Qed.
Example finished_example :
  exists t v j, stored (Some "20193") [] finished_rows = Ok (t, v, j) /\ student_courses (Some "20193") [] [] false finished_rows = Ok t /\
    NoDup (map r_clbid finished_rows) /\ (forall r, In r finished_rows -> exists d, dec_of_str (r_credits r) = Ok d) /\
    (forall r, In r finished_rows -> occurs (r_clbid r) j -> as_in_the_file (Some "20193") [] [] r /\ ~ left_out (Some "20193") [] [] r) /\
    occurs "100" j /\
    option_map (fun l => nth 10 l "") (match reprint (quoted "'"%char) (quoted """"%char) fraction fraction j finished_rows with Ok l => Some l | Err _ => None end)
      = Some "    (1|1|t) 💚 [ ok] A 1 'A 1'".
Proof.
  destruct (stored (Some "20193") [] finished_rows) as [[[t v] j]|] eqn:E; [|vm_compute in E; discriminate]. exists t, v, j. split; [reflexivity|].
  assert (O : without_text "200" j = true /\ without_text "100" j = false /\ student_courses (Some "20193") [] [] false finished_rows = Ok t) by (vm_compute in E; injection E as <- _ <-; vm_compute; auto).
  destruct O as [O [O1 ST]]. split; [exact ST|]. split; [repeat constructor; cbn; intuition discriminate|].
  split; [intros r [<-|[<-|[]]]; eexists; reflexivity|]. split; [|split].
  - intros r [<-|[<-|[]]] OC; [|destruct (without _ _ O OC)]. split.
    + split; [intros o d []|]. split; [intros o d []|]. split; [intros t0 []|]. right. right. split; discriminate.
    + intros [c [L D]]. vm_compute in L. injection L as <-. cbn in D. destruct D as [[D|[D|[D|D]]]|D]; try discriminate D. cbn in D. intuition discriminate.
  - clear -O1. induction j as [| | | | |l IH|d IH] using json_nested; cbn [without_text] in O1; try discriminate O1.
    + apply negb_false_iff, String.eqb_eq in O1. subst. constructor.
    + assert (X : exists x, In x l /\ without_text "100" x = false).
      { clear IH. induction l as [|x l IL]; [discriminate|]. cbn in O1. destruct (without_text "100" x) eqn:W; [|exists x; split; [left; reflexivity|exact W]].
        destruct (IL O1) as [y [I H]]. exists y. split; [right; exact I|exact H]. }
      destruct X as [x [I H]]. apply (oc_list _ l x I (IH x I H)).
    + assert (X : exists k x, In (k, x) d /\ without_text "100" x = false).
      { clear IH. induction d as [|[k x] d IL]; [discriminate|]. cbn in O1. destruct (without_text "100" x) eqn:W; [|exists k, x; split; [left; reflexivity|exact W]].
        destruct (IL O1) as [k' [y [I H]]]. exists k', y. split; [right; exact I|exact H]. }
      destruct X as [k [x [I H]]]. apply (oc_obj _ d k x I (IH k x I H)).
  - vm_compute in E. injection E as _ _ <-. vm_compute. reflexivity.
Qed.

(** Any stored result is printed again as it was printed. Refuted: the printer does not know the
    term, the exceptions, and which of two classes of one id is meant. *)
Definition printed_again_alike : Prop :=
  forall now os rows t v j repr quote g4 dtext, stored now os rows = Ok (t, v, j) ->
  reprint repr quote g4 dtext j rows = print_result repr quote g4 dtext t true true None 0 j.
(** the last line as it was printed, and as it is printed again *)
Definition last_lines (now : option string) (os : list exc) (rows : list row) : option (string * string) :=
  match both_printed now os rows with Ok (a, b) => Some (List.last a "", List.last b "") | Err _ => None end.
Theorem printed_again_alike_refuted :
  ~ printed_again_alike /\
  last_lines (Some "20193") [] [class_row "100" "A" "IP" "s" true] = Some ("    (3/4|1|t) 💖 [ip!] A 1 'A 1'", "    (3/4|1|t) 💙 [ip?] A 1 'A 1'") /\
  last_lines (Some "20193") [mkExc [] (ASubject "100" "A")] [class_row "100" "B" "B" "s" false] = Some ("    (1|1|t) 💚 [ ok] A 1 'B 1'", "    (1|1|t) 💚 [ ok] B 1 'B 1'") /\
  last_lines (Some "20193") [] [class_row "100" "A" "B" "s" false; class_row "100" "B" "B" "u" false] = Some ("    (1|1|t) 💚 [ ok] A 1 'A 1'", "    (1|1|t) 💚 [ ok] B 1 'B 1'").
Proof.
  split; [|split; [|split]; vm_compute; reflexivity]. intro H.
  destruct (stored (Some "20193") [] [class_row "100" "A" "IP" "s" true]) as [[[t v] j]|] eqn:E; [|vm_compute in E; discriminate].
  specialize (H _ _ _ t v j (quoted "'"%char) (quoted """"%char) fraction fraction E). vm_compute in E. injection E as <- _ <-. vm_compute in H. discriminate.
Qed.
Print Assumptions printed_again_alike_refuted.
