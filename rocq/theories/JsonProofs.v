From Coq Require Import List ZArith QArith Bool String Permutation Sorted Lia.
From Verif Require Import Prelude Dec Status Course Claims Exceptions Op Context CondExpr Predicate PredicateProofs Limit Apply Assertion Query CourseRule Tree TreeSpec Area ListFacts Catalog CatalogProps LimitLoadProofs StudentProofs AreaLoadProofs Json JsonSpec.
Import ListNotations.
Local Open Scope string_scope.

(** ** Dictionaries *)
Fixpoint only_key (d : list (string * json)) (k : string) : option json :=
  match d with
  | [] => None
  | (a, v) :: t => if a =? k then (if existsb (fun x => fst x =? k) t then None else Some v) else only_key t k
  end.
Lemma absent_key (d : list (string * json)) k : existsb (fun x => fst x =? k) d = false <-> ~ In k (map fst d).
Proof.
  induction d as [|[a v] d IH]; cbn; [tauto|]. rewrite orb_false_iff, IH, String.eqb_neq. tauto.
Qed.
Lemma only_holds d k v : only_key d k = Some v -> holds (JObj d) k v.
Proof.
  unfold holds. induction d as [|[a w] d IH]; cbn [only_key]; [discriminate|]. destruct (String.eqb_spec a k) as [->|N].
  - destruct (existsb _ d) eqn:E; [discriminate|]. intros [= ->]. exists [], d. split; [reflexivity|]. split; [intros []|]. apply absent_key. exact E.
  - intro H. destruct (IH H) as (x & y & E & A & B). injection E as ->. exists ((a, w) :: x), y. split; [reflexivity|]. split; [|exact B].
    cbn. intros [X|X]; [contradiction|tauto].
Qed.
Lemma only_lacks d k : existsb (fun x => fst x =? k) d = false -> lacks (JObj d) k.
Proof. intro H. exists d. split; [reflexivity|]. apply absent_key. exact H. Qed.
Lemma middle_unique {A} (a b c d : list (string * A)) k v w : (a ++ (k, v) :: b = c ++ (k, w) :: d)%list ->
  ~ In k (map fst a) -> ~ In k (map fst c) -> v = w.
Proof.
  revert c. induction a as [|x a IH]; intros [|y c] E NA NC; cbn in *.
  - congruence.
  - injection E as <- _. exfalso. apply NC. left. reflexivity.
  - injection E as -> _. exfalso. apply NA. left. reflexivity.
  - injection E as <- E. eapply IH; [exact E|tauto|tauto].
Qed.
Lemma holds_unique j k v w : holds j k v -> holds j k w -> v = w.
Proof.
  intros (a & b & E & A & _) (c & d & F & C & _). rewrite E in F. injection F as F. eapply middle_unique; eauto.
Qed.

(** ** Order *)
Lemma str_leb_sorted l : StronglySorted (fun a b => String.compare a b <> Gt) (isort str_leb l).
Proof.
  assert (H : StronglySorted (lebP str_leb) (isort str_leb l)).
  { apply isort_sorted.
    - intros x y. change str_leb with str_le. destruct (str_le x y) eqn:E; [tauto|]. right. apply str_le_total. exact E.
    - intros x y z. apply str_le_trans. }
  induction H as [|x r SS IH FA]; constructor; auto. eapply Forall_impl; [|exact FA]. unfold lebP, str_leb. intros z. destruct (String.compare x z); congruence.
Qed.
Lemma sorted_ok l : sorted_texts l (isort str_leb l).
Proof. split; [symmetry; apply isort_perm|apply str_leb_sorted]. Qed.

Ltac key := first [apply only_holds; reflexivity|apply only_lacks; reflexivity].

(** ** Clauses *)
Lemma Forall2_told {A} (R : json -> A -> Prop) f l : Forall (fun x => R (f x) x) l -> Forall2 R (map f l) l.
Proof. induction 1; constructor; auto. Qed.
Lemma jopt_null {A} (f : A -> json) o : jopt f o = given_or_null f o.
Proof. reflexivity. Qed.
Lemma expr_ok e : expr_told (expr_json e) e.
Proof.
  induction e as [l r IH|l r IH|x r IH|f a r] using pexpr_ind'; cbn [expr_json]; econstructor; try key; auto using Forall2_told.
Qed.
Section DInd.
  Variable P : dexpr -> Prop.
  Hypothesis HAnd : forall l r, Forall P l -> P (DAnd l r).
  Hypothesis HOr : forall l r, Forall P l -> P (DOr l r).
  Hypothesis HFun : forall f a r, P (DFun f a r).
  Fixpoint dexpr_ind' (x : dexpr) : P x :=
    let go := fix go l : Forall P l :=
      match l with [] => Forall_nil _ | y :: t => Forall_cons _ (dexpr_ind' y) (go t) end in
    match x with
    | DAnd l r => HAnd l r (go l)
    | DOr l r => HOr l r (go l)
    | DFun f a r => HFun f a r
    end.
End DInd.
Lemma dexpr_ok e : dexpr_told (dexpr_json e) e.
Proof. induction e as [l r IH|l r IH|f a r] using dexpr_ind'; cbn [dexpr_json]; econstructor; try key; auto using Forall2_told. Qed.
Lemma pred_ok p : pred_told (pred_json p) p.
Proof.
  induction p as [l IH|l IH|x IH|c t IH|c t e IHt IHe|l] using pred_ind'; cbn [pred_json]; econstructor; try key; auto using Forall2_told, expr_ok.
Qed.
Lemma where_ok o : where_told (jopt pred_json o) o.
Proof. destruct o; constructor. apply pred_ok. Qed.
Lemma limit_ok l : limit_told (limit_json l) l.
Proof. unfold limit_json. econstructor; try key. apply pred_ok. Qed.
Lemma limits_ok l : lists_told limit_told (limits_json l) l.
Proof. eexists. split; [reflexivity|]. apply Forall2_told. apply Forall_forall. intros. apply limit_ok. Qed.
Lemma claim_ok c : claim_told (claim_json c) c.
Proof. unfold claim_json. constructor; key. Qed.
Lemma claims_told l : Forall2 claim_told (map claim_json l) l.
Proof. apply Forall2_told. apply Forall_forall. intros. apply claim_ok. Qed.
Lemma claims_ok l : lists_told claim_told (claims_json l) l.
Proof. eexists. split; [reflexivity|]. apply claims_told. Qed.

Lemma told_item x : item_told (item_json x) x.
Proof. destruct x; constructor; key. Qed.
Lemma told_items l : lists_told item_told (JList (map item_json l)) l.
Proof. eexists. split; [reflexivity|]. apply Forall2_told. apply Forall_forall. intros. apply told_item. Qed.

(** ** Assertions *)
Lemma item_text_ok s t : item_text s = Ok t <-> counted_text s t.
Proof.
  unfold item_text. destruct s; cbn [scalar_json jdec]; split; intro H; try discriminate; try (inversion H; subst; constructor; fail); inversion H; subst; reflexivity.
Qed.
Lemma items_ok o j : items_json o = Ok j -> items_told j o.
Proof.
  destruct o as [l|]; cbn [items_json].
  - intro H. apply bind_iff in H as (ts & M & E). injection E as <-. exists (isort str_leb ts). split; [reflexivity|].
    exists ts. split; [|apply sorted_ok]. apply mapr_iff in M. eapply AreaProofs.Forall2_imp; [|exact M]. intros a b. cbn. apply item_text_ok.
  - intros [= <-]. exists []. split; reflexivity.
Qed.
Lemma clbids_ok o : clbids_told (clbids_json o) o.
Proof.
  destruct o as [l|]; cbn [clbids_json]; [exists (isort str_leb l); split; [reflexivity|apply sorted_ok]|].
  exists []. split; [reflexivity|]. split; constructor.
Qed.
Lemma text_entry_cases k o : (shown_text o = None /\ text_entry k o = []) \/ (exists s, shown_text o = Some s /\ text_entry k o = [(k, JStr s)]).
Proof.
  destruct o as [s|]; [|left; split; reflexivity]. unfold text_entry. destruct (String.eqb_spec s "") as [->|N]; [left; split; reflexivity|].
  right. exists s. split; [|reflexivity]. destruct s; [contradiction|reflexivity].
Qed.
Lemma original_cases a : (told_original a = None /\ original_entry (jdec (as_expected a)) (as_original a) = []) \/
  (exists s, told_original a = Some s /\ original_entry (jdec (as_expected a)) (as_original a) = [("original", scalar_json s)]).
Proof.
  unfold told_original, original_entry, jdec. destruct (as_original a) as [s|]; [|left; split; reflexivity].
  destruct s; cbn [scalar_json]; try (right; eexists; split; reflexivity); try (left; split; reflexivity); unfold jdec;
  destruct (_ =? _); [left; split; reflexivity|right; eexists; split; [reflexivity|reflexivity]|left; split; reflexivity|right; eexists; split; [reflexivity|reflexivity]|left; split; reflexivity|right; eexists; split; [reflexivity|reflexivity]|left; split; reflexivity|right; eexists; split; [reflexivity|reflexivity]].
Qed.
Lemma status_ok s : status_text s (status_value s).
Proof. destruct s; constructor. Qed.
Lemma holds_status_ok d k s : only_key d k = Some (JStr (status_value s)) -> holds_status (JObj d) k s.
Proof. intro H. exists (status_value s). split; [apply status_ok|apply only_holds; exact H]. Qed.
Ltac skey := apply holds_status_ok; reflexivity.
Lemma assertion_ok a j : assertion_json a = Ok j -> assertion_told j a.
Proof.
  unfold assertion_json. intro H. apply bind_iff in H as (items & HI & H). injection H as <-.
  destruct (text_entry_cases "label" (as_label a)) as [(L1 & L2)|(lb & L1 & L2)];
  destruct (text_entry_cases "message" (as_message a)) as [(M1 & M2)|(ms & M1 & M2)];
  destruct (original_cases a) as [(O1 & O2)|(og & O1 & O2)]; rewrite L2, M2, O2;
  constructor; rewrite ?L1, ?M1, ?O1; cbn [holds_if app]; try key; try skey;
  try (eexists; split; [key|]); auto using items_ok, clbids_ok, where_ok.
Qed.
Lemma any_ok a j : any_json a = Ok j -> any_told j a.
Proof.
  destruct a as [x|p c t [e|]|p c t]; cbn [any_json]; intro H.
  - constructor. apply assertion_ok. exact H.
  - apply bind_iff in H as (jt & HT & H). apply bind_iff in H as (je & HE & H). injection H as <-. eapply yt_if; try key; auto using expr_ok, assertion_ok.
  - apply bind_iff in H as (jt & HT & H). cbn [bind] in H. injection H as <-. eapply yt_if_none; try key; auto using expr_ok, assertion_ok.
  - apply bind_iff in H as (jt & HT & H). injection H as <-. eapply yt_when; try key; auto using dexpr_ok, assertion_ok.
Qed.
Lemma Forall2_len {A B} (R : A -> B -> Prop) l r : Forall2 R l r -> List.length l = List.length r.
Proof. induction 1; cbn; congruence. Qed.
Lemma Forall2_flip' {A B} (R : A -> B -> Prop) l r : Forall2 R l r -> Forall2 (fun b a => R a b) r l.
Proof. induction 1; constructor; auto. Qed.
Lemma anys_ok l js : mapr any_json l = Ok js -> lists_told any_told (JList js) l.
Proof.
  intro H. exists js. split; [reflexivity|]. apply mapr_iff in H. apply Forall2_flip' in H. eapply AreaProofs.Forall2_imp; [|exact H].
  intros x y. cbn. apply any_ok.
Qed.

(** ** Parts *)
Lemma in_dedup (l : list string) x : In x (dedup String.eqb l) <-> In x l.
Proof. apply ListFacts.in_dedup. intros. apply String.eqb_eq. Qed.
Ltac keys := repeat (match goal with |- _ /\ _ => split end); try key; try skey.
Lemma course_ok k r : course_told (course_json k r) r.
Proof.
  unfold course_told, course_json. cbn [base_json app]. keys.
  eexists. split; [key|]. split; [apply str_leb_sorted|]. split.
  - apply isort_NoDup, dedup_NoDup. intros. apply String.eqb_eq.
  - intro x. rewrite in_isort. apply in_dedup.
Qed.
Lemma course_node k r : node_told (course_json k r) (NCourse k r).
Proof.
  unfold course_json. cbn [base_json app]. constructor; try key; try skey.
  - do 2 eexists. split; [reflexivity|]. split; key.
  - split; [apply (course_ok k r)|]. eexists. split; [key|]. apply claims_ok.
Qed.
Lemma query_ok k q j : query_json k q = Ok j -> node_told j (NQuery k q).
Proof.
  unfold query_json. intro H. apply bind_iff in H as (asserts & HA & H). injection H as <-. cbn [base_json app]. constructor; try key; try skey.
  - do 2 eexists. split; [reflexivity|]. split; key.
  - unfold details_told, query_told. keys; try (eexists; split; [key|]); auto using limits_ok, anys_ok, where_ok.
    + apply claims_ok.
    + apply told_items.
    + destruct k; apply claims_ok.
Qed.
(** a dictionary that starts as every part's does *)
Definition based (n : node) (rk : Q * Q) (rest : list (string * json)) : json :=
  JObj (base_json (path_of n) (kind_of n) (type_of_node n) (status_of n) rk (overridden n) ++ rest)%list.
Lemma based_told n rk rest : rank_of n = Ok rk ->
  (forall k, In k ["path"; "state"; "type"; "status"; "rank"; "max_rank"; "overridden"] -> ~ In k (map fst rest)) ->
  details_told (based n rk rest) n -> node_told (based n rk rest) n.
Proof.
  intros R F D. destruct rk as [r m].
  assert (K : forall k v, only_key (base_json (path_of n) (kind_of n) (type_of_node n) (status_of n) (r, m) (overridden n)) k = Some v -> holds (based n (r, m) rest) k v).
  { intros k v H. assert (I : In k ["path"; "state"; "type"; "status"; "rank"; "max_rank"; "overridden"]).
    { cbn [only_key base_json] in H. repeat (match type of H with (if ?a =? ?b then _ else _) = _ => destruct (String.eqb_spec a b); [subst; cbn [In]; tauto|] end). discriminate. }
    apply F in I. apply only_holds in H. destruct H as (a & b & E & A & B). injection E as E. unfold based. rewrite E, <- app_assoc. cbn [app].
    exists a, (b ++ rest)%list. split; [reflexivity|]. split; [exact A|]. rewrite map_app, in_app_iff. tauto. }
  constructor; try (apply K; reflexivity).
  - exists (status_value (status_of n)). split; [apply status_ok|apply K; reflexivity].
  - exists r, m. split; [exact R|]. split; apply K; reflexivity.
  - exact D.
Qed.
Ltac apart := cbn [map fst In]; intros kk KK; repeat (destruct KK as [<-|KK]; [intuition discriminate|]); contradiction.
Lemma node_inv n j : node_json n = Ok j -> exists rk, rank_of n = Ok rk /\
  match n with
  | NCourse k x => j = course_json k x
  | NQuery k q => query_json k q = Ok j
  | NCount _ i items => exists js audits, Forall2 (fun m x => node_json m = Ok x) items js /\ mapr any_json (n_audits i) = Ok audits /\
      j = based n rk [("count", JInt (n_count i)); ("at_most", JBool (n_at_most i)); ("items", JList js); ("audit", JList audits);
       ("audit_status", JStr (status_value (count_audit_status i)))]
  | NReq _ i result => exists x, match result with Some m => node_json m = Ok x | None => x = JNull end /\
      j = based n rk [("name", JStr (e_name i)); ("result", x); ("is_audited", JBool (e_audited i)); ("is_contract", JBool (e_contract i));
       ("is_disjoint", jopt JBool (e_disjoint i)); ("in_gpa", JBool (e_in_gpa i))]
  | NCond _ i t f => exists a b, node_json t = Ok a /\ match f with Some m => node_json m = Ok b | None => b = JNull end /\
      j = based n rk [("condition", expr_json (d_cond i)); ("when_true", a); ("when_false", b)]
  | NProf _ i c => j = based n rk [("course", match c with Some (k, x) => course_json k x | None => JNull end);
       ("proficiency", JStr (f_proficiency i)); ("proficiency_status", JStr (status_value (f_status i)))]
  end.
Proof.
  destruct n as [k x|k q|k i items|k i result|k i t f|k i c]; cbn [node_json]; intro H; apply bind_iff in H as (rk & R & H); exists rk; (split; [exact R|]).
  - congruence.
  - exact H.
  - apply bind_iff in H as (js & HJ & H). apply bind_iff in H as (au & HA & H). injection H as <-. exists js, au. split; [apply mapr_iff; exact HJ|]. split; [exact HA|reflexivity].
  - apply bind_iff in H as (x & HX & H). injection H as <-. exists x. split; [|reflexivity]. destruct result; congruence.
  - apply bind_iff in H as (a & HT & H). apply bind_iff in H as (b & HF & H). injection H as <-. exists a, b. split; [exact HT|]. split; [|reflexivity]. destruct f; congruence.
  - injection H as <-. reflexivity.
Qed.
Lemma node_ok n j : node_json n = Ok j -> node_told j n.
Proof.
  intro H. apply node_inv in H as (rk & R & H). destruct n as [k x|k q|k i items|k i result|k i t f|k i c].
  - subst j. apply course_node.
  - apply query_ok. exact H.
  - destruct H as (js & au & F & A & ->). apply based_told; [exact R|apart|]. unfold details_told, based. cbn [base_json app]. keys.
    + exists js. split; [key|]. symmetry; eapply Forall2_len; exact F.
    + eexists. split; [key|]. apply anys_ok. exact A.
  - destruct H as (x & X & ->). apply based_told; [exact R|apart|]. unfold details_told, based. cbn [base_json app]. keys.
    intros ->. subst x. key.
  - destruct H as (a & b & HT & HF & ->). apply based_told; [exact R|apart|]. unfold details_told, based. cbn [base_json app]. keys.
    + eexists. split; [key|]. apply expr_ok.
    + intros ->. subst b. key.
  - subst j. apply based_told; [exact R|apart|]. unfold details_told, based. cbn [base_json app]. keys.
    intros ->. key.
Qed.
Lemma node_json_dict n j : node_json n = Ok j -> j <> JNull.
Proof. intros H ->. apply node_ok in H. destruct (tl_type _ _ H) as (a & b & E & _). discriminate. Qed.

(** ** Steps *)
Lemma part_step n j s m : node_json n = Ok j -> part n s = Some m -> exists x, jpart j s x /\ node_json m = Ok x.
Proof.
  intros H P. assert (TT := tl_type _ _ (node_ok n j H)). apply node_inv in H as (rk & R & H).
  destruct n as [k x|k q|k i items|k i result|k i t f|k i c]; destruct s; cbn [part] in P; try discriminate; try (destruct c as [[? ?]|]; discriminate).
  - destruct H as (js & au & F & A & ->).
    assert (X : exists x, nth_error js k0 = Some x /\ node_json m = Ok x).
    { clear - F P. revert k0 P. induction F as [|a b l r E F IH]; intros [|k] P; cbn in *; try discriminate; [injection P as <-; eauto|eauto]. }
    destruct X as (x & N & E). exists x. split; [|exact E]. econstructor; [exact TT| |exact N]. unfold based. cbn [base_json app]. key.
  - subst result. destruct H as (x & X & ->). exists x. split; [|exact X]. constructor; [exact TT| |eapply node_json_dict; exact X]. unfold based. cbn [base_json app]. key.
  - injection P as <-. destruct H as (a & b & HT & HF & ->). exists a. split; [|exact HT]. constructor; [exact TT|]. unfold based. cbn [base_json app]. key.
  - subst f. destruct H as (a & b & HT & HF & ->). exists b. split; [|exact HF]. constructor; [exact TT| |eapply node_json_dict; exact HF]. unfold based. cbn [base_json app]. key.
  - destruct c as [[k' r]|]; [|discriminate]. injection P as <-. subst j. exists (course_json k' r). split; [|reflexivity].
    constructor; [exact TT| |discriminate]. unfold based. cbn [base_json app]. key.
Qed.
Lemma type_differs j a b : a <> b -> holds j "type" (JStr a) -> holds j "type" (JStr b) -> False.
Proof. intros N A B. assert (X := holds_unique _ _ _ _ A B). congruence. Qed.
Lemma jpart_unique j s x y : jpart j s x -> jpart j s y -> x = y.
Proof.
  intros A B. inversion A; subst; inversion B; subst; try (eapply holds_unique; eassumption).
  match goal with H : holds j "items" (JList ?a), G : holds j "items" (JList ?b) |- _ => assert (X := holds_unique _ _ _ _ H G) end. congruence.
Qed.
Lemma no_part_step n j s x : node_json n = Ok j -> part n s = None -> ~ jpart j s x.
Proof.
  intros H P J. assert (TT := tl_type _ _ (node_ok n j H)). apply node_inv in H as (rk & R & H).
  assert (TD : forall a, a <> type_of_node n -> holds j "type" (JStr a) -> False) by (intros a N A; eapply (type_differs j a); eauto).
  destruct n as [k r|k q|k i items|k i result|k i t f|k i c]; cbn [type_of_node] in TD; inversion J; subst; cbn [part] in P; try discriminate;
  try (eapply TD; [|eassumption]; discriminate).
  - destruct H as (js & au & F & A & ->).
    assert (HI : holds (based (NCount k i items) rk [("count", JInt (n_count i)); ("at_most", JBool (n_at_most i)); ("items", JList js); ("audit", JList au);
       ("audit_status", JStr (status_value (count_audit_status i)))]) "items" (JList js)) by (unfold based; cbn [base_json app]; key).
    match goal with G : holds _ "items" (JList ?l), N : nth_error ?l _ = Some _ |- _ => assert (E := holds_unique _ _ _ _ HI G) end. injection E as <-.
    apply nth_error_None in P. apply Forall2_len in F. match goal with G : nth_error _ _ = Some _ |- _ => assert (G2 : nth_error js k0 <> None) by congruence end.
    apply nth_error_Some in G2. lia.
  - subst result. destruct H as (y & E & ->). subst y. match goal with G : holds _ "result" _ |- _ => assert (Z : x = JNull) by (eapply holds_unique; [exact G|unfold based; cbn [base_json app]; key]) end. contradiction.
  - subst f. destruct H as (a & b & HT & HF & ->). subst b. match goal with G : holds _ "when_false" _ |- _ => assert (Z : x = JNull) by (eapply holds_unique; [exact G|unfold based; cbn [base_json app]; key]) end. contradiction.
  - destruct c as [[k' r]|]; [discriminate|]. match goal with G : holds _ "course" _ |- _ => assert (Z : x = JNull) by (eapply holds_unique; [exact G|unfold based; cbn [base_json app]; key]) end. contradiction.
Qed.
Lemma parts_ok l : forall n j, node_json n = Ok j ->
  match part_at n l with
  | Some m => exists x, jpart_at j l x /\ node_json m = Ok x
  | None => forall x, ~ jpart_at j l x
  end.
Proof.
  induction l as [|s l IH]; intros n j H; cbn [part_at].
  - exists j. split; [constructor|exact H].
  - destruct (part n s) as [m|] eqn:P.
    + destruct (part_step n j s m H P) as (x & J & E). specialize (IH m x E). destruct (part_at m l) as [o|].
      * destruct IH as (y & JA & EY). exists y. split; [econstructor; eassumption|exact EY].
      * intros y JA. inversion JA; subst. assert (x = x0) by (eapply jpart_unique; eassumption). subst. eapply IH; eassumption.
    + intros x JA. inversion JA; subst. eapply no_part_step; eassumption.
Qed.
Lemma jpart_at_unique l : forall j x y, jpart_at j l x -> jpart_at j l y -> x = y.
Proof.
  induction l as [|s l IH]; intros j x y A B; inversion A; subst; inversion B; subst; [reflexivity|].
  assert (x0 = x1) by (eapply jpart_unique; eassumption). subst. eapply IH; eassumption.
Qed.

(** ** Claims *)
Lemma expr_result e : holds (expr_json e) "result" (given_or_null JBool (e_result e)).
Proof. destruct e; cbn [expr_json e_result]; key. Qed.
Lemma stored_ok n : forall j, node_json n = Ok j -> exists l, stored_claims j l /\ Forall2 claim_told l (claims_of n).
Proof.
  induction n as [k r|k q|k i items IH|k i o IH|k i t f IHt IHf|k i c] using node_induction; intros j H;
  assert (TT := tl_type _ _ (node_ok _ j H)); cbn [type_of_node] in TT; apply node_inv in H as (rk & R & H); cbn [claims_of].
  - subst j. exists (map claim_json (c_claims k r)). split; [|apply claims_told]. eapply sc_leaf; [exact TT|left; reflexivity|]. unfold course_json. cbn [base_json app]. key.
  - unfold query_json in H. apply bind_iff in H as (asserts & HA & H). injection H as <-. exists (map claim_json (q_node_claims k q)). split; [|apply claims_told].
    eapply sc_leaf; [exact TT|right; reflexivity|]. cbn [base_json app]. key.
  - destruct H as (js & au & F & A & E).
    assert (X : exists ls, Forall2 stored_claims js ls /\ Forall2 claim_told (List.concat ls) (flat_map claims_of items)).
    { clear - IH F. induction F as [|a b l r E F IHF]; [exists []; split; constructor|].
      destruct IHF as (ls & X & Y); [intros x I; apply IH; right; exact I|]. destruct (IH a (or_introl eq_refl) b E) as (l0 & X0 & Y0).
      exists (l0 :: ls). split; [constructor; assumption|]. cbn [List.concat flat_map]. apply Forall2_app; assumption. }
    destruct X as (ls & X & Y). exists (List.concat ls). split; [|exact Y]. eapply sc_count; [exact TT| |exact X]. subst j. unfold based. cbn [base_json app]. key.
  - destruct H as (x & X & E).
    assert (HA : holds j "is_audited" (JBool (e_audited i))) by (subst j; unfold based; cbn [base_json app]; key).
    assert (HR : holds j "result" x) by (subst j; unfold based; cbn [base_json app]; key).
    destruct (e_audited i) eqn:EA; [exists []; split; [apply sc_audited; assumption|constructor]|].
    destruct o as [m|]; [|subst x; exists []; split; [apply sc_empty; assumption|constructor]].
    destruct (IH m eq_refl x X) as (l & S1 & S2). exists l. split; [|exact S2]. eapply sc_req; eauto. eapply node_json_dict; eauto.
  - destruct H as (a & b & HT & HF & E).
    assert (HC : holds j "condition" (expr_json (d_cond i))) by (subst j; unfold based; cbn [base_json app]; key).
    assert (HA : holds j "when_true" a) by (subst j; unfold based; cbn [base_json app]; key).
    assert (HB : holds j "when_false" b) by (subst j; unfold based; cbn [base_json app]; key).
    assert (HE := expr_result (d_cond i)). destruct (e_result (d_cond i)) as [[|]|]; cbn [given_or_null] in HE.
    + destruct (IHt a HT) as (l & S1 & S2). exists l. split; [|exact S2]. eapply sc_true; eauto.
    + destruct f as [m|].
      * destruct (IHf m eq_refl b HF) as (l & S1 & S2). exists l. split; [|exact S2]. eapply sc_false; eauto. eapply node_json_dict; eauto.
      * subst b. exists []. split; [|constructor]. eapply sc_neither; eauto. discriminate.
    + exists []. split; [|constructor]. eapply sc_neither; eauto; discriminate.
  - assert (HK : holds j "state" (JStr (kind_value k))) by (subst j; unfold based; cbn [base_json app kind_of]; key).
    assert (HC : holds j "course" (match c with Some (k, x) => course_json k x | None => JNull end)) by (subst j; unfold based; cbn [base_json app]; key).
    unfold prof_claims. destruct k; try (exists []; split; [|constructor]; apply sc_prof_none; [exact TT|right; eexists; split; [exact HK|discriminate]]).
    destruct c as [[k' r]|]; [|exists []; split; [|constructor]; apply sc_prof_none; [exact TT|left; exact HC]].
    exists (map claim_json (c_claims k' r)). split; [|apply claims_told]. eapply sc_prof; [exact TT|exact HC|discriminate|exact HK|].
    unfold course_json. cbn [base_json app]. key.
Qed.
Lemma forall2_unique {A B} (R : A -> B -> Prop) l : forall r1 r2, Forall2 (fun a b => forall c, R a c -> b = c) l r1 -> Forall2 R l r2 -> r1 = r2.
Proof. induction l as [|x l IH]; intros r1 r2 F G; inversion F; subst; inversion G; subst; [reflexivity|]. f_equal; auto. Qed.
Section StoredInd.
  Variable P : json -> list json -> Prop.
  Hypothesis Hleaf : forall j l t, holds j "type" (JStr t) -> t = "course" \/ t = "query" -> holds j "claims" (JList l) -> P j l.
  Hypothesis Hcount : forall j js ls, holds j "type" (JStr "count") -> holds j "items" (JList js) -> Forall2 P js ls -> P j (List.concat ls).
  Hypothesis Haud : forall j, holds j "type" (JStr "requirement") -> holds j "is_audited" (JBool true) -> P j [].
  Hypothesis Hempty : forall j, holds j "type" (JStr "requirement") -> holds j "result" JNull -> P j [].
  Hypothesis Hreq : forall j x l, holds j "type" (JStr "requirement") -> holds j "is_audited" (JBool false) -> holds j "result" x ->
    x <> JNull -> P x l -> P j l.
  Hypothesis Htrue : forall j c x l, holds j "type" (JStr "conditional") -> holds j "condition" c -> holds c "result" (JBool true) ->
    holds j "when_true" x -> P x l -> P j l.
  Hypothesis Hfalse : forall j c x l, holds j "type" (JStr "conditional") -> holds j "condition" c -> holds c "result" (JBool false) ->
    holds j "when_false" x -> x <> JNull -> P x l -> P j l.
  Hypothesis Hneither : forall j c x, holds j "type" (JStr "conditional") -> holds j "condition" c -> holds c "result" x ->
    x <> JBool true -> (x = JBool false -> holds j "when_false" JNull) -> P j [].
  Hypothesis Hprof : forall j x l, holds j "type" (JStr "proficiency") -> holds j "course" x -> x <> JNull ->
    holds j "state" (JStr "result") -> holds x "claims" (JList l) -> P j l.
  Hypothesis Hprofn : forall j, holds j "type" (JStr "proficiency") ->
    (holds j "course" JNull \/ exists k, holds j "state" (JStr k) /\ k <> "result") -> P j [].
  Fixpoint stored_ind' j l (H : stored_claims j l) {struct H} : P j l :=
    match H with
    | sc_leaf j l t a b c => Hleaf j l t a b c
    | sc_count j js ls a b F => Hcount j js ls a b
        ((fix go js ls (F : Forall2 stored_claims js ls) : Forall2 P js ls :=
            match F with
            | Forall2_nil _ => Forall2_nil _
            | @Forall2_cons _ _ _ x y l l' H T => @Forall2_cons _ _ _ x y l l' (stored_ind' x y H) (go l l' T)
            end) js ls F)
    | sc_audited j a b => Haud j a b
    | sc_empty j a b => Hempty j a b
    | sc_req j x l a b c d e => Hreq j x l a b c d (stored_ind' x l e)
    | sc_true j c x l a b d e f => Htrue j c x l a b d e (stored_ind' x l f)
    | sc_false j c x l a b d e f g => Hfalse j c x l a b d e f (stored_ind' x l g)
    | sc_neither j c x a b d e f => Hneither j c x a b d e f
    | sc_prof j x l a b c d e => Hprof j x l a b c d e
    | sc_prof_none j a b => Hprofn j a b
    end.
End StoredInd.
Ltac differ :=
  repeat match goal with H : _ \/ _ |- _ => destruct H | H : exists _, _ |- _ => destruct H | H : _ /\ _ |- _ => destruct H end; subst;
  match goal with
  | A : holds ?j ?k ?v, B : holds ?j ?k ?w |- _ =>
    exfalso; assert (v <> w) by congruence; apply (fun N => N (holds_unique j k v w A B)); assumption
  end.
Ltac settle :=
  repeat match goal with A : holds ?j ?k ?v, B : holds ?j ?k ?w |- _ => tryif constr_eq v w then clear B else (assert (v = w) by (eapply holds_unique; eassumption); clear B) end;
  repeat match goal with H : JList _ = JList _ |- _ => injection H as H | H : JStr _ = JStr _ |- _ => injection H as H end; subst; try reflexivity; try contradiction; try discriminate; auto.
Lemma stored_unique j a : stored_claims j a -> forall b, stored_claims j b -> a = b.
Proof.
  induction 1 using stored_ind'; intros b SB; inversion SB; subst; try reflexivity; try (differ; fail).
  all: settle. all: settle. all: settle.
  all: try match goal with H : Forall2 _ ?js ?ls, G : Forall2 stored_claims ?js ?ms |- _ => f_equal; eapply forall2_unique; [|exact G]; exact H end.
  all: try match goal with H : JBool false = JBool false -> holds _ _ _, G : holds _ "when_false" _ |- _ => specialize (H eq_refl); assert (X := holds_unique _ _ _ _ H G); congruence end.
Qed.

(** ** What can be written *)
Lemma mapr_total {A B} (f : A -> res B) l : (exists r, mapr f l = Ok r) <-> forall x, In x l -> exists y, f x = Ok y.
Proof.
  induction l as [|x l IH]; cbn [mapr].
  - split; [intros _ x []|eauto].
  - split.
    + intros (r & H). apply bind_iff in H as (y & E & H). apply bind_iff in H as (ys & F & _). intros z [<-|I]; [eauto|]. apply IH; eauto.
    + intro H. destruct (H x (or_introl eq_refl)) as (y & E). destruct (proj2 IH) as (ys & F); [intros z I; apply H; right; exact I|].
      rewrite E. cbn [bind]. rewrite F. cbn [bind]. eauto.
Qed.
Definition texts_of (a : assertion) : Prop := forall l s, as_items a = Some l -> In s l -> exists t, counted_text s t.
Lemma assertion_total a : (exists j, assertion_json a = Ok j) <-> texts_of a.
Proof.
  unfold assertion_json, texts_of. destruct (as_items a) as [l|]; cbn [items_json].
  - split.
    + intros (j & H) l' s [= <-] I. apply bind_iff in H as (x & H & _). apply bind_iff in H as (ts & H & _).
      destruct (proj1 (mapr_total item_text l) (ex_intro _ ts H) s I) as (t & E). exists t. apply item_text_ok. exact E.
    + intro H. destruct (proj2 (mapr_total item_text l)) as (ts & E); [intros s I; destruct (H l s eq_refl I) as (t & C); exists t; apply item_text_ok; exact C|].
      rewrite E. cbn [bind]. eauto.
  - cbn [bind]. split; [discriminate|eauto].
Qed.
Lemma any_total a : (exists j, any_json a = Ok j) <-> forall x, In x (written_assertions a) -> texts_of x.
Proof.
  destruct a as [x|p c t [e|]|p c t]; cbn [any_json written_assertions In].
  - rewrite assertion_total. split; [intros H y [<-|[]]; exact H|auto].
  - split.
    + intros (j & H). apply bind_iff in H as (jt & HT & H). apply bind_iff in H as (je & HE & _). intros y [<-|[<-|[]]]; apply assertion_total; eauto.
    + intro H. destruct (proj2 (assertion_total t)) as (jt & ->); [auto|]. destruct (proj2 (assertion_total e)) as (je & ->); [auto|]. cbn [bind]. eauto.
  - split.
    + intros (j & H). apply bind_iff in H as (jt & HT & H). intros y [<-|[]]; apply assertion_total; eauto.
    + intro H. destruct (proj2 (assertion_total t)) as (jt & ->); [auto|]. cbn [bind]. eauto.
  - split.
    + intros (j & H). apply bind_iff in H as (jt & HT & H). intros y [<-|[]]; apply assertion_total; eauto.
    + intro H. destruct (proj2 (assertion_total t)) as (jt & ->); [auto|]. cbn [bind]. eauto.
Qed.
Lemma anys_total l : (exists js, mapr any_json l = Ok js) <-> forall x, In x (flat_map written_assertions l) -> texts_of x.
Proof.
  rewrite mapr_total. split.
  - intros H x I. apply in_flat_map in I as (a & I & J). apply (proj1 (any_total a)); auto.
  - intros H a I. apply any_total. intros x J. apply H. apply in_flat_map. eauto.
Qed.
Lemma writable_step n s m : (forall l x, part_at n l = Some x -> part_writable x) -> part n s = Some m -> forall l x, part_at m l = Some x -> part_writable x.
Proof. intros H P l x E. apply (H (s :: l)). cbn [part_at]. rewrite P. exact E. Qed.
Lemma node_total n : (exists j, node_json n = Ok j) <-> forall l m, part_at n l = Some m -> part_writable m.
Proof.
  split.
  - intros (j & H) l m P. assert (X := parts_ok l n j H). rewrite P in X. destruct X as (x & _ & E). clear - E.
    assert (T := node_ok m x E). apply node_inv in E as (rk & R & E). split; [eauto|]. intros a l s I.
    destruct m as [k r|k q|k i items|k i o|k i t f|k i c]; cbn [part_assertions] in I; try contradiction.
    + unfold query_json in E. apply bind_iff in E as (asserts & HA & _). revert l s. apply (proj1 (anys_total (q_asserts q))); eauto.
    + destruct E as (js & au & F & A & _). revert l s. apply (proj1 (anys_total (n_audits i))); eauto.
  - induction n as [k r|k q|k i items IH|k i o IH|k i t f IHt IHf|k i c] using node_induction; intro H;
    destruct (H [] _ eq_refl) as ((rk & R) & T); cbn [node_json]; rewrite R; cbn [bind].
    + eauto.
    + unfold query_json. destruct (proj2 (anys_total (q_asserts q))) as (js & ->); [intros x I l s; apply T; exact I|]. cbn [bind]. eauto.
    + destruct (proj2 (mapr_total node_json items)) as (js & ->).
      { intros x I. apply IH; [exact I|]. apply In_nth_error in I as (a & E). eapply (writable_step (NCount k i items) (ToItem a)); [exact H|exact E]. }
      cbn [bind]. destruct (proj2 (anys_total (n_audits i))) as (au & ->); [intros x I l s; apply T; exact I|]. cbn [bind]. eauto.
    + destruct o as [x|]; [|cbn [bind]; eauto]. destruct (IH x eq_refl) as (y & ->); [eapply (writable_step (NReq k i (Some x)) ToResult); [exact H|reflexivity]|]. cbn [bind]. eauto.
    + destruct IHt as (y & ->); [eapply (writable_step (NCond k i t f) ToTrue); [exact H|reflexivity]|]. cbn [bind]. destruct f as [x|]; [|cbn [bind]; eauto].
      destruct (IHf x eq_refl) as (z & ->); [eapply (writable_step (NCond k i t (Some x)) ToFalse); [exact H|reflexivity]|]. cbn [bind]. eauto.
    + eauto.
Qed.
Lemma apply_courses_texts k a b r s : apply_courses k a b = Ok r -> In s (ap_data r) -> exists t, counted_text s t.
Proof.
  assert (ST : forall l s, In s (map SStr l) -> exists t, counted_text s t) by (intros l x I; apply in_map_iff in I as (y & <- & _); eexists; constructor).
  assert (SF : forall (f : course -> string) l s, In s (map (fun c => SStr (f c)) l) -> exists t, counted_text s t) by (intros f l x I; apply in_map_iff in I as (y & <- & _); eexists; constructor).
  assert (SD : forall (f : course -> dec) l s, In s (map (fun c => SDec (f c)) l) -> exists t, counted_text s t) by (intros f l x I; apply in_map_iff in I as (y & <- & _); eexists; constructor).
  destruct k; cbn [apply_courses]; intro H; try discriminate; injection H as <-;
    unfold count_courses, count_distinct_courses, count_subjects, count_terms, count_years, count_firsts, count_most_common, count_attributes, apply_sum_credits, apply_sum_single_subject, average_grades, average_credits, credit_items, counted; cbn [ap_data]; eauto.
  - destruct (counter _ a) as [|e t]; cbn [ap_data In]; [contradiction|eauto].
  - destruct (counter _ a) as [|e t]; cbn [ap_data In]; [contradiction|eauto].
  - apply (SF (fun c => str_of_Z (c_year c))).
  - destruct (by_credits (filter has_credits a)) as [|e t]; cbn [ap_data In]; [intros [<-|C]; [eexists; constructor|contradiction]|eauto].
Qed.
Lemma apply_areas_texts k a r s : apply_areas k a = Ok r -> In s (ap_data r) -> exists t, counted_text s t.
Proof.
  destruct k; cbn [apply_areas]; intros H I; try discriminate; injection H as <-. cbn [ap_data counted] in I. apply in_map_iff in I as (y & <- & _). eexists. constructor.
Qed.
Lemma apply_data_texts k a r s : apply_data k a = Ok r -> In s (ap_data r) -> exists t, counted_text s t.
Proof.
  destruct k; cbn [apply_data]; intros H I; try discriminate; try (injection H as <-; contradiction);
    apply bind_iff in H as (ids & _ & H); injection H as <-; cbn [ap_data counted] in I; apply in_map_iff in I as (y & <- & _); eexists; constructor.
Qed.
Lemma audit_assertion_texts cx data a b : audit_assertion cx data a = Ok b -> texts_of a -> texts_of b.
Proof.
  unfold audit_assertion. destruct (as_overridden a); [intros [= <-]; auto|]. intros H _.
  apply bind_iff in H as (fl & _ & H). apply bind_iff in H as (di & _ & H). apply bind_iff in H as (kept & _ & H). apply bind_iff in H as ([s c] & E & H).
  injection H as <-. intros l x. cbn [as_items with_outcome snd]. intros [= <-].
  unfold evaluate_items in E. assert (PL : forall r, evaluate_plain a r = Ok (s, c) -> r = Ok c).
  { intros r P. unfold evaluate_plain in P. apply bind_iff in P as (calc & -> & P). apply bind_iff in P as (bb & _ & P). congruence. }
  destruct (as_type a).
  - apply bind_iff in E as (cs & _ & E). unfold evaluate_with_courses in E. apply bind_iff in E as (calc & A & E). apply bind_iff in E as (bb & _ & E).
    assert (calc = c).
    { destruct bb; [|congruence]. apply bind_iff in E as (noip & _ & E).
      repeat match type of E with (if ?x then _ else _) = _ => destruct x; try discriminate end; congruence. }
    subst. eapply apply_courses_texts; exact A.
  - apply bind_iff in E as (cs & _ & E). eapply apply_areas_texts. apply PL. exact E.
  - eapply apply_data_texts. apply PL. exact E.
  - eapply apply_data_texts. apply PL. exact E.
Qed.
Lemma audit_any_texts cx data a b : audit_any cx data a = Ok b -> (forall x, In x (written_assertions a) -> texts_of x) -> forall x, In x (written_assertions b) -> texts_of x.
Proof.
  destruct a as [y|p c t e|p c t]; cbn [audit_any written_assertions]; intros H T.
  - apply bind_iff in H as (r & E & H). injection H as <-. cbn. intros x [<-|[]]. eapply audit_assertion_texts; [exact E|]. apply T. left. reflexivity.
  - apply bind_iff in H as (c' & _ & H). destruct (e_result c') as [[|]|]; [| |discriminate].
    + apply bind_iff in H as (r & E & H). injection H as <-. assert (X : texts_of r) by (eapply audit_assertion_texts; [exact E|]; apply T; destruct e; left; reflexivity).
      destruct e as [e|]; cbn; [intros x [<-|[<-|[]]]; [exact X|apply T; right; left; reflexivity]|intros x [<-|[]]; exact X].
    + destruct e as [e|]; [|injection H as <-; exact T]. apply bind_iff in H as (r & E & H). injection H as <-.
      assert (X : texts_of r) by (eapply audit_assertion_texts; [exact E|]; apply T; right; left; reflexivity).
      cbn. intros x [<-|[<-|[]]]; [apply T; left; reflexivity|exact X].
  - apply bind_iff in H as (cs & _ & H). apply bind_iff in H as (c' & _ & H). destruct (d_result c') as [[|]|]; try (injection H as <-; exact T).
    apply bind_iff in H as (r & E & H). injection H as <-. cbn. intros x [<-|[]]. eapply audit_assertion_texts; [exact E|]. apply T. left. reflexivity.
Qed.
