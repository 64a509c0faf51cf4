(** Property theorems about the data of a student and its constants (C115, C116). *)
From Coq Require Import List Bool Arith ZArith QArith String Ascii Permutation Sorting.Sorted Lia.
From Verif Require Import Prelude Dec ListFacts StrFacts Claims ClaimsProofs Course Op Exceptions Context Predicate LimitProofs Transcript TranscriptSpec TranscriptProofs TranscriptProps Paths
  Loader Label LabelSpec LabelProofs LabelProps AreaLoadProofs Area StudentLoad StudentSpec StudentProofs.
Import Transcript TranscriptSpec.
Import ListNotations.
Local Open Scope string_scope.

(** ** Lists *)
Definition slip_eqb (a b : slip) : bool := match slip_cmp a b with Eq => true | _ => false end.
Lemma slip_cmp_refl a : slip_cmp a a = Eq.
Proof. unfold slip_cmp, then_cmp. rewrite !Z.compare_refl, !(proj2 (str_compare_eq _ _) eq_refl). reflexivity. Qed.
Lemma slip_eqb_iff a b : slip_eqb a b = true <-> a = b.
Proof. unfold slip_eqb. split; [destruct (slip_cmp a b) eqn:E; try discriminate; intros _; apply slip_cmp_eq; exact E|intros ->; rewrite slip_cmp_refl; reflexivity]. Qed.
Definition of_slip (s : slip) (l : list performance) : list performance := filter (fun p => slip_eqb (mp_slip p) s) l.
Lemma with_slip_filter s l m : with_slip s l m <-> of_slip s l = m.
Proof.
  unfold of_slip. revert m. induction l as [|p l IH]; intro m; cbn [filter]; [split; [intro H; inversion H; reflexivity|intros <-; constructor]|].
  destruct (slip_eqb (mp_slip p) s) eqn:E.
  - apply slip_eqb_iff in E. split; [intro H; inversion H; subst; [f_equal; apply IH; assumption|contradiction]|]. intros <-. apply ws_same; [exact E|]. apply IH. reflexivity.
  - assert (N : mp_slip p <> s) by (intro X; apply slip_eqb_iff in X; congruence).
    split; [intro H; inversion H; subst; [contradiction|apply IH; assumption]|]. intros <-. apply ws_other; [exact N|]. apply IH. reflexivity.
Qed.
Lemma insert_of_slip s p l : of_slip s (insert perf_leb p l) = of_slip s (p :: l).
Proof.
  unfold of_slip. induction l as [|q l IH]; [reflexivity|]. cbn [insert]. destruct (perf_leb p q) eqn:L; [reflexivity|]. cbn [filter] in *. rewrite IH.
  destruct (slip_eqb (mp_slip p) s) eqn:A, (slip_eqb (mp_slip q) s) eqn:B; try reflexivity. apply slip_eqb_iff in A, B. unfold perf_leb, slip_leb in L. rewrite A, B, slip_cmp_refl in L. discriminate.
Qed.
Lemma isort_of_slip s l : of_slip s (isort perf_leb l) = of_slip s l.
Proof. induction l as [|p l IH]; [reflexivity|]. cbn [isort fold_right]. rewrite insert_of_slip. unfold of_slip in *. cbn [filter]. fold (isort perf_leb l). rewrite IH. reflexivity. Qed.
Lemma in_order_perf l : in_order mp_slip l <-> StronglySorted (lebP perf_leb) l.
Proof.
  unfold in_order, lebP, perf_leb. induction l as [|p l IH]; [split; constructor|].
  split; intro H; apply StronglySorted_inv in H; destruct H as [H F]; (constructor; [apply IH; exact H|]); rewrite Forall_forall in *; intros q I; apply slip_leb_earlier; auto.
Qed.
Lemma in_order_slip l : in_order (fun x => x) l <-> StronglySorted (lebP slip_leb) l.
Proof.
  unfold in_order, lebP. induction l as [|p l IH]; [split; constructor|].
  split; intro H; apply StronglySorted_inv in H; destruct H as [H F]; (constructor; [apply IH; exact H|]); rewrite Forall_forall in *; intros q I; apply slip_leb_earlier; auto.
Qed.
Lemma of_slip_in p l : In p l -> In p (of_slip (mp_slip p) l).
Proof. intro I. apply filter_In. split; [exact I|apply slip_eqb_iff; reflexivity]. Qed.
Lemma perf_unique l : forall m, in_order mp_slip l -> in_order mp_slip m -> (forall s, of_slip s l = of_slip s m) -> l = m.
Proof.
  induction l as [|p l IH]; intros [|q m] S1 S2 E; auto.
  - exfalso. pose proof (of_slip_in q (q :: m) (or_introl eq_refl)) as I. rewrite <- E in I. destruct I.
  - exfalso. pose proof (of_slip_in p (p :: l) (or_introl eq_refl)) as I. rewrite E in I. destruct I.
  - pose proof (proj1 (in_order_perf _) S1) as T1. pose proof (proj1 (in_order_perf _) S2) as T2.
    apply StronglySorted_inv in T1, T2. destruct T1 as [T1 F1], T2 as [T2 F2]. rewrite Forall_forall in F1, F2.
    assert (X : mp_slip p = mp_slip q).
    { pose proof (of_slip_in p (p :: l) (or_introl eq_refl)) as I. rewrite E in I. apply filter_In in I. destruct I as [[->|I] _]; [reflexivity|].
      pose proof (of_slip_in q (q :: m) (or_introl eq_refl)) as J. rewrite <- E in J. apply filter_In in J. destruct J as [[->|J] _]; [reflexivity|].
      apply slip_leb_antisym; [exact (F1 _ J)|exact (F2 _ I)]. }
    assert (H : p :: of_slip (mp_slip p) l = q :: of_slip (mp_slip p) m).
    { specialize (E (mp_slip p)). unfold of_slip in *. cbn [filter] in E. rewrite (proj2 (slip_eqb_iff _ _) eq_refl) in E. rewrite (proj2 (slip_eqb_iff _ _) (eq_sym X)) in E. exact E. }
    injection H as -> _. f_equal. apply IH; [apply in_order_perf; exact T1|apply in_order_perf; exact T2|].
    intro s. specialize (E s). unfold of_slip in *. cbn [filter] in E. destruct (slip_eqb (mp_slip q) s); [injection E; auto|exact E].
Qed.
Lemma perf_leb_total a b : perf_leb a b = true \/ perf_leb b a = true.
Proof. apply slip_leb_total. Qed.
Lemma perf_leb_trans a b c : perf_leb a b = true -> perf_leb b c = true -> perf_leb a c = true.
Proof. apply slip_leb_trans. Qed.
Lemma perf_sorted ps l : isort perf_leb ps = l <->
  Permutation l ps /\ in_order mp_slip l /\ forall x m, with_slip x l m <-> with_slip x ps m.
Proof.
  split.
  - intros <-. split; [apply isort_perm|]. split; [apply in_order_perf, isort_sorted; [apply perf_leb_total|apply perf_leb_trans]|].
    intros x m. rewrite !with_slip_filter, isort_of_slip. reflexivity.
  - intros (_ & S & W). apply perf_unique; [apply in_order_perf, isort_sorted; [apply perf_leb_total|apply perf_leb_trans]|exact S|].
    intro s. rewrite isort_of_slip. symmetry. apply with_slip_filter, W, with_slip_filter. reflexivity.
Qed.
Lemma slips_sorted ss l : isort slip_leb ss = l <-> Permutation l ss /\ in_order (fun x => x) l.
Proof.
  split.
  - intros <-. split; [apply isort_perm|]. apply in_order_slip, isort_sorted; [apply slip_leb_total|apply slip_leb_trans].
  - intros (P & S). apply (sorted_perm_unique slip_leb).
    + intros x y _ _. apply slip_leb_antisym.
    + apply isort_sorted; [apply slip_leb_total|apply slip_leb_trans].
    + apply in_order_slip. exact S.
    + rewrite isort_perm. symmetry. exact P.
Qed.
Lemma before_leb a b : sorted_before a b <-> course_leb a b = true.
Proof. unfold sorted_before, course_leb. destruct (course_cmp a b); split; intro H; try discriminate; try reflexivity; try (intro; discriminate); exfalso; apply H; reflexivity. Qed.
Lemma transcript_unique P t t' : transcript_is P t -> transcript_is P t' -> t = t'.
Proof.
  intros (N & S & I) (N' & S' & I'). apply (sorted_perm_unique course_leb).
  - intros x y X Y L M. pose proof (course_antisym _ _ L M) as E. clear -N X Y E. induction t as [|z t IH]; [destruct X|]. cbn [map] in N. inversion N as [|? ? A B]; subst.
    destruct X as [<-|X], Y as [<-|Y]; auto.
    + exfalso. apply A. rewrite E. apply in_map. exact Y.
    + exfalso. apply A. rewrite <- E. apply in_map. exact X.
  - clear -S. induction S; constructor; auto. eapply Forall_impl; [|eassumption]. intros b B. apply before_leb. exact B.
  - clear -S'. induction S'; constructor; auto. eapply Forall_impl; [|eassumption]. intros b B. apply before_leb. exact B.
  - apply NoDup_Permutation; [apply NoDup_map_inv in N; exact N|apply NoDup_map_inv in N'; exact N'|]. intro c. rewrite I, I'. tauto.
Qed.
Lemma mapr_rel {A B} (f : A -> res B) (P : A -> B -> Prop) l m : (forall a b, f a = Ok b <-> P a b) -> (mapr f l = Ok m <-> Forall2 P l m).
Proof.
  intro E. rewrite mapr_iff. split; intro F; (induction F; constructor; auto; apply E; assumption).
Qed.

(** ** C115: the student is what the data says *)
Theorem students_are_loaded_exactly : forall tord d code os credits s,
  (forall l, Permutation (tord l) l) ->
  (load_student tord d code os credits = Ok s <-> student_of d code os credits s).
Proof.
  intros tord d code os credits s PT. unfold load_student. cbv zeta. split.
  - intro H. apply bind_iff in H. destruct H as (areas & HA & H). apply (mapr_rel _ _ _ _ pointer_exact) in HA.
    apply bind_iff in H. destruct H as (cs & HC & H). apply bind_iff in H. destruct H as (fs & HF & H).
    apply bind_iff in H. destruct H as (ps & HP & H). apply (mapr_rel _ _ _ _ perf_exact) in HP.
    apply bind_iff in H. destruct H as (ss & HS & H). apply (mapr_rel _ _ _ _ slip_exact) in HS.
    apply bind_iff in H. destruct H as (pr & HR & H). apply proficiencies_exact in HR.
    apply bind_iff in H. destruct H as (ma & HM & H). apply matriculation_exact in HM.
    apply bind_iff in H. destruct H as (te & HT & H). apply bind_iff in H. destruct H as (cu & HU & H). apply curriculum_exact in HU.
    apply bind_iff in H. destruct H as (ca & HX & H). apply catalog_exact in HX. injection H as <-.
    destruct (loaded_transcript_is_clean _ _ _ _ _ HC) as (l & l' & tf & F & N & ND & TF & D1 & S1 & I1 & D2 & S2 & I2).
    rewrite TF in HF. injection HF as <-. destruct (templates_are_what_the_labels_mean tord (d_templates d) cs PT) as (te' & ET & AT & MT). rewrite ET in HT. injection HT as <-.
    constructor; cbn [sl_stnum sl_curriculum sl_catalog sl_matriculation sl_code sl_student sl_mediums sl_templates t_courses t_failed t_areas t_perf t_slips t_prof]; auto.
    + exists areas. split; [exact HA|]. apply kept_exact. reflexivity.
    + exists l, l'. split; [exact F|]. split; [exact N|]. split; [split; [exact D1|split; [exact S1|exact I1]]|split; [exact D2|split; [exact S2|exact I2]]].
    + exists ps. split; [exact HP|]. apply perf_sorted. reflexivity.
    + exists ss. split; [exact HS|]. apply slips_sorted. reflexivity.
    + apply mediums_exact. reflexivity.
  - intros [SN SCu SCa SM SC (ps & PA & KA) (l & l' & F & N & TC & TF) (pfs & PP & PS) (ss & SS & SSS) SP SMe [TA TM]].
    apply (mapr_rel _ _ _ _ pointer_exact) in PA. rewrite PA. cbn [bind]. apply kept_exact in KA.
    destruct (transcript_loads (d_current_term d) os credits false (d_courses d) l l' F N) as (t & ET). rewrite ET. cbn [bind].
    destruct (loaded_transcript_is_clean _ _ _ _ _ ET) as (l2 & l2' & tf & F2 & N2 & ND & ETF & D1 & S1 & I1 & D2 & S2 & I2).
    pose proof (loads_functional _ _ _ _ _ _ F F2) as E1. subst l2. pose proof (numbered_functional _ _ _ _ N N2) as E2. subst l2'.
    rewrite ETF. cbn [bind]. assert (E3 : t = t_courses (sl_student s)) by (eapply transcript_unique; [split; [exact D1|split; [exact S1|exact I1]]|exact TC]).
    assert (E4 : tf = t_failed (sl_student s)) by (eapply transcript_unique; [split; [exact D2|split; [exact S2|exact I2]]|exact TF]).
    apply (mapr_rel _ _ _ _ perf_exact) in PP. rewrite PP. cbn [bind]. apply (mapr_rel _ _ _ _ slip_exact) in SS. rewrite SS. cbn [bind].
    apply proficiencies_exact in SP. rewrite SP. cbn [bind]. apply matriculation_exact in SM. rewrite SM. cbn [bind].
    destruct (templates_are_what_the_labels_mean tord (d_templates d) t PT) as (te & ETe & AT & MT). rewrite ETe. cbn [bind].
    apply curriculum_exact in SCu. rewrite SCu. cbn [bind]. apply catalog_exact in SCa. rewrite SCa. cbn [bind].
    assert (E5 : te = sl_templates s) by (apply ascending_unique; auto; intro kt; rewrite MT, TM, E3; tauto).
    apply perf_sorted in PS. apply slips_sorted in SSS. apply mediums_exact in SMe.
    rewrite KA, E3, E4, E5, PS, SSS, SMe. unfold get. rewrite <- SN, <- SC. destruct s as [a1 a2 a3 a4 a5 [b1 b2 b3 b4 b5 b6] a7 a8]. reflexivity.
Qed.
Print Assumptions students_are_loaded_exactly.

(** The student loads just when every part of the data can be read. *)
Theorem students_load_iff_readable : forall tord d code os credits,
  (forall l, Permutation (tord l) l) ->
  ((exists s, load_student tord d code os credits = Ok s) <->
   (forall a, In a (d_areas d) -> exists p, pointer_of a p) /\
   (exists l l', Forall2 (fun r c => Transcript.load_course (d_current_term d) os credits r = Ok c) (d_courses d) l /\ numbered [] l l') /\
   (forall r, In r (d_perf d) -> exists p, perf_of r p) /\ (forall r, In r (d_slips d) -> exists p, slip_of r p) /\
   (exists p, proficiencies_are (d_prof d) p) /\
   (exists z, curriculum_is (d_curriculum d) z) /\ (exists z, catalog_is (d_catalog d) z) /\ (exists z, matriculation_is (d_matriculation d) z)).
Proof.
  intros tord d code os credits PT.
  assert (All : forall A B (P : A -> B -> Prop) l, (exists m, Forall2 P l m) <-> (forall a, In a l -> exists b, P a b)).
  { intros A B P l. split.
    - intros (m & F). induction F as [|a b l m H F IH]; [intros a []|]. intros x [<-|I]; eauto.
    - induction l as [|a l IH]; intro H; [exists []; constructor|]. destruct (H a (or_introl eq_refl)) as (b & Hb). destruct IH as (m & F); [intros x I; apply H; right; exact I|]. exists (b :: m). constructor; auto. }
  split.
  - intros (s & H). apply students_are_loaded_exactly in H; [|exact PT].
    destruct H as [SN SCu SCa SM SC (ps & PA & KA) (l & l' & F & N & TC & TF) (pfs & PP & PS) (ss & SS & SSS) SP SMe [TA TM]].
    split; [apply All; eauto|]. split; [eauto|]. split; [apply All; eauto|]. split; [apply All; eauto|]. eauto 10.
  - intros (HA & (l & l' & F & N) & HP & HS & (pr & HR) & (cu & HU) & (ca & HC) & (ma & HM)).
    apply All in HA, HP, HS. destruct HA as (ps & PA), HP as (pfs & PP), HS as (ss & SS).
    destruct (transcript_loads (d_current_term d) os credits false (d_courses d) l l' F N) as (t & ET).
    destruct (loaded_transcript_is_clean _ _ _ _ _ ET) as (l2 & l2' & tf & F2 & N2 & ND & ETF & _).
    destruct (templates_are_what_the_labels_mean tord (d_templates d) t PT) as (te & ETe & _).
    unfold load_student. apply (mapr_rel _ _ _ _ pointer_exact) in PA. rewrite PA. cbn [bind]. rewrite ET. cbn [bind]. rewrite ETF. cbn [bind].
    apply (mapr_rel _ _ _ _ perf_exact) in PP. rewrite PP. cbn [bind]. apply (mapr_rel _ _ _ _ slip_exact) in SS. rewrite SS. cbn [bind].
    apply proficiencies_exact in HR. rewrite HR. cbn [bind]. apply matriculation_exact in HM. rewrite HM. cbn [bind]. rewrite ETe. cbn [bind].
    apply curriculum_exact in HU. rewrite HU. cbn [bind]. apply catalog_exact in HC. rewrite HC. cbn [bind]. eexists. reflexivity.
Qed.
Print Assumptions students_load_iff_readable.

(** The order of the rows of courses, performances, recitals, and of the keys does not matter. *)
Lemma Forall2_permuted {A B} (P : A -> B -> Prop) l l' : Permutation l l' -> forall m, Forall2 P l m -> exists m', Permutation m m' /\ Forall2 P l' m'.
Proof.
  intro H. induction H as [|x l l' H IH|x y l|l l' l'' H IH H' IH']; intros m F.
  - inversion F; subst. exists []. split; constructor.
  - inversion F; subst. destruct (IH _ H4) as (m' & Q & G). exists (y :: m'). split; [constructor; exact Q|constructor; auto].
  - inversion F as [|? b ? m1 B1 F1]; subst. inversion F1 as [|? c ? m2 B2 F2]; subst. exists (c :: b :: m2). split; [apply perm_swap|repeat constructor; auto].
  - destruct (IH _ F) as (m' & Q & G). destruct (IH' _ G) as (m'' & Q' & G'). exists m''. split; [eapply perm_trans; eauto|exact G'].
Qed.
Lemma with_slip_perm ps qs : Permutation ps qs -> NoDup (map (fun p => s_id (mp_slip p)) ps) -> forall x m, with_slip x ps m <-> with_slip x qs m.
Proof.
  intros P N x m. rewrite !with_slip_filter. assert (E : of_slip x ps = of_slip x qs); [|rewrite E; reflexivity].
  unfold of_slip.
  assert (S : forall l, NoDup (map (fun p => s_id (mp_slip p)) l) -> filter (fun p => slip_eqb (mp_slip p) x) l = [] \/ exists p, filter (fun p => slip_eqb (mp_slip p) x) l = [p]).
  { induction l as [|p l IH]; intro D; [left; reflexivity|]. cbn [map] in D. inversion D as [|? ? A B]; subst. cbn [filter]. destruct (slip_eqb (mp_slip p) x) eqn:E; [|exact (IH B)].
    right. exists p. f_equal. destruct (filter _ l) as [|q r] eqn:F; [reflexivity|]. exfalso. assert (I : In q (filter (fun p => slip_eqb (mp_slip p) x) l)) by (rewrite F; left; reflexivity).
    apply filter_In in I. destruct I as [I J]. apply slip_eqb_iff in E, J. apply A. rewrite E, <- J. apply (in_map (fun p => s_id (mp_slip p))). exact I. }
  assert (Q : Permutation (filter (fun p => slip_eqb (mp_slip p) x) ps) (filter (fun p => slip_eqb (mp_slip p) x) qs)).
  { clear -P. induction P; cbn [filter]; auto.
    - destruct (slip_eqb _ x); auto.
    - destruct (slip_eqb (mp_slip x0) x), (slip_eqb (mp_slip y) x); auto. apply perm_swap.
    - eapply perm_trans; eauto. }
  destruct (S ps N) as [E|(p & E)]; rewrite E in *; [apply Permutation_nil in Q; symmetry; exact Q|apply Permutation_length_1_inv in Q; symmetry; exact Q].
Qed.
Theorem student_does_not_depend_on_order : forall tord tord' d d' code os credits s,
  (forall l, Permutation (tord l) l) -> (forall l, Permutation (tord' l) l) -> same_data d d' ->
  load_student tord d code os credits = Ok s -> load_student tord' d' code os credits = Ok s.
Proof.
  intros tord tord' d d' code os credits s PT PT' [En Eu Ec Em Et Ea [PC DC] [PP DP] PS Epr Eme Ete] H.
  apply students_are_loaded_exactly in H; [|exact PT]. apply students_are_loaded_exactly; [exact PT'|].
  destruct H as [SN SCu SCa SM SC (ps & PA & KA) (l & l' & F & N & TC & TF) (pfs & FP & PSo & IO & WS) (ss & SS & SP & SO) SPr SMe [TA TM]].
  assert (CL : map c_clbid l = map r_clbid (d_courses d)).
  { clear -F. induction F as [|r c rows l L F IH]; [reflexivity|]. cbn [map]. f_equal; [|exact IH]. destruct (load_course_inv _ _ _ _ _ L) as (cr & g & pts & op & sub & ty & tc & H). decompose [and] H. assumption. }
  assert (NL : numbered [] l l) by (apply distinct_numbered; [rewrite CL; exact DC|intros c _ []]).
  pose proof (numbered_functional _ _ _ _ N NL) as E. subst l'.
  destruct (Forall2_permuted _ _ _ PC _ F) as (l2 & PL & F2).
  assert (NL2 : numbered [] l2 l2) by (apply distinct_numbered; [apply (Permutation_NoDup (l := map c_clbid l)); [apply Permutation_map; exact PL|rewrite CL; exact DC]|intros c _ []]).
  destruct (Forall2_permuted _ _ _ PP _ FP) as (pfs2 & PL2 & FP2). destruct (Forall2_permuted _ _ _ PS _ SS) as (ss2 & PL3 & SS2).
  assert (DI : NoDup (map (fun p => s_id (mp_slip p)) pfs)).
  { clear -FP DP. induction FP as [|r p rs pfs H F IH]; [constructor|]. cbn [map] in *. inversion DP as [|? ? A B]; subst. constructor; [|apply IH; exact B].
    intro I. apply A. apply in_map_iff in I. destruct I as (q & E & I). destruct H as [[_ Hi _ _] _ _]. rewrite Hi, <- E.
    clear -F I. induction F as [|r' p' rs' pfs' H F IH]; [destruct I|]. destruct I as [->|I]; [|right; auto]. left. destruct H as [[_ Hi _ _] _ _]. exact Hi. }
  constructor; auto; try (rewrite <- En; exact SN); try (rewrite <- Eu; exact SCu); try (rewrite <- Ec; exact SCa); try (rewrite <- Em; exact SM).
  - rewrite <- Ea. eauto.
  - exists l2, l2. rewrite <- Et. split; [exact F2|]. split; [exact NL2|].
    assert (I : forall c, In c l <-> In c l2) by (intro c; split; apply Permutation_in; [|symmetry]; exact PL).
    destruct TC as (A1 & A2 & A3), TF as (B1 & B2 & B3). split; (split; [assumption|split; [assumption|]]); intro c; [rewrite A3|rewrite B3]; rewrite I; tauto.
  - exists pfs2. split; [exact FP2|]. split; [eapply perm_trans; eauto|]. split; [exact IO|]. intros x m. rewrite WS. apply with_slip_perm; assumption.
  - exists ss2. split; [exact SS2|]. split; [eapply perm_trans; eauto|exact SO].
  - assert (U : forall k b, under_is proficiency_is (d_prof d) k b -> under_is proficiency_is (d_prof d') k b).
    { intros k b (o & X & Y). exists o. split; [apply Epr; exact X|exact Y]. }
    destruct SPr as (U1 & U2 & U3 & U4 & U5). unfold proficiencies_are. auto 10.
  - unfold mediums_are in *. cbv zeta in *.
    assert (U : forall k b, under_is (fun o x => medium_is (match o with Some s => s | None => "Unknown" end) x) (d_mediums d) k b ->
       under_is (fun o x => medium_is (match o with Some s => s | None => "Unknown" end) x) (d_mediums d') k b).
    { intros k b (o & X & Y). exists o. split; [apply Eme; exact X|exact Y]. }
    destruct SMe as (U1 & U2 & U3 & U4). auto 10.
  - split; [exact TA|]. intro kt. rewrite TM. unfold meant. split; intros (labels & label & I & J & L).
    + destruct (proj1 (Ete (fst kt) label)) as (labels' & I' & J'); [eauto|]. eauto 6.
    + destruct (proj2 (Ete (fst kt) label)) as (labels' & I' & J'); [eauto|]. eauto 6.
Qed.
Print Assumptions student_does_not_depend_on_order.

(** Year, number of terms, medium and code are taken from the student and the audited area. *)
Theorem constants_are_exact : forall s k, constants_of s = k <-> constants_are s k.
Proof.
  assert (X : forall s, constants_are s (constants_of s)).
  { intro s. unfold constants_of. constructor; cbn [k_matriculation k_terms k_medium k_code]; auto.
    unfold terms_since_declaring. induction (t_areas (sl_student s)) as [|a l IH]; [right; split; [intros y []|reflexivity]|]. cbn [find].
    destruct (a_code a =? sl_code s) eqn:E.
    - apply String.eqb_eq in E. left. exists [], a, l. split; [reflexivity|]. split; [intros y []|]. auto.
    - apply String.eqb_neq in E. destruct IH as [(p & x & b & -> & N & C & T)|(N & T)].
      + left. exists (a :: p), x, b. split; [reflexivity|]. split; [intros y [<-|I]; auto|auto].
      + right. split; [intros y [<-|I]; auto|exact T]. }
  intros s k. split; [intros <-; apply X|]. intros [Y T M C]. destruct (X s) as [Y' T' M' C'].
  assert (ET : k_terms k = k_terms (constants_of s)).
  { destruct T as [(a & x & b & E & N & Cx & Tx)|(N & Tx)], T' as [(a' & x' & b' & E' & N' & Cx' & Tx')|(N' & Tx')].
    - rewrite Tx, Tx'. assert (Q : x = x'); [|subst; reflexivity]. rewrite E in E'. clear -E' N N' Cx Cx'. revert a' E' N'. induction a as [|y a IH]; intros [|z a'] E N'.
      + injection E; auto.
      + cbn [app] in E. injection E as -> _. destruct (N' z (or_introl eq_refl) Cx).
      + cbn [app] in E. injection E as <- _. destruct (N y (or_introl eq_refl) Cx').
      + cbn [app] in E. injection E as _ E. apply (IH (fun y I => N y (or_intror I)) a' E). intros y0 I. apply N'. right. exact I.
    - destruct (N' x); [rewrite E; apply in_app_iff; right; left; reflexivity|exact Cx].
    - destruct (N x'); [rewrite E'; apply in_app_iff; right; left; reflexivity|exact Cx'].
    - congruence. }
  destruct k as [k1 k2 k3 k4], (constants_of s) as [c1 c2 c3 c4]. cbn in *. congruence.
Qed.
Print Assumptions constants_are_exact.

(** The loader makes these constants of the data: the year and the medium, and the terms of the audited
    area even when it is being dropped. *)
Theorem constants_come_from_the_data : forall tord d code os credits s,
  (forall l, Permutation (tord l) l) -> load_student tord d code os credits = Ok s ->
  matriculation_is (d_matriculation d) (k_matriculation (constants_of s)) /\ k_code (constants_of s) = code /\
  (exists o, under "ppm" (d_mediums d) o /\ medium_is (match o with Some m => m | None => "Unknown" end) (k_medium (constants_of s))) /\
  (forall a x b, d_areas d = (a ++ x :: b)%list -> (forall y, In y a -> ra_code y <> Some code) -> ra_code x = Some code ->
     k_terms (constants_of s) = match ra_terms x with Some z => z | None => 0%Z end) /\
  ((forall y, In y (d_areas d) -> ra_code y <> Some code) -> k_terms (constants_of s) = 0%Z).
Proof.
  intros tord d code os credits s PT H. apply students_are_loaded_exactly in H; [|exact PT].
  destruct H as [SN SCu SCa SM SC (ps & PA & KA) _ _ _ _ SMe _]. split; [exact SM|]. split; [exact SC|]. split; [exact (proj1 SMe)|].
  unfold constants_of. cbn [k_terms]. rewrite SC.
  assert (T : terms_since_declaring code (t_areas (sl_student s)) = terms_since_declaring code ps).
  { clear -KA. induction KA as [|a l m K H IH|a l m K K' H IH]; [reflexivity| |]; unfold terms_since_declaring in *; cbn [find].
    - destruct (a_code a =? code); [reflexivity|exact IH].
    - destruct (a_code a =? code) eqn:E; [apply String.eqb_eq in E; contradiction|exact IH]. }
  rewrite T. clear T KA. split.
  - intros a x b E NA X. rewrite E in PA. clear E. revert ps PA. induction a as [|y a IH]; intros ps PA; cbn [app] in PA; inversion PA as [|? p ? qs HP F]; subst; unfold terms_since_declaring in *; cbn [find].
    + destruct HP as [HC _ _ _ _ _ _ HT]. rewrite X in HC. injection HC as HC. rewrite <- HC, String.eqb_refl, HT. reflexivity.
    + destruct (a_code p =? sl_code s) eqn:E; [|apply IH; [intros z I; apply NA; right; exact I|exact F]]. apply String.eqb_eq in E. destruct (NA y (or_introl eq_refl)). rewrite (po_code _ _ HP). congruence.
  - intro N. unfold terms_since_declaring. destruct (find _ ps) as [p|] eqn:F; [|reflexivity]. apply find_some in F. destruct F as [I E]. apply String.eqb_eq in E.
    exfalso. revert I. clear -PA N E SC. induction PA as [|y q l m H F IH]; intros []; [subst q; apply (N y (or_introl eq_refl)); rewrite (po_code _ _ H); congruence|].
    apply IH; [intros z I; apply N; right; exact I|assumption].
Qed.
Print Assumptions constants_come_from_the_data.

(** ** C116: mediums *)
(** Every text is read in one way, as [medium_is] says. *)
Theorem mediums_are_read_exactly : forall s m, parse_medium s = m <-> medium_is s m.
Proof. exact medium_exact. Qed.
Print Assumptions mediums_are_read_exactly.
(** Several instruments written with ", " are read back one by one. *)
Theorem listed_mediums_are_read_back : forall parts,
  (2 <= List.length parts)%nat ->
  (forall p, In p parts -> ~ has_comma p /\ ~ starts_blank p /\ ~ ends_blank p) ->
  parse_medium (joined parts) = inr parts.
Proof.
  intros parts L C. apply medium_exact. destruct parts as [|a [|b r]]; try (cbn in L; lia). constructor.
  - rewrite joined_cons by discriminate. unfold has_comma. rewrite !chars_app, !in_app_iff. right. left. left. reflexivity.
  - discriminate.
  - intros p I x y E. destruct (C p I) as [N _]. apply N. rewrite E. unfold has_comma. rewrite !chars_app, !in_app_iff. right. left. left. reflexivity.
  - clear L. induction (a :: b :: r) as [|p l IH]; constructor; [|apply IH; intros q I; apply C; right; exact I].
    destruct (C p (or_introl eq_refl)) as (_ & S & E). split; [exact S|]. split; [exact E|]. exists "", "". rewrite str_nil. split; [reflexivity|]. split; intros x [].
Qed.
Print Assumptions listed_mediums_are_read_back.
(** Instruments separated by a comma alone are not: they are read as one. *)
Theorem listed_mediums_are_read_apart_refuted :
  exists a b, ~ has_comma a /\ ~ has_comma b /\ a <> "" /\ b <> "" /\ parse_medium (a ++ "," ++ b) = inr [a ++ "," ++ b].
Proof.
  exists "Piano", "Voice". assert (N : forall s, existsb (Ascii.eqb ",") (list_ascii_of_string s) = false -> ~ has_comma s) by (intros s E H; apply comma_in in H; congruence).
  split; [apply N; reflexivity|]. split; [apply N; reflexivity|]. split; [discriminate|]. split; [discriminate|reflexivity].
Qed.
Print Assumptions listed_mediums_are_read_apart_refuted.
Example mediums_example :
  parse_medium "Piano" = inl "Piano" /\ parse_medium "Piano, Voice" = inr ["Piano"; "Voice"] /\ parse_medium "Piano,  Voice , " = inr ["Piano"; "Voice"; ""] /\
  parse_medium " Piano " = inl " Piano ".
Proof. vm_compute. auto. Qed.

(** ** C117: the numbers *)
Theorem numbers_are_read_exactly :
  (forall o z, matriculation_of o = Ok z <-> matriculation_is o z) /\ (forall o z, curriculum_of o = Ok z <-> curriculum_is o z) /\
  (forall o z, catalog_of o = Ok z <-> catalog_is o z).
Proof. split; [exact matriculation_exact|]. split; [exact curriculum_exact|exact catalog_exact]. Qed.
Print Assumptions numbers_are_read_exactly.
(** A catalog that is any text gives a student; null does not, and neither does a text for the other numbers. *)
Theorem catalogs_in_text_are_always_read : forall s, exists z, catalog_of (Some (JStr s)) = Ok z.
Proof. intro s. unfold catalog_of. cbn [get int_of]. destruct (py_int s) eqn:E; [eauto|]. rewrite (py_int_fails _ _ E). eauto. Qed.
Print Assumptions catalogs_in_text_are_always_read.
Theorem catalogs_are_always_read_refuted : catalog_of (Some JNull) = Err TypeErr /\ forall z, ~ catalog_is (Some JNull) z.
Proof. split; [reflexivity|]. intros z H. apply catalog_exact in H. discriminate. Qed.
Print Assumptions catalogs_are_always_read_refuted.

(** ** A student *)
Definition student_example : sdata :=
  mkData (Some "123") (Some (JStr "7")) (Some (JStr "2016-17")) (Some (JStr "2016"))
    [mkRawArea (Some "140") (Some "declared") (Some "major") (Some "Math") (Some "B.A.") (Some (JStr "3.50")) (Some "MATH") (Some 4%Z);
     mkRawArea (Some "150") (Some "what-if-drop") (Some "major") (Some "Art") (Some "B.A.") None None None]
    None [row_example "7" "B+" "grade" "a"; row_example "3" "F" "grade" "c"]
    [mkRawPerf (mkRawSlip (Some "Band") (Some "9") (Some (JInt 2019)) (Some (JStr "3"))) (Some "Member") (Some "C");
     mkRawPerf (mkRawSlip (Some "Choir") (Some "8") (Some (JStr "2019")) (Some (JInt 1))) None None]
    [mkRawSlip (Some "Recital") (Some "5") (Some (JInt 2018)) (Some (JInt 1))]
    [("keyboard_1", JStr "E"); ("guitar", JBool true)] [("ppm", "Piano, Voice")] [("core", ["CSCI 121"])].
Example student_loads :
  exists s, load_student (fun l => l) student_example "140" [] [] = Ok s /\
    sl_curriculum s = 7%Z /\ sl_catalog s = 0%Z /\ map a_code (t_areas (sl_student s)) = ["140"] /\
    map c_clbid (t_courses (sl_student s)) = ["7"] /\ map c_clbid (t_failed (sl_student s)) = ["3"; "7"] /\
    map (fun p => s_name (mp_slip p)) (t_perf (sl_student s)) = ["Choir"; "Band"] /\
    constants_of s = mkConst 2016 4 (inr ["Piano"; "Voice"]) "140".
Proof. eexists. split; [vm_compute; reflexivity|]. vm_compute. auto 10. Qed.
Definition student_reordered : sdata :=
  mkData (d_stnum student_example) (d_curriculum student_example) (d_catalog student_example) (d_matriculation student_example) (d_areas student_example) None
    (rev (d_courses student_example)) (rev (d_perf student_example)) (d_slips student_example) (d_prof student_example) (d_mediums student_example) (d_templates student_example).
Example student_same : same_data student_example student_reordered.
Proof.
  constructor; try reflexivity; try (intros; reflexivity); (split; [apply perm_swap|]); vm_compute; repeat (constructor; [intros H; repeat destruct H as [H|H]; try discriminate; try destruct H|]); constructor.
Qed.
