(** Property theorems about runs and the report of averages (C118 to C121). *)
From Coq Require Import List Bool Arith ZArith QArith String Ascii Permutation Sorting.Sorted Lia.
From Verif Require Import Transcript Prelude Dec ListFacts StrFacts Paths Status Claims Course Exceptions Context Predicate LimitProofs QuerySpec EstimateSpec Tree TreeSpec TreeSolSpec Solve Loader Label Driver DriverSpec DriverProps Area AreaLoad Estimate
  TranscriptSpec TranscriptProofs TranscriptProps EstimateProps LabelSpec LabelProps AreaLoadProofs StudentLoad StudentSpec StudentProofs StudentProps Run RunSpec.
Import Transcript TranscriptSpec.
Import ListNotations.
Local Open Scope string_scope.

(** ** Averages *)
Lemma average_perm a b d : Permutation a b -> average a d -> average b d.
Proof.
  intros P [Z N].
  assert (C : (credits_of b == credits_of a)%Q) by (apply (Qsum_perm _ _ (Permutation_map (fun c => dval (c_credits c)) (Permutation_sym P)))).
  assert (G : (points_of b == points_of a)%Q) by (apply (Qsum_perm _ _ (Permutation_map (fun c => dval (c_gpa_points c)) (Permutation_sym P)))).
  split; [intro E; apply Z; rewrite <- C; exact E|]. intro E. apply (cut_ext (points_of a / credits_of a)%Q); [rewrite C, G; reflexivity|]. apply N. rewrite <- C. exact E.
Qed.
Lemma average_gpa cs : average (filter c_in_gpa cs) (grade_point_average cs).
Proof. exact (gpa_is_cut_quotient cs). Qed.
Lemma average_unique l d d' : average l d -> average l d' -> d = d'.
Proof.
  intros [Z N] [Z' N']. destruct (Qeq_dec (credits_of l) 0) as [E|E]; [rewrite Z, Z' by exact E; reflexivity|]. eapply cut_unique; [apply N|apply N']; exact E.
Qed.
Lemma term_leb_iff a b : term_leb a b = true <-> String.compare a b <> Gt.
Proof. unfold term_leb. destruct (String.compare a b); split; intro H; try discriminate; try reflexivity; try (intro; discriminate); exfalso; apply H; reflexivity. Qed.
Lemma term_leb_total a b : term_leb a b = true \/ term_leb b a = true.
Proof. unfold term_leb. rewrite (String.compare_antisym a b). destruct (String.compare b a); cbn [CompOpp]; auto. Qed.
Lemma term_leb_trans a b c : term_leb a b = true -> term_leb b c = true -> term_leb a c = true.
Proof.
  rewrite !term_leb_iff. intros A B. destruct (String.compare a b) eqn:E; [|destruct (String.compare b c) eqn:F|contradiction].
  - apply str_compare_eq in E. subst. exact B.
  - apply str_compare_eq in F. subst. rewrite E. discriminate.
  - rewrite (str_lt_trans _ _ _ E F). discriminate.
  - contradiction.
Qed.
Lemma terms_sorted cs : let terms := isort term_leb (dedup String.eqb (map year_term cs)) in
  StronglySorted term_before terms /\ forall t, In t terms <-> exists c, In c cs /\ the_term c = t.
Proof.
  intro terms. assert (EQ : forall x y, String.eqb x y = true <-> x = y) by (intros; apply String.eqb_eq).
  assert (ND : NoDup terms) by (apply isort_NoDup, dedup_NoDup; exact EQ).
  assert (S : StronglySorted (lebP term_leb) terms) by (apply isort_sorted; [exact term_leb_total|exact term_leb_trans]).
  split.
  - clear -ND S. induction S as [|t l S IH F]; [constructor|]. inversion ND as [|? ? NI ND']; subst. constructor; [exact (IH ND')|]. rewrite Forall_forall in *. intros x I.
    specialize (F x I). apply term_leb_iff in F. unfold term_before. destruct (String.compare t x) eqn:E; [|reflexivity|contradiction]. apply str_compare_eq in E. subst. contradiction.
  - intro t. unfold terms. rewrite in_isort, in_dedup by exact EQ. rewrite in_map_iff. split; intros (c & A & B); exists c; auto.
Qed.
Lemma report_cmp_lt a b : report_cmp a b = Lt <-> listed_before a b.
Proof.
  unfold report_cmp, then_cmp. split.
  - destruct (Z.compare_spec (c_year a) (c_year b)) as [Y|Y|Y]; intro H; try discriminate; [|apply lb_year; exact Y].
    destruct (String.compare (c_term a) (c_term b)) eqn:T; try discriminate; [|apply lb_term; auto]. apply str_compare_eq in T.
    destruct (String.compare (c_identity a) (c_identity b)) eqn:N; try discriminate; [|apply lb_course; auto]. apply lb_id; auto. apply str_compare_eq. exact N.
  - intros [Y|Y T|Y T N|Y T N I].
    + apply Z.compare_lt_iff in Y. rewrite Y. reflexivity.
    + rewrite Y, Z.compare_refl, T. reflexivity.
    + rewrite Y, T, Z.compare_refl, (proj2 (str_compare_eq _ _) eq_refl), N. reflexivity.
    + rewrite Y, T, N, Z.compare_refl, !(proj2 (str_compare_eq _ _) eq_refl), I. reflexivity.
Qed.
Lemma report_cmp_sym a b : report_cmp b a = CompOpp (report_cmp a b).
Proof.
  unfold report_cmp, then_cmp. rewrite (Z.compare_antisym (c_year a) (c_year b)). destruct (Z.compare (c_year a) (c_year b)); try reflexivity. cbn [CompOpp].
  rewrite (String.compare_antisym (c_term b) (c_term a)). destruct (String.compare (c_term a) (c_term b)); try reflexivity. cbn [CompOpp].
  rewrite (String.compare_antisym (c_identity b) (c_identity a)). destruct (String.compare (c_identity a) (c_identity b)); try reflexivity. cbn [CompOpp].
  apply String.compare_antisym.
Qed.
Lemma report_leb_iff a b : report_leb a b = true <-> ~ listed_before b a.
Proof.
  unfold report_leb. rewrite <- report_cmp_lt, (report_cmp_sym a b). destruct (report_cmp a b); cbn [CompOpp]; split; intro H; try discriminate; try reflexivity; try (intro; discriminate); exfalso; apply H; reflexivity.
Qed.
Lemma listed_trans a b c : listed_before a b -> listed_before b c -> listed_before a c.
Proof.
  intros [Y|Y T|Y T N|Y T N I] [Y'|Y' T'|Y' T' N'|Y' T' N' I'].
  all: try (apply lb_year; lia).
  all: try (apply lb_term; [congruence|]; try (eapply str_lt_trans; eassumption); congruence).
  all: try (apply lb_course; [congruence|congruence|]; try (eapply str_lt_trans; eassumption); congruence).
  apply lb_id; [congruence|congruence|congruence|]. eapply str_lt_trans; eassumption.
Qed.
Lemma report_leb_total a b : report_leb a b = true \/ report_leb b a = true.
Proof. unfold report_leb. rewrite (report_cmp_sym a b). destruct (report_cmp a b); cbn [CompOpp]; auto. Qed.
Lemma report_eq_keys a b : report_cmp a b = Eq -> c_year a = c_year b /\ c_term a = c_term b /\ c_identity a = c_identity b /\ c_clbid a = c_clbid b.
Proof.
  unfold report_cmp, then_cmp. destruct (Z.compare_spec (c_year a) (c_year b)) as [Y|Y|Y]; try discriminate. destruct (String.compare (c_term a) (c_term b)) eqn:T; try discriminate.
  destruct (String.compare (c_identity a) (c_identity b)) eqn:N; try discriminate. intro I. apply str_compare_eq in T, N, I. auto.
Qed.
Lemma report_leb_trans a b c : report_leb a b = true -> report_leb b c = true -> report_leb a c = true.
Proof.
  rewrite !report_leb_iff. intros A B C. destruct (report_cmp a b) eqn:E.
  - apply report_eq_keys in E. destruct E as (Y & T & N & I). apply B. destruct C as [Y'|Y' T'|Y' T' N'|Y' T' N' I']; [apply lb_year|apply lb_term|apply lb_course|apply lb_id]; congruence.
  - apply report_cmp_lt in E. apply B. eapply listed_trans; eauto.
  - apply A, report_cmp_lt. rewrite (report_cmp_sym a b), E. reflexivity.
Qed.
Lemma filter_sorted_terms cs (t : string) (terms before : list string) :
  ~ In t before ->
  Permutation (filter (fun c => c_in_gpa c && existsb (String.eqb (year_term c)) (before ++ [t])) cs)
    (filter (fun c => c_in_gpa c && existsb (String.eqb (year_term c)) before) cs ++ filter c_in_gpa (filter (fun c => (year_term c =? t)%string) cs)).
Proof.
  intro N. induction cs as [|c cs IH]; [constructor|]. cbn [filter]. rewrite existsb_app. cbn [existsb]. rewrite orb_false_r.
  destruct (existsb (String.eqb (year_term c)) before) eqn:B; destruct (year_term c =? t)%string eqn:T; cbn [orb].
  - exfalso. apply N. apply existsb_exists in B. destruct B as (x & I & E). apply String.eqb_eq in E, T. congruence.
  - destruct (c_in_gpa c); cbn [andb]; [constructor|]; exact IH.
  - cbn [filter]. destruct (c_in_gpa c); cbn [andb]; [|exact IH]. apply Permutation_cons_app. exact IH.
  - rewrite andb_false_r. exact IH.
Qed.
Lemma blocks_ok cs : NoDup cs -> forall terms before seen,
  StronglySorted term_before (before ++ terms) -> (forall t, In t (before ++ terms)%list <-> exists c, In c cs /\ the_term c = t) ->
  Permutation seen (filter (fun c => c_in_gpa c && existsb (String.eqb (year_term c)) before) cs) ->
  exists blocks, Forall2 (block cs) terms blocks /\ term_rows cs terms seen = List.concat blocks.
Proof.
  intros ND. induction terms as [|t terms IH]; intros before seen S IN P; [exists []; split; [constructor|reflexivity]|].
  assert (SP : (forall x, In x before -> term_before x t) /\ (forall x, In x terms -> term_before t x)).
  { clear -S. induction before as [|b before IH]; cbn [app] in S; apply StronglySorted_inv in S; destruct S as [S F]; rewrite Forall_forall in F.
    - split; [intros x []|exact F].
    - destruct (IH S) as [A B]. split; [|exact B]. intros x [<-|I]; [apply F, in_app_iff; right; left; reflexivity|exact (A x I)]. }
  destruct SP as [SB SA]. assert (NT : ~ In t before).
  { intro I. specialize (SB t I). unfold term_before in SB. rewrite (proj2 (str_compare_eq t t) eq_refl) in SB. discriminate. }
  pose proof (filter_sorted_terms cs t terms before NT) as FS.
  assert (S' : StronglySorted term_before ((before ++ [t]) ++ terms)) by (rewrite <- app_assoc; exact S).
  assert (IN' : forall x, In x ((before ++ [t]) ++ terms)%list <-> exists c, In c cs /\ the_term c = x) by (intro x; rewrite <- app_assoc; apply IN).
  cbn [term_rows]. unfold gpa_items. destruct (filter c_in_gpa (filter (fun c => year_term c =? t) cs)) as [|a l] eqn:AP.
  - destruct (IH (before ++ [t])%list seen S' IN') as (bs & F & E).
    { rewrite P. symmetry. rewrite app_nil_r in FS. exact FS. }
    exists ([GNoCourses t] :: bs). split; [|rewrite E; reflexivity]. constructor; [|exact F]. constructor. intros c I T. destruct (c_in_gpa c) eqn:G; [|reflexivity].
    exfalso. assert (X : In c (filter c_in_gpa (filter (fun c => year_term c =? t) cs))) by (apply filter_In; split; [apply filter_In; split; [exact I|apply String.eqb_eq; exact T]|exact G]).
    rewrite AP in X. destruct X.
  - rewrite <- AP in *. set (ap := filter c_in_gpa (filter (fun c => year_term c =? t) cs)) in *.
    assert (PS : Permutation (seen ++ ap) (filter (fun c => c_in_gpa c && existsb (String.eqb (year_term c)) (before ++ [t])) cs)).
    { symmetry. rewrite FS. apply Permutation_app_tail. symmetry. exact P. }
    destruct (IH (before ++ [t])%list (seen ++ ap)%list S' IN' PS) as (bs & F & E).
    exists ((GTerm t :: map row_of (isort report_leb ap) ++ [GTermGpa (grade_point_average (filter (fun c => year_term c =? t) cs)); GCumGpa (grade_point_average (seen ++ ap))])%list :: bs).
    split; [|rewrite E; cbn [List.concat]; rewrite <- app_comm_cons, <- app_assoc; reflexivity]. constructor; [|exact F].
    assert (NF : forall f, NoDup (filter f cs)) by (intro f; apply NoDup_filter; exact ND).
    apply (bl_some cs t (isort report_leb ap) (seen ++ ap)%list).
    + intro Z. assert (X : In a (isort report_leb ap)) by (apply in_isort; rewrite AP; left; reflexivity). rewrite Z in X. destruct X.
    + apply isort_NoDup, NoDup_filter, NF.
    + intro c. rewrite in_isort. unfold ap. rewrite !filter_In, String.eqb_eq. unfold the_term, year_term. tauto.
    + pose proof (isort_sorted report_leb report_leb_total report_leb_trans ap) as SO. clear -SO. induction SO as [|x l S IH F]; constructor; auto. eapply Forall_impl; [|exact F]. intros b B. apply report_leb_iff. exact B.
    + apply (Permutation_NoDup (Permutation_sym PS)), NF.
    + intro c. assert (X : In c (seen ++ ap)%list <-> In c (filter (fun c => c_in_gpa c && existsb (String.eqb (year_term c)) (before ++ [t])) cs)) by (split; apply Permutation_in; [|symmetry]; exact PS).
      rewrite X, filter_In, andb_true_iff, existsb_exists. split.
      * intros (I & G & x & J & Ex). apply String.eqb_eq in Ex. split; [exact I|]. split; [|exact G]. apply in_app_iff in J. destruct J as [J|[J|[]]]; [right; change (the_term c) with (year_term c); rewrite Ex; apply SB; exact J|left; change (the_term c) with (year_term c); congruence].
      * intros (I & T & G). split; [exact I|]. split; [exact G|]. exists (year_term c). split; [|apply String.eqb_refl]. change (the_term c) with (year_term c) in T.
        apply in_app_iff. destruct T as [T|T]; [right; left; congruence|]. left.
        assert (IT : In (year_term c) (before ++ t :: terms)%list) by (apply IN; exists c; split; [exact I|reflexivity]). apply in_app_iff in IT. destruct IT as [IT|[IT|IT]]; [exact IT| |].
        -- exfalso. rewrite <- IT in T. unfold term_before in T. rewrite (proj2 (str_compare_eq t t) eq_refl) in T. discriminate.
        -- exfalso. specialize (SA _ IT). pose proof (str_lt_trans _ _ _ SA T) as X2. rewrite (proj2 (str_compare_eq t t) eq_refl) in X2. discriminate.
    + apply (average_perm ap); [symmetry; apply isort_perm|apply average_gpa].
    + assert (FF : filter c_in_gpa (seen ++ ap) = (seen ++ ap)%list).
      { assert (AL : forall c, In c (seen ++ ap)%list -> c_in_gpa c = true) by (intros c I; apply (Permutation_in c PS) in I; apply filter_In in I; destruct I as [_ I]; apply andb_true_iff in I; tauto).
        clear -AL. induction (seen ++ ap)%list as [|c l IH]; [reflexivity|]. cbn [filter]. rewrite (AL c (or_introl eq_refl)). f_equal. apply IH. intros x I. apply AL. right. exact I. }
      pose proof (average_gpa (seen ++ ap)) as AV. rewrite FF in AV. exact AV.
Qed.

(** ** C118 *)
(** The report lists each term's counted courses and averages, and the average of all. *)
Theorem gpa_report_exact : forall cs, NoDup cs -> report cs (gpa_report cs).
Proof.
  intros cs ND. destruct (terms_sorted cs) as [S I]. destruct (blocks_ok cs ND _ [] [] S I) as (bs & F & E).
  - clear. induction cs as [|c cs IH]; [constructor|]. cbn [filter existsb]. rewrite andb_false_r. exact IH.
  - unfold gpa_report. rewrite E. exists (isort term_leb (dedup String.eqb (map year_term cs))), bs, (grade_point_average cs), (filter c_in_gpa cs).
    split; [exact S|]. split; [exact I|]. split; [exact F|]. split; [apply NoDup_filter; exact ND|]. split; [intro c; apply filter_In|]. split; [apply average_gpa|reflexivity].
Qed.
Print Assumptions gpa_report_exact.

Lemma last_block cs terms blocks : Forall2 (block cs) terms blocks -> StronglySorted term_before terms ->
  (forall c, In c cs -> c_in_gpa c = true -> ~ In (the_term c) terms) /\ (forall k, ~ In (GCumGpa k) (List.concat blocks)) \/
  exists a k b so_far t, List.concat blocks = (a ++ GCumGpa k :: b)%list /\ (forall k, ~ In (GCumGpa k) b) /\ In t terms /\ average so_far k /\ NoDup so_far /\
    (forall c, In c so_far <-> In c cs /\ (the_term c = t \/ term_before (the_term c) t) /\ c_in_gpa c = true) /\
    (forall c, In c cs -> c_in_gpa c = true -> In (the_term c) terms -> the_term c = t \/ term_before (the_term c) t).
Proof.
  intro F. induction F as [|t rows terms blocks B F IH]; intro S; [left; split; intros; intros []|].
  apply StronglySorted_inv in S. destruct S as [S FT]. rewrite Forall_forall in FT. destruct (IH S) as [[N NC]|(a & k & b & so & t' & E & NB & IT & AV & NDS & SO & LE)].
  - destruct B as [NG|counted so g k NE ND IC SC NDS IS AG AK].
    + left. split; [intros c I G [X|X]; [rewrite NG in G by auto; discriminate|exact (N c I G X)]|]. intros k I. cbn [List.concat app] in I. destruct I as [I|I]; [discriminate|exact (NC k I)].
    + right. exists (GTerm t :: map row_of counted ++ [GTermGpa g])%list, k, (List.concat blocks), so, t. split; [cbn [List.concat app]; rewrite <- !app_assoc; reflexivity|].
      split; [exact NC|]. split; [left; reflexivity|]. split; [exact AK|]. split; [exact NDS|]. split; [exact IS|]. intros c I G [X|X]; [left; congruence|destruct (N c I G X)].
  - right. exists (rows ++ a)%list, k, b, so, t'. split; [cbn [List.concat]; rewrite E, <- app_assoc; reflexivity|]. split; [exact NB|]. split; [right; exact IT|]. split; [exact AV|]. split; [exact NDS|]. split; [exact SO|].
    intros c I G [X|X]; [right; rewrite <- X; apply FT; exact IT|exact (LE c I G X)].
Qed.
(** If any course counts, the last cumulative average is the average of all courses. *)
Theorem last_cumulative_average_is_overall : forall cs, NoDup cs -> (exists c, In c cs /\ c_in_gpa c = true) ->
  exists a g b, gpa_report cs = (a ++ GCumGpa g :: b ++ [GOverall g])%list /\ forall k, ~ In (GCumGpa k) b.
Proof.
  intros cs ND (c & IC & GC). destruct (gpa_report_exact cs ND) as (terms & blocks & g & all & S & IT & F & NA & IA & AV & E).
  destruct (last_block cs terms blocks F S) as [[N _]|(a & k & b & so & t & EB & NB & ITT & AK & NDS & SO & LE)].
  - exfalso. apply (N c IC GC). apply IT. exists c. auto.
  - assert (P : Permutation so all).
    { apply NoDup_Permutation; auto. intro x. rewrite SO, IA. split; [tauto|]. intros (I & G). split; [exact I|]. split; [|exact G]. apply LE; auto. apply IT. exists x. auto. }
    assert (X : k = g) by (eapply average_unique; [apply (average_perm _ _ _ P); exact AK|exact AV]). subst k.
    exists a, g, b. split; [|exact NB]. rewrite E, EB, <- app_assoc. reflexivity.
Qed.
Print Assumptions last_cumulative_average_is_overall.
Lemma NoDup_joined {A} (a b : list A) : NoDup a -> NoDup b -> (forall x, In x a -> ~ In x b) -> NoDup (a ++ b).
Proof.
  induction a as [|x a IH]; intros NA NB D; [exact NB|]. inversion NA as [|? ? NI NA2]; subst. cbn [app]. constructor; [|apply IH; auto; intros y I; apply D; right; exact I].
  intro I. apply in_app_iff in I. destruct I as [I|I]; [exact (NI I)|exact (D x (or_introl eq_refl) I)].
Qed.
(** Each counted course is listed once, with its own term. *)
Fixpoint listed (rows : list gpa_row) : list gpa_row :=
  match rows with [] => [] | (GCourse _ _ _ _ as r) :: t => r :: listed t | _ :: t => listed t end.
Theorem counted_courses_are_listed_once : forall cs, NoDup cs ->
  exists l, Permutation l (filter c_in_gpa cs) /\ listed (gpa_report cs) = map row_of l.
Proof.
  assert (LA : forall a b, listed (a ++ b) = (listed a ++ listed b)%list) by (induction a as [|r a IH]; intro b; [reflexivity|]; cbn [app]; destruct r; cbn [listed app]; rewrite IH; reflexivity).
  assert (LM : forall l, listed (map row_of l) = map row_of l) by (induction l as [|c l IH]; [reflexivity|]; cbn [map row_of listed]; rewrite IH; reflexivity).
  intros cs ND. destruct (gpa_report_exact cs ND) as (terms & blocks & g & all & S & IT & F & NA & IA & AV & E).
  assert (G : exists l, NoDup l /\ (forall c, In c l <-> In c cs /\ In (the_term c) terms /\ c_in_gpa c = true) /\ listed (List.concat blocks) = map row_of l).
  { clear -F S LA LM. induction F as [|t rows terms blocks B F IH]; [exists []; split; [constructor|]; split; [intro c; split; [intros []|intros (_ & [] & _)]|reflexivity]|].
    apply StronglySorted_inv in S. destruct S as [S FT]. rewrite Forall_forall in FT. destruct (IH S) as (l & NL & IL & EL). cbn [List.concat]. rewrite LA, EL.
    destruct B as [NG|counted so g k NE ND IC SC NDS IS AG AK].
    - exists l. split; [exact NL|]. split; [|reflexivity]. intro c. rewrite IL. split; [intros (I & T & G); split; [exact I|split; [right; exact T|exact G]]|]. intros (I & [T|T] & G); [rewrite NG in G by auto; discriminate|auto].
    - exists (counted ++ l)%list. split; [|split].
      + apply NoDup_joined; auto. intros c I J. apply IC in I. apply IL in J. destruct I as (_ & T & _), J as (_ & J & _). rewrite T in J. specialize (FT t J). unfold term_before in FT. rewrite (proj2 (str_compare_eq t t) eq_refl) in FT. discriminate.
      + intro c. rewrite in_app_iff, IC, IL. cbn [In]. split; [intros [(I & T & G)|(I & T & G)]; auto|]. intros (I & [T|T] & G); [left|right]; auto.
      + cbn [listed]. rewrite LA, LM. cbn [listed]. rewrite app_nil_r, map_app. reflexivity. }
  destruct G as (l & NL & IL & EL). exists l. split.
  - apply NoDup_Permutation; [exact NL|apply NoDup_filter; exact ND|]. intro c. rewrite IL, filter_In. split; [tauto|]. intros (I & G). split; [exact I|]. split; [|exact G]. apply IT. exists c. auto.
  - rewrite E, LA, EL. cbn [listed]. apply app_nil_r.
Qed.
Print Assumptions counted_courses_are_listed_once.
Definition taken_in (clbid points : string) (gpa : bool) (year : Z) : row :=
  mkRow [] clbid "SE" "1.00" "1" gpa false false false true [] "B" "grade" points "STOLAF" 100 "Intro" "121" None "A" "" "CSCI" "?" "1" "" year.
Definition gpa_example : list course :=
  let rows := [taken_in "7" "3.00" true 2019; taken_in "8" "4.00" true 2018; taken_in "3" "0.00" false 2017; taken_in "5" "1.00" true 2019] in
  match student_courses None [] [] true rows with Ok t => t | Err _ => [] end.
Example gpa_report_example :
  NoDup gpa_example /\ (exists c, In c gpa_example /\ c_in_gpa c = true) /\
  let h n := mkDec n (-2) in
  gpa_report gpa_example = [GNoCourses "2017-1"; GTerm "2018-1"; GCourse "CSCI 121" "2018-1" GB (h 400); GTermGpa (h 400); GCumGpa (h 400);
    GTerm "2019-1"; GCourse "CSCI 121" "2019-1" GB (h 100); GCourse "CSCI 121" "2019-1" GB (h 300); GTermGpa (h 200); GCumGpa (h 266); GOverall (h 266)]%Z.
Proof.
  split; [|split].
  - apply (NoDup_map_inv c_clbid). vm_compute. repeat (constructor; [intros H; repeat destruct H as [H|H]; try discriminate; destruct H|]). constructor.
  - assert (E : existsb c_in_gpa gpa_example = true) by (vm_compute; reflexivity). apply existsb_exists in E. exact E.
  - vm_compute. reflexivity.
Qed.

(** ** C119: what a run starts from *)
Lemma migration_exact m n : load_migration m = Ok n <-> migration_of m n.
Proof.
  unfold load_migration. split.
  - intro H. apply bind_iff in H. destruct H as (f & Hf & H). apply bind_iff in H. destruct H as (t & Ht & H). apply bind_iff in H. destruct H as (c & Hc & H). apply bind_iff in H. destruct H as (e & He & H).
    apply key_some in Hf, Ht, Hc, He. injection H as <-. constructor; eauto.
  - intros [Hf Ht (c & Hc) (e & He)]. rewrite Hf, Ht, Hc, He. destruct n. reflexivity.
Qed.
Lemma exceptions_exact code ms l xs : area_exceptions code ms l = Ok xs <-> own_exceptions code ms l xs.
Proof.
  revert xs. induction l as [|e l IH]; intro xs; cbn [area_exceptions].
  - split; [intro H; injection H as <-; constructor|]. intro H. inversion H. reflexivity.
  - destruct (re_area e) as [a|] eqn:A; cbn [key bind].
    + destruct (a =? code) eqn:E.
      * apply String.eqb_eq in E. subst a. split.
        -- intro H. apply bind_iff in H. destruct H as (x & Hx & H). apply bind_iff in H. destruct H as (ys & Hy & H). injection H as <-. apply oe_own; auto. apply IH. exact Hy.
        -- intro H. inversion H as [|? x ? ys A' Hx Hy|? b ? ys A' N Hy]; subst; [|congruence]. rewrite Hx. cbn [bind]. rewrite (proj2 (IH ys) Hy). reflexivity.
      * apply String.eqb_neq in E. rewrite IH. split; [apply (oe_other code ms e a); auto|]. intro H. inversion H as [|? x ? ys A' Hx Hy|? b ? ys A' N Hy]; subst; [congruence|exact Hy].
    + split; [discriminate|]. intro H. inversion H; congruence.
Qed.
Lemma override_iff e : is_override e = true <-> changes_class e.
Proof.
  unfold is_override, changes_class. destruct (ex_act e) as [| | | |k x|k y] eqn:E; split; intro H; try discriminate; try reflexivity; try (destruct H as (a & b & [H|(z & H)]); discriminate).
  - exists k, x. left. reflexivity.
  - exists k, (mkDec 0 0). right. exists y. reflexivity.
Qed.
Lemma overrides_exact l m : filter is_override l = m <-> overrides l m.
Proof.
  revert m. induction l as [|e l IH]; intro m; cbn [filter]; [split; [intros <-; constructor|intro H; inversion H; reflexivity]|].
  pose proof (override_iff e) as O. destruct (is_override e).
  - split; [intros <-; apply ov_in; [apply O; reflexivity|apply IH; reflexivity]|]. intro H. inversion H; subst; [f_equal; apply IH; assumption|]. exfalso. tauto.
  - assert (N : ~ changes_class e) by (intro X; apply O in X; discriminate). split; [intros <-; apply ov_out; [exact N|apply IH; reflexivity]|]. intro H. inversion H; subst; [contradiction|apply IH; assumption].
Qed.
(** A run audits the student the data describes, with the exceptions of the area. *)
Theorem runs_start_exactly : forall tord d xs s es st, (forall l, Permutation (tord l) l) ->
  (run_student tord d xs s = Ok (es, st) <-> started d xs s es st).
Proof.
  intros tord d xs s es st PT. unfold run_student, started. split.
  - intro H. apply bind_iff in H. destruct H as (code & Hc & H). apply bind_iff in H. destruct H as (ms & Hm & H). apply bind_iff in H. destruct H as (es' & He & H).
    apply bind_iff in H. destruct H as (st' & Hs & H). injection H as <- <-. exists code, ms, (filter is_override es'). split; [apply key_some; exact Hc|]. split; [apply (mapr_rel _ _ _ _ migration_exact); exact Hm|].
    split; [apply exceptions_exact; exact He|]. split; [apply overrides_exact; reflexivity|]. apply (students_are_loaded_exactly tord); assumption.
  - intros (code & ms & os & Hc & Hm & He & Ho & Hs). rewrite Hc. cbn [key bind]. apply (mapr_rel _ _ _ _ migration_exact) in Hm. rewrite Hm. cbn [bind]. apply exceptions_exact in He. rewrite He. cbn [bind].
    apply overrides_exact in Ho. rewrite Ho. apply (students_are_loaded_exactly tord) in Hs; [|exact PT]. rewrite Hs. reflexivity.
Qed.
Print Assumptions runs_start_exactly.
Lemma rows_exact l rows : rows = map transcript_row_of l <-> Forall2 row_shows l rows.
Proof.
  split.
  - intros ->. induction l as [|c l IH]; constructor; [constructor; reflexivity|exact IH].
  - induction 1 as [|c r l rows H F ->]; [reflexivity|]. cbn [map]. f_equal. destruct H, r; cbn in *. subst. reflexivity.
Qed.
(** What it then does depends on the switches; audits are of the area loaded for this student. *)
Theorem runs_are_exact : forall tord ord nord sw args d xs s out, (forall l, Permutation (tord l) l) ->
  (run tord ord nord sw args d xs s = Ok out <->
   exists es st, started d xs s es st /\
   ((sw_transcript sw = true /\ exists rows, Forall2 row_shows (t_courses (sl_student st)) rows /\ out = ShTranscript rows) \/
    (sw_transcript sw = false /\ sw_gpa sw = true /\ out = ShGpa (gpa_report (t_failed (sl_student st)))) \/
    (sw_transcript sw = false /\ sw_gpa sw = false /\ exists k u, constants_are st k /\
       load_area k (templates_as_dict (sl_templates st)) (sl_student st) es false (sp_area s) = Ok u /\
       out = ShAudit (audit_driver args (area_estimate ord nord u (sl_student st) es)
         (map (outcome_of ord u) (g_items (area_solutions ord nord u (sl_student st) es))) (g_exn (area_solutions ord nord u (sl_student st) es)))))).
Proof.
  intros tord ord nord sw args d xs s out PT. unfold run. split.
  - intro H. apply bind_iff in H. destruct H as ([es st] & Hr & H). exists es, st. split; [apply (runs_start_exactly tord); assumption|].
    destruct (sw_transcript sw); [left; injection H as <-; split; [reflexivity|]; eexists; split; [apply rows_exact; reflexivity|reflexivity]|right]. destruct (sw_gpa sw); [left; injection H as <-; auto|right]. split; [reflexivity|]. split; [reflexivity|].
    apply bind_iff in H. destruct H as (u & Hu & H). injection H as <-. exists (constants_of st), u. split; [apply constants_are_exact; reflexivity|]. split; [exact Hu|reflexivity].
  - intros (es & st & Hr & H). apply (runs_start_exactly tord) in Hr; [|exact PT]. rewrite Hr. cbn [bind]. destruct H as [(-> & rows & F & ->)|[(-> & -> & ->)|(-> & -> & k & u & Hk & Hu & ->)]]; [apply rows_exact in F; rewrite F; reflexivity|reflexivity|].
    apply constants_are_exact in Hk. rewrite Hk, Hu. reflexivity.
Qed.
Print Assumptions runs_are_exact.
(** Exceptions of other areas make no difference. *)
Theorem exceptions_of_other_areas_do_not_matter : forall tord ord nord sw args d a e b s code,
  ar_code (sp_area s) = Some code -> (exists other, re_area e = Some other /\ other <> code) ->
  run tord ord nord sw args d (a ++ e :: b) s = run tord ord nord sw args d (a ++ b) s.
Proof.
  intros tord ord nord sw args d a e b s code HC (other & RE & NE). unfold run, run_student. rewrite HC. cbn [key bind]. destruct (mapr load_migration (sp_migrations s)) as [ms|]; [|reflexivity]. cbn [bind].
  assert (E : area_exceptions code ms (a ++ e :: b) = area_exceptions code ms (a ++ b)); [|rewrite E; reflexivity].
  induction a as [|x a IH]; cbn [app area_exceptions]; [rewrite RE; cbn [key bind]; rewrite (proj2 (String.eqb_neq _ _) NE); reflexivity|]. rewrite IH. reflexivity.
Qed.
Print Assumptions exceptions_of_other_areas_do_not_matter.
(** The order of the data makes no difference. *)
Theorem runs_do_not_depend_on_order : forall tord tord' ord nord sw args d d' xs s out,
  (forall l, Permutation (tord l) l) -> (forall l, Permutation (tord' l) l) -> same_data d d' ->
  run tord ord nord sw args d xs s = Ok out -> run tord' ord nord sw args d' xs s = Ok out.
Proof.
  intros tord tord' ord nord sw args d d' xs s out PT PT' SD. unfold run. intro H. apply bind_iff in H. destruct H as ([es st] & Hr & H).
  assert (Hr' : run_student tord' d' xs s = Ok (es, st)); [|rewrite Hr'; exact H].
  unfold run_student in *. apply bind_iff in Hr. destruct Hr as (code & Hc & Hr). rewrite Hc. cbn [bind]. apply bind_iff in Hr. destruct Hr as (ms & Hm & Hr). rewrite Hm. cbn [bind].
  apply bind_iff in Hr. destruct Hr as (es' & He & Hr). rewrite He. cbn [bind]. apply bind_iff in Hr. destruct Hr as (st' & Hs & Hr). rewrite (student_does_not_depend_on_order tord tord' d d' _ _ _ _ PT PT' SD Hs). exact Hr.
Qed.
Print Assumptions runs_do_not_depend_on_order.

(** ** C121: what is announced and what is reported *)
Lemma picks_from {A} args (ns ps : list (Z * A)) : picks args ns ps -> forall p, In p ps -> In p ns.
Proof. induction 1 as [|i x l ps C P IH|i x l ps C P IH]; intros p I; [exact I|destruct I as [<-|I]; [left; reflexivity|right; auto]|right; auto]. Qed.
Lemma numbered_from {A} k (l : list A) ns : DriverSpec.numbered k l ns -> forall i x, In (i, x) ns -> In x l.
Proof. induction 1 as [k|k y l ns N IH]; intros i x I; [destruct I|]. destruct I as [E|I]; [injection E as _ ->; left; reflexivity|right; eauto]. Qed.
Lemma told_says {R} args seen l evs : told (R := R) args seen l evs -> forall v j n t, In (ESay (MResult v j n t)) evs -> exists i o, In (i, o) l /\ v = o_result o.
Proof.
  induction 1 as [seen|seen i o F|seen i o rest evs j b pr rs NF LD n SP SR T IH]; intros v j' n' t I; [destruct I|destruct I as [I|[]]; discriminate|].
  destruct I as [I|I]; [discriminate|]. apply in_app_iff in I. destruct I as [I|I].
  - destruct SP as [[_ ->]|[_ ->]]; [destruct I as [I|[]]; discriminate|destruct I].
  - apply in_app_iff in I. destruct I as [I|I].
    + destruct SR as [[_ ->]|[_ ->]]; [destruct I as [I|[]]; injection I as <- _ _ _; exists i, o; split; [left|]; reflexivity|destruct I].
    + destruct (IH _ _ _ _ I) as (i' & o' & J & E). exists i', o'. split; [right; exact J|exact E].
Qed.
Lemma wins_in {R} (l : list (Z * outcome R)) p : wins l p -> In p l.
Proof. intros [(pre & -> & _)|[_ (pre & post & -> & _)]]; apply in_or_app; right; left; reflexivity. Qed.
(** Every result the driver reports is that of an audited solution of the stream. *)
Lemma driver_results {R} args n (l : list (res (outcome R))) e v j k t : ar_audit_each args <> 0%Z -> ar_progress_every args <> 0%Z ->
  In (ESay (MResult v j k t)) (fst (audit_driver args n l e)) -> exists o, In (Ok o) l /\ v = o_result o.
Proof.
  intros AE PE I. destruct n as [n|x]; [|unfold audit_driver in I; destruct I].
  destruct (ar_estimate_only args) eqn:EO; [unfold audit_driver in I; rewrite EO in I; destruct I as [I|[]]; discriminate|].
  destruct (driver_trace_exact R args n l e AE PE EO) as (ns & ps & done & b & tr & N & P & W & RU & E). rewrite E in I. cbn [fst] in I. destruct I as [I|I]; [discriminate|].
  assert (IN : forall i o, In (i, Ok o) done -> In (Ok o) l).
  { intros i o J. destruct (worked_in _ _ _ _ _ _ W) as [rest EP]. apply (numbered_from _ _ _ N i). apply (picks_from args _ ps P). rewrite EP. apply in_or_app. left. exact J. }
  assert (G : exists i o, In (i, Ok o) done /\ v = o_result o).
  { clear - RU I. assert (M : forall (d : list (Z * outcome R)) i o, In (i, o) d -> In (i, Ok o) (map went d)) by (intros d i o J; apply in_map_iff; exists (i, o); auto).
    destruct RU as [done b' evs total fin T G NB C|done evs x T X|done evs i x b' T]; cbn [fst] in I.
    - apply in_app_iff in I. destruct I as [I|I]; [destruct (told_says _ _ _ _ T _ _ _ _ I) as (i & o & J & E); eauto|].
      destruct C as [EN|NE PO|i o PA PO WN]; [destruct I as [I|[]]; discriminate|destruct I|]. destruct I as [I|[]]. injection I as <- _ _ _. apply wins_in in WN. eauto.
    - destruct (told_says _ _ _ _ T _ _ _ _ I) as (i & o & J & E); eauto.
    - apply in_app_iff in I. destruct I as [I|[I|[]]]; [|discriminate]. destruct (told_says _ _ _ _ T _ _ _ _ I) as (k' & o & J & E). exists k', o. split; [apply in_or_app; left; auto|exact E]. }
  destruct G as (i & o & J & E'). exists o. split; [apply (IN i); exact J|exact E'].
Qed.
(** the run reads this student, these exceptions and this area *)
Definition audits_area (sw : switches) (d : sdata) (xs : list raw_entry) (s : spec) (es : list exc) (st : loaded) (k : constants) (u : study) : Prop :=
  sw_transcript sw = false /\ sw_gpa sw = false /\ started d xs s es st /\ constants_are st k /\
  load_area k (templates_as_dict (sl_templates st)) (sl_student st) es false (sp_area s) = Ok u.
(** Every result a run reports is the audit of a solution of the area, for the student the data
    describes and with the exceptions of the area. *)
Theorem reported_results_are_audits : forall tord ord nord sw args d xs s tr v j n t,
  (forall l, Permutation (tord l) l) -> ar_audit_each args <> 0%Z -> ar_progress_every args <> 0%Z ->
  run tord ord nord sw args d xs s = Ok (ShAudit tr) -> In (ESay (MResult v j n t)) (fst tr) ->
  exists es st k u z rest, audits_area sw d xs s es st k u /\ In z (g_items (area_solutions ord nord u (sl_student st) es)) /\ area_audit ord u z = Ok (v, rest).
Proof.
  intros tord ord nord sw args d xs s tr v j n t PT AE PE H I. apply runs_are_exact in H; [|exact PT]. destruct H as (es & st & HS & [(_ & ? & _ & X)|[(_ & _ & X)|(A & B & k & u & Hk & Hu & X)]]); try discriminate.
  injection X as ->. destruct (driver_results _ _ _ _ _ _ _ _ AE PE I) as (o & J & ->). apply in_map_iff in J. destruct J as (z & E & J).
  unfold outcome_of in E. apply bind_iff in E. destruct E as ([v rest] & EA & E). apply bind_iff in E. destruct E as ([q m] & ER & E). injection E as <-. cbn [o_result].
  exists es, st, k, u, z, rest. split; [|auto]. split; [exact A|]. split; [exact B|]. auto.
Qed.
Print Assumptions reported_results_are_audits.
Lemma picks_all {A} args (ns ps : list (Z * A)) : ar_print_only args = [] -> ar_audit_each args = 1%Z -> picks args ns ps -> ps = ns.
Proof.
  intros PO AE. induction 1 as [|i x l ps C P IH|i x l ps C P IH]; [reflexivity|f_equal; exact IH|]. exfalso. apply C. split; [left; exact PO|]. rewrite AE. apply Z.divide_1_l.
Qed.
Lemma worked_all {A} args (fin : A -> Prop) n ps done b : ar_stop_after args = None -> worked args fin n ps done b ->
  (b = false -> done = ps /\ forall x, In x done -> ~ fin x) /\ (b = true -> exists pre x, done = pre ++ [x] /\ fin x)%list.
Proof.
  intros SA W. induction W as [n|n x rest F|n x rest NF L|n x rest done b NF NL W [IH1 IH2]].
  - split; [split; [reflexivity|intros ? []]|discriminate].
  - split; [discriminate|]. intros _. exists [], x. auto.
  - destruct L as (k & E & _). congruence.
  - split.
    + intro E. destruct (IH1 E) as [-> N]. split; [reflexivity|]. intros y [<-|I]; auto.
    + intro E. destruct (IH2 E) as (pre & y & -> & F). exists (x :: pre), y. auto.
Qed.
Lemma numbered_all {A} k (l : list A) ns : DriverSpec.numbered k l ns -> forall x, In x l -> exists i, In (i, x) ns.
Proof. induction 1 as [k|k y l ns N IH]; intros x I; [destruct I|]. destruct I as [<-|I]; [eexists; left; reflexivity|]. destruct (IH x I) as [i J]. exists i. right. exact J. Qed.
(** If a run that tries every solution raises nothing, it ends with the result of a solution
    that is finished, or, when none is, of one with the highest rank among all; or there is no
    solution at all. *)
Theorem the_last_result_is_the_best : forall tord ord nord sw args d xs s tr,
  (forall l, Permutation (tord l) l) -> ar_progress_every args <> 0%Z -> ar_audit_each args = 1%Z -> ar_stop_after args = None ->
  ar_print_all args = false -> ar_print_only args = [] -> ar_estimate_only args = false ->
  run tord ord nord sw args d xs s = Ok (ShAudit tr) -> snd tr = None ->
  exists es st k u, audits_area sw d xs s es st k u /\ let zs := g_items (area_solutions ord nord u (sl_student st) es) in
  exists before said, fst tr = (before ++ [ESay said])%list /\
  ((zs = [] /\ said = MNoAudits) \/
   exists z v rest q m j n t, In z zs /\ area_audit ord u z = Ok (v, rest) /\ area_rank v = Ok (q, m) /\ said = MResult v j n t /\
     (QuerySpec.complete (area_status v) \/
      forall z', In z' zs -> exists v' rest' q' m', area_audit ord u z' = Ok (v', rest') /\ area_rank v' = Ok (q', m') /\ ~ QuerySpec.complete (area_status v') /\ (q' <= q)%Q)).
Proof.
  intros tord ord nord sw args d xs s tr PT PE AE SA PA PO EO H SN. apply runs_are_exact in H; [|exact PT].
  destruct H as (es & st & HS & [(_ & ? & _ & X)|[(_ & _ & X)|(A & B & k & u & Hk & Hu & X)]]); try discriminate. injection X as ->.
  exists es, st, k, u. split; [split; [exact A|]; split; [exact B|]; auto|]. cbv zeta. set (g := area_solutions ord nord u (sl_student st) es) in *.
  destruct (area_estimate ord nord u (sl_student st) es) as [n|x]; [|unfold audit_driver in SN; discriminate].
  destruct (driver_trace_exact _ args n (map (outcome_of ord u) (g_items g)) (g_exn g) ltac:(rewrite AE; discriminate) PE EO) as (ns & ps & done & b & tr & N & P & W & RU & E).
  rewrite E in *. cbn [fst snd] in *. apply picks_all in P; auto. subst ps. destruct (worked_all _ _ _ _ _ _ SA W) as [WF WT]. destruct (worked_in _ _ _ _ _ _ W) as [rest0 EP].
  destruct RU as [done b' evs total fin T G NB C|done evs x T X|done evs i x b' T]; cbn [fst snd] in *; try discriminate. cbn [app] in C.
  assert (OUT : forall i o, In (i, o) done -> exists z v rest q m, In z (g_items g) /\ area_audit ord u z = Ok (v, rest) /\ area_rank v = Ok (q, m) /\ o = mkOut v q (area_status v)).
  { intros i o I. assert (J : In (Ok o) (map (outcome_of ord u) (g_items g))) by (apply (numbered_from _ _ _ N i); rewrite EP; apply in_or_app; left; apply in_map_iff; exists (i, o); auto).
    apply in_map_iff in J. destruct J as (z & EZ & J). unfold outcome_of in EZ. apply bind_iff in EZ. destruct EZ as ([v rest] & EA & EZ). apply bind_iff in EZ. destruct EZ as ([q m] & ER & EZ). injection EZ as <-. exists z, v, rest, q, m. auto. }
  destruct C as [EN|NE PX|i o PA' PX WN].
  - exists (ESay (MEstimate n) :: evs), MNoAudits. split; [reflexivity|]. left. split; [|reflexivity]. subst done. cbn [map] in *.
    destruct b'; [destruct (WT eq_refl) as (pre & x & EX & _); destruct pre; discriminate|]. destruct (WF eq_refl) as [EQ _]. subst ns. destruct (g_items g); [reflexivity|]. cbn in N, EQ. rewrite <- EQ in N. inversion N.
  - exfalso. destruct PX as [PX|(i & o & _ & _ & I)]; [congruence|]. rewrite PO in I. destruct I.
  - exists (ESay (MEstimate n) :: evs), (MResult (o_result o) i (Z.of_nat (List.length done)) total). split; [reflexivity|]. right.
    destruct (OUT i o (wins_in _ _ WN)) as (z & v & rest & q & m & IZ & EA & ER & ->). exists z, v, rest, q, m, i, (Z.of_nat (List.length done)), total.
    split; [exact IZ|]. split; [exact EA|]. split; [exact ER|]. split; [reflexivity|]. destruct WN as [(pre & _ & F)|[NF LD]]; [left; exact F|right].
    destruct b'; [exfalso; destruct (WT eq_refl) as (pre & x & EX & F); assert (I : In x (map went done)) by (rewrite EX; apply in_or_app; right; left; reflexivity);
      apply in_map_iff in I; destruct I as ([i' o'] & <- & I); exact (NF _ I F)|].
    destruct (WF eq_refl) as [EQ _]. intros z' I'. destruct (numbered_all _ _ _ N (outcome_of ord u z') (in_map _ _ _ I')) as [i' J]. rewrite <- EQ in J. apply in_map_iff in J. destruct J as ([i'' o'] & EW & J). unfold went in EW. cbn [fst snd] in EW. injection EW as -> EW.
    symmetry in EW. unfold outcome_of in EW. apply bind_iff in EW. destruct EW as ([v' rest'] & EA' & EW). apply bind_iff in EW. destruct EW as ([q' m'] & ER' & EW). injection EW as <-.
    exists v', rest', q', m'. split; [exact EA'|]. split; [exact ER'|]. split; [exact (NF _ J)|]. destruct LD as (pre & post & ED & L1 & L2). rewrite ED in J. apply in_app_iff in J.
    destruct J as [J|[J|J]]; [apply L1 in J; unfold rank_at in J; cbn in J; apply Qlt_le_weak; exact J|injection J as _ _ ->; apply Qle_refl|apply L2 in J; exact J].
Qed.
Print Assumptions the_last_result_is_the_best.
(** No more solutions are audited than were announced, if no course rule has several classes to
    choose from. *)
Theorem audits_are_announced : forall tord ord nord sw args d xs s tr n,
  (forall l, Permutation (tord l) l) -> ar_audit_each args <> 0%Z -> ar_progress_every args <> 0%Z ->
  run tord ord nord sw args d xs s = Ok (ShAudit tr) -> In (ESay (MEstimate n)) (fst tr) ->
  (forall es st k u lt, audits_area sw d xs s es st k u -> In lt (g_items (transcripts ord u (sl_student st) es)) -> EstimateSpec.unrepeated ord (limited_ctx u (sl_student st) es lt) (u_result u)) ->
  (Z.of_nat (List.length (audits (fst tr))) <= n)%Z.
Proof.
  intros tord ord nord sw args d xs s tr n PT AE PE H I U. apply runs_are_exact in H; [|exact PT]. destruct H as (es & st & HS & [(_ & ? & _ & X)|[(_ & _ & X)|(A & B & k & u & Hk & Hu & X)]]); try discriminate.
  injection X as ->. set (g := area_solutions ord nord u (sl_student st) es) in *. destruct (area_estimate ord nord u (sl_student st) es) as [m|x] eqn:ES; [|unfold audit_driver in I; destruct I].
  assert (L : (Z.of_nat (List.length (g_items g)) <= m)%Z).
  { eapply announced_number_bounds_solutions; [exact Hu| |exact ES]. intros lt J. apply (U es st k); [split; [exact A|]; split; [exact B|]; auto|exact J]. }
  assert (EM : m = n).
  { destruct (ar_estimate_only args) eqn:EO; [unfold audit_driver in I; rewrite EO in I; destruct I as [I|[]]; injection I as ->; reflexivity|].
    destruct (driver_trace_exact _ args m (map (outcome_of ord u) (g_items g)) (g_exn g) AE PE EO) as (ns & ps & done & b & tr & N & P & W & RU & E). rewrite E in I. cbn [fst] in I. destruct I as [I|I]; [injection I as ->; reflexivity|exfalso].
    assert (TE : forall seen l evs, told (R := area_result) args seen l evs -> ~ In (ESay (MEstimate n)) evs).
    { induction 1 as [seen|seen i o F|seen i o rest evs j b' pr rs NF LD nn SP SR T IH]; intro J; [destruct J|destruct J as [J|[]]; discriminate|].
      destruct J as [J|J]; [discriminate|]. apply in_app_iff in J. destruct J as [J|J]; [destruct SP as [[_ ->]|[_ ->]]; [destruct J as [J|[]]; discriminate|destruct J]|].
      apply in_app_iff in J. destruct J as [J|J]; [destruct SR as [[_ ->]|[_ ->]]; [destruct J as [J|[]]; discriminate|destruct J]|auto]. }
    destruct RU as [done b' evs total fin T G NB C|done evs x T X|done evs i x b' T]; cbn [fst] in I; [|exact (TE _ _ _ T I)|apply in_app_iff in I; destruct I as [I|[I|[]]]; [exact (TE _ _ _ T I)|discriminate]].
    apply in_app_iff in I. destruct I as [I|I]; [exact (TE _ _ _ T I)|]. destruct C; [destruct I as [I|[]]; discriminate|destruct I|destruct I as [I|[]]; discriminate]. }
  subst m. destruct (driver_work_is_bounded _ args n (map (outcome_of ord u) (g_items g)) (g_exn g) AE PE) as (SO & IN & _). set (l := audits _) in *.
  assert (LE : (List.length l <= List.length (g_items g))%nat); [|lia].
  rewrite <- (map_length (fun i => Z.to_nat (i - 1)) l), <- (seq_length (List.length (g_items g)) 0). apply NoDup_incl_length.
  - assert (ND : NoDup l). { clear - SO. induction SO as [|a l S IH F]; constructor; auto. intro I. rewrite Forall_forall in F. specialize (F a I). lia. }
    assert (PS : forall i, In i l -> (0 < i)%Z) by (intros i J; apply IN in J; tauto). clear - ND PS. induction ND as [|a l NI ND IH]; cbn [map]; constructor.
    + intro J. apply in_map_iff in J. destruct J as (b & E & J). assert (b = a) by (specialize (PS a (or_introl eq_refl)) as PA; specialize (PS b (or_intror J)); lia). congruence.
    + apply IH. intros i J. apply PS. right. exact J.
  - intros y J. apply in_map_iff in J. destruct J as (i & <- & J). destruct (IN i J) as (_ & _ & x & NE). assert (LT := proj1 (nth_error_Some _ _) (fun E => eq_ind None (fun o => match o with None => True | _ => False end) Logic.I _ (eq_trans (eq_sym E) NE))).
    rewrite map_length in LT. apply in_seq. lia.
Qed.
Print Assumptions audits_are_announced.
(** two courses, one of which was taken; the other is replaced by a class given in an exception *)
Definition run_spec (kind : string) : spec :=
  mkSpec (mkAspec (Some "Sample") (Some kind) (Some "B.A.") (Some "140") [] (Some (LoaderProps.d_all [LoaderProps.d_course "CSCI 121"; LoaderProps.d_course "CSCI 251"])) None None [] false) []
    [mkRawMig (Some ["$"; ".old"]) (Some ["$"; ".count"]) (Some "") (Some "")].
Definition run_data (rows : list row) : sdata :=
  mkData (Some "123") None (Some (JStr "2016")) (Some (JStr "2016"))
    [mkRawArea (Some "140") (Some "declared") (Some "major") (Some "Math") (Some "B.A.") None (Some "MATH") None]
    None rows [] [] [] [] [].
Definition run_rows : list row := [taken_in "7" "3.00" true 2019; taken_in "8" "4.00" true 2018].
Definition run_exceptions : list raw_entry :=
  [mkEntry (Some "999") (mkRaw None [] None None None None);
   mkEntry (Some "140") (mkRaw (Some XInsert) ["$"; ".old"; "[1]"; "*CSCI 251"] (Some "8") None None None)].
Definition plain_args : arguments := mkArgs false false [] None 1000 1.
Definition run_it (kind : string) (sw : switches) (xs : list raw_entry) : res shown := run (fun l => l) (fun l => l) (fun l => l) sw plain_args (run_data run_rows) xs (run_spec kind).
Definition summary (r : res shown) : option (list (option (status * Z * Z)) * option err) :=
  match r with
  | Ok (ShAudit (evs, e)) =>
    Some (map (fun ev => match ev with ESay (MResult v j n t) => Some (area_status v, j, n) | _ => None end) evs, e)
  | _ => None
  end.
(** with the exception the rule is met, but a major needs more; without it one course is missing *)
Example run_example :
  summary (run_it "concentration" (mkSwitches false false) run_exceptions) = Some ([None; None; None; Some (Done, 2, 2)], None)%Z /\
  summary (run_it "concentration" (mkSwitches false false) []) = Some ([None; None; Some (NeedsMoreItems, 1, 1)], None)%Z /\
  summary (run_it "major" (mkSwitches false false) run_exceptions) = Some ([None; None; None; Some (NeedsMoreItems, 2, 2)], None)%Z /\
  (exists l, run_it "major" (mkSwitches true false) run_exceptions = Ok (ShTranscript l) /\ map tr_clbid l = ["8"; "7"]) /\
  (exists l, run_it "major" (mkSwitches false true) run_exceptions = Ok (ShGpa l) /\ last l (GTerm "") = GOverall (mkDec 350 (-2))).
Proof.
  do 3 (split; [vm_compute; reflexivity|]). split; eexists; (split; [vm_compute; reflexivity|vm_compute; reflexivity]).
Qed.
Example other_areas_example :
  run_it "concentration" (mkSwitches false false) run_exceptions = run_it "concentration" (mkSwitches false false) (tl run_exceptions).
Proof.
  apply (exceptions_of_other_areas_do_not_matter (fun l => l) (fun l => l) (fun l => l) _ plain_args _ [] _ _ _ "140"); [reflexivity|]. exists "999". split; [reflexivity|discriminate].
Qed.
(** the hypothesis of [audits_are_announced] is met when each class was taken once *)
Example announced_run_example :
  let d := run_data [taken_in "7" "3.00" true 2019] in let sw := mkSwitches false false in
  (forall es st k u lt, audits_area sw d [] (run_spec "major") es st k u -> In lt (g_items (transcripts (fun l => l) u (sl_student st) es)) ->
     unrepeated (fun l => l) (limited_ctx u (sl_student st) es lt) (u_result u)) /\
  exists tr, run (fun l => l) (fun l => l) (fun l => l) sw plain_args d [] (run_spec "major") = Ok (ShAudit tr) /\ In (ESay (MEstimate 1)) (fst tr) /\ audits (fst tr) = [1%Z].
Proof.
  cbv zeta. split; [|eexists; split; [vm_compute; reflexivity|]; vm_compute; auto].
  intros es st k u lt (_ & _ & HS & HK & HU) I x P. apply (runs_start_exactly (fun l => l)) in HS; [|intro l; apply Permutation_refl]. vm_compute in HS. injection HS as <- <-. apply constants_are_exact in HK. subst k. vm_compute in HU. injection HU as <-.
  vm_compute in I. destruct I as [<-|[]].
  match type of P with part_of ?n _ => match goal with |- one_candidate ?o ?c _ =>
    assert (C : all_parts (fun y => match y with NCourse _ _ => (List.length (g_items (solutions o c y)) <=? 1)%nat | _ => true end) n = true) by (vm_compute; reflexivity) end end.
  apply (all_parts_in _ _ _ P) in C. destruct x; cbn [one_candidate]; try exact Logic.I. apply Nat.leb_le. exact C.
Qed.
