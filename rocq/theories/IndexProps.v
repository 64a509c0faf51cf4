(** C149, C150: the table of the areas of students. *)
From Coq Require Import List ZArith Bool String Ascii Lia Permutation Sorting.Sorted.
From Verif Require Import Prelude Dec Paths StrFacts ListFacts Catalog CatalogProps AreaLoadProofs StudentProofs Index.
Import ListNotations.
Local Open Scope string_scope.
Local Infix "+++" := List.app (right associativity, at level 60).

(** ** What a file says *)
Definition year_part (t y : string) : Prop :=
  ~ In "-"%char (list_ascii_of_string y) /\ (t = y \/ exists u, t = y ++ "-" ++ u).
(** an area's row; the student's catalog stands in for an area's, and must be there *)
Definition row_says (d : fdata) (a : farea) (r : irow) : Prop :=
  fd_stnum d = Some (i_stnum r) /\ fa_name a = Some (i_name r) /\ fa_kind a = Some (i_type r) /\ fa_code a = Some (i_code r) /\
  fa_status a = Some (i_status r) /\ fa_degree a = Some (i_degree r) /\
  (fa_dept a = Some (i_dept r) \/ fa_dept a = None /\ i_dept r = "") /\
  fd_catalog d <> CatMissing /\
  exists t, (fa_catalog a = CatText t \/ fa_catalog a = CatMissing /\ fd_catalog d = CatText t) /\ year_part t (i_catalog r).
Definition file_says (f : file) (rs : list irow) : Prop :=
  exists d l, snd f = Some d /\ fd_areas d = Some l /\ Forall2 (row_says d) l rs.
(** the student is in the table *)
Definition in_table (t : list irow) (n : string) : Prop := exists r, In r t /\ i_stnum r = n.
Definition is_order (order : list file -> list file) : Prop := forall l, Permutation (order l) l.
Definition line_says (r : irow) (x : listed) : Prop := x = (i_stnum r, folder_text (i_catalog r), i_code r).

Lemma before_dash_part t y : before_dash t = y <-> year_part t y.
Proof.
  revert y. induction t as [|c t IH]; intro y; cbn [before_dash].
  - split.
    + intros <-. split; [intros []|auto].
    + intros [_ [E|[u E]]]; [exact E|]. destruct y; discriminate.
  - destruct (Ascii.eqb_spec c "-") as [->|N].
    + split.
      * intros <-. split; [intros []|]. right. exists t. reflexivity.
      * intros [D [E|[u E]]]; [subst y; exfalso; apply D; left; reflexivity|]. destruct y as [|c y]; [reflexivity|].
        injection E as E _. exfalso. apply D. left. symmetry. exact E.
    + split.
      * intros <-. destruct (proj1 (IH _) eq_refl) as [D P]. split; [intros [E|I]; [congruence|exact (D I)]|].
        destruct P as [E|[u E]]; [left|right; exists u]; rewrite E at 1; [|reflexivity]. reflexivity.
      * intros [D P]. destruct y as [|c' y].
        { destruct P as [E|[u E]]; [discriminate|]. injection E as E _. congruence. }
        assert (C : c = c') by (destruct P as [E|[u E]]; injection E; auto). subst c'. f_equal. apply IH. split; [intro I; apply D; right; exact I|].
        destruct P as [E|[u E]]; injection E as E; [left|right; exists u]; exact E.
Qed.
Lemma need_iff o s : need o = Ok s <-> o = Some s.
Proof. destruct o; cbn; split; congruence. Qed.
Lemma year_iff own d y : area_year own d = Ok y <->
  d <> CatMissing /\ exists t, (own = CatText t \/ own = CatMissing /\ d = CatText t) /\ year_part t y.
Proof.
  unfold area_year. destruct d as [s| |]; [| |split; [discriminate|intros [H _]; congruence]]; destruct own as [o| |]; split;
    try (intros [_ (t & [H|[H K]] & Y)]; try discriminate; try (injection H as ->); try (injection K as ->); apply before_dash_part in Y; rewrite Y; reflexivity);
    try discriminate; intro H; injection H as H; apply before_dash_part in H; split; try discriminate; eauto 6.
Qed.
Lemma row_exact d a r : row_of d a = Ok r <-> row_says d a r.
Proof.
  unfold row_of, row_says. rewrite bind_iff. setoid_rewrite bind_iff. split.
  - intros (n & N & m & M & H). repeat (rewrite bind_iff in H || setoid_rewrite bind_iff in H).
    destruct H as (k & K & c & C & s & S & g & G & y & Y & E). injection E as <-. cbn [i_stnum i_name i_type i_catalog i_code i_dept i_status i_degree].
    rewrite !need_iff in *. rewrite year_iff in Y. destruct Y as [Y1 Y2]. repeat split; auto. destruct (fa_dept a); auto.
  - intros (N & M & K & C & S & G & D & Y1 & Y2). exists (i_stnum r). split; [apply need_iff, N|]. exists (i_name r). split; [apply need_iff, M|].
    rewrite K, C, S, G. cbn [need bind]. assert (Y : area_year (fa_catalog a) (fd_catalog d) = Ok (i_catalog r)) by (apply year_iff; auto).
    rewrite Y. cbn [bind]. destruct r as [r1 r2 r3 r4 r5 r6 r7 r8]. cbn [i_stnum i_name i_type i_catalog i_code i_dept i_status i_degree] in *. destruct D as [->|[-> ->]]; reflexivity.
Qed.
Lemma file_exact f rs : rows_of f = Ok rs <-> file_says f rs.
Proof.
  unfold rows_of, file_says. destruct (snd f) as [d|]; [|split; [discriminate|intros (d & l & H & _); discriminate]].
  destruct (fd_areas d) as [l|] eqn:A.
  - rewrite mapr_iff. split.
    + intro F. exists d, l. split; [reflexivity|]. split; [exact A|]. eapply AreaProofs.Forall2_imp; [|exact F]. intros a r H. apply row_exact, H.
    + intros (d' & l' & E & L & F). injection E as <-. assert (l' = l) by congruence. subst l'. eapply AreaProofs.Forall2_imp; [|exact F]. intros a r H. apply row_exact, H.
  - split; [discriminate|]. intros (d' & l' & E & L & F). injection E as <-. congruence.
Qed.
Lemma known_iff t n : known t n = true <-> in_table t n.
Proof.
  unfold known, in_table. rewrite existsb_exists. split; intros (r & I & E); exists r; split; auto; [apply String.eqb_eq, E|apply String.eqb_eq; exact E].
Qed.

(** ** C149 *)
Lemma str_le_lebs a b : str_le a b = true \/ str_le b a = true.
Proof. destruct (str_le a b) eqn:E; [auto|]. right. apply str_le_total, E. Qed.
Lemma added_files t files f : In f (to_index t files) <-> In f files /\ ~ in_table t (fst f).
Proof. unfold to_index. rewrite filter_In, negb_true_iff, <- not_true_iff_false, known_iff. reflexivity. Qed.

(** What a run adds: the rows of the files that are not named like a student in the table, once each.
    What it lists: all rows of the table that meet the condition, in the order of the student numbers. *)
Theorem indexing_is_exact :
  forall order q t files out t', is_order order -> run_index order (Some q) t files = (Ok out, t') ->
  (exists fs rss added rows,
     (NoDup (map fst files) -> NoDup (map fst fs)) /\ (forall f, In f fs <-> In f files /\ ~ in_table t (fst f)) /\
     Forall2 file_says fs rss /\ added = List.concat rss /\ t' = t +++ added /\
     Forall2 line_says rows out /\ Permutation rows (filter q t') /\ StronglySorted (fun a b => str_le (i_stnum a) (i_stnum b) = true) rows).
Proof.
  intros order q t files out t' O R. unfold run_index in R. destruct (mapr rows_of (order (to_index t files))) as [l|e] eqn:M; [|discriminate].
  injection R as <- <-. apply mapr_iff in M. set (rows := isort stnum_le (filter q (t +++ List.concat l))). exists (order (to_index t files)), l, (List.concat l), rows.
  split.
  { intro ND. apply (Permutation_NoDup (Permutation_sym (Permutation_map fst (O (to_index t files))))). unfold to_index. clear -ND.
    induction files as [|f l' IH]; [constructor|]. inversion ND as [|? ? N ND']; subst. cbn [filter]. destruct (negb (known t (fst f))); [|exact (IH ND')].
    cbn [map]. constructor; [|exact (IH ND')]. intro I. apply N. apply in_map_iff in I. destruct I as (g & G & I). apply filter_In in I. apply in_map_iff. exists g. split; [exact G|apply I]. }
  split.
  { intro f. rewrite <- added_files. split; intro I; [apply (Permutation_in _ (O _) I)|apply (Permutation_in _ (Permutation_sym (O _)) I)]. }
  split; [eapply AreaProofs.Forall2_imp; [|exact M]; intros f rs H; apply file_exact, H|]. split; [reflexivity|]. split; [reflexivity|]. split.
  - clear. induction rows as [|r rows IH]; constructor; [reflexivity|exact IH].
  - split; [apply isort_perm|]. apply (isort_sorted stnum_le).
    + intros a b. apply str_le_lebs.
    + intros a b c. apply str_le_trans.
Qed.
Print Assumptions indexing_is_exact.

Lemma mapr_none {A B} (f : A -> res B) l : (exists e, mapr f l = Err e) <-> exists x, In x l /\ forall y, f x <> Ok y.
Proof.
  induction l as [|x l IH]; cbn [mapr].
  - split; [intros [e H]; discriminate|intros (x & [] & _)].
  - destruct (f x) as [y|e] eqn:F; cbn [bind].
    + destruct (mapr f l) as [ys|e]; cbn [bind].
      * split; [intros [e H]; discriminate|]. intros (z & [<-|I] & N); [destruct (N y F)|]. destruct (proj2 IH) as [e E]; [eauto|discriminate].
      * split; [|intros _; eauto]. intros _. destruct (proj1 IH) as (z & I & N); [eauto|]. exists z. split; [right; exact I|exact N].
    + split; [|intros _; eauto]. intros _. exists x. split; [left; reflexivity|]. intros y H. congruence.
Qed.
(** A run fails, and leaves the table as it was, exactly if the condition is none or a file to be
    read lacks something. *)
Theorem indexing_fails_as_a_whole :
  forall order query t files, is_order order ->
  ((exists e, fst (run_index order query t files) = Err e) <->
   query = None \/ exists f, In f files /\ ~ in_table t (fst f) /\ forall rs, ~ file_says f rs) /\
  (forall e, fst (run_index order query t files) = Err e -> snd (run_index order query t files) = t).
Proof.
  intros order query t files O.
  assert (S : (exists e, mapr rows_of (order (to_index t files)) = Err e) <-> exists f, In f files /\ ~ in_table t (fst f) /\ forall rs, ~ file_says f rs).
  { rewrite mapr_none. split; intros (f & H).
    - destruct H as [I N]. exists f. apply (Permutation_in _ (O _)) in I. apply added_files in I. destruct I as [I1 I2]. split; [exact I1|]. split; [exact I2|].
      intros rs F. apply (N rs), file_exact, F.
    - destruct H as (I1 & I2 & N). exists f. split; [apply (Permutation_in _ (Permutation_sym (O _))), added_files; auto|]. intros rs F. apply (N rs), file_exact, F. }
  unfold run_index. destruct (mapr rows_of (order (to_index t files))) as [l|e0] eqn:M.
  - assert (NO : ~ exists f, In f files /\ ~ in_table t (fst f) /\ forall rs, ~ file_says f rs) by (intro H; apply S in H; destruct H; discriminate).
    destruct query as [q|]; cbn [fst snd].
    + split; [|discriminate]. split; [intros [e H]; discriminate|]. intros [H|H]; [discriminate|destruct (NO H)].
    + split; [|reflexivity]. split; [auto|eauto].
  - cbn [fst snd]. split; [|reflexivity]. split; [intros _; right; apply S; eauto|eauto].
Qed.
Print Assumptions indexing_fails_as_a_whole.

(** a year's folder is listed with its row *)
Theorem listed_folders :
  forall y, (1000 <= y <= 9998)%Z -> folder_text (str_of_Z y) = folder_of y.
Proof.
  intros y Y. unfold folder_text, folder_of. assert (L : leading_digits (str_of_Z y) 0 = y).
  { destruct (str_of_Z_digits y ltac:(lia)) as [D _]. revert D. generalize 0%Z as z. generalize (str_of_Z y) as s. induction s as [|c s IH]; intros z D; cbn [digits_val leading_digits] in *.
    - congruence.
    - destruct (digit_val c) as [d|]; [apply IH, D|discriminate]. }
  rewrite L. rewrite (four_digits (y + 1)) by lia. reflexivity.
Qed.
Print Assumptions listed_folders.

(** ** C150: runs one after the other *)
Definition own_name (f : file) : Prop := forall d, snd f = Some d -> fd_stnum d = Some (fst f).
(** If files are named by their students, the rows of students that were known stay as they are. *)
Theorem known_students_are_not_read_again :
  forall order q t files out t', is_order order -> (forall f, In f files -> own_name f) -> run_index order (Some q) t files = (Ok out, t') ->
  forall n, in_table t n -> filter (fun r => i_stnum r =? n) t' = filter (fun r => i_stnum r =? n) t.
Proof.
  intros order q t files out t' O NM R n K. destruct (indexing_is_exact order q t files out t' O R) as (fs & rss & added & rows & _ & F & S & -> & -> & _).
  rewrite filter_app. assert (E : filter (fun r => i_stnum r =? n) (List.concat rss) = []).
  { destruct (filter (fun r => i_stnum r =? n) (List.concat rss)) as [|r x] eqn:E; [reflexivity|]. exfalso.
    assert (I : In r (List.concat rss) /\ (i_stnum r =? n) = true) by (apply (filter_In (fun r => i_stnum r =? n) r (List.concat rss)); rewrite E; left; reflexivity).
    destruct I as [I N]. apply String.eqb_eq in N. apply in_concat in I. destruct I as (rs & I1 & I2).
    assert (Q : exists f, In f fs /\ file_says f rs).
    { clear -S I1. induction S as [|f x fs rss H S IH]; [destruct I1|]. destruct I1 as [<-|I1]; [exists f; split; [left; reflexivity|exact H]|].
      destruct (IH I1) as (g & G & P). exists g. split; [right; exact G|exact P]. }
    destruct Q as (f & I & d & l & D & L & P). apply F in I. destruct I as [I3 I4].
    assert (RS : fd_stnum d = Some (i_stnum r)).
    { clear -P I2. induction P as [|a r0 l rs H P IH]; [destruct I2|]. destruct I2 as [<-|I2]; [apply H|exact (IH I2)]. }
    rewrite (NM f I3 d D) in RS. injection RS as RS. apply I4. rewrite RS, N. exact K. }
  rewrite E. apply app_nil_r.
Qed.
Print Assumptions known_students_are_not_read_again.

(** A second run over the same files adds nothing, if each has an area and is named by its student. *)
Theorem indexing_again_adds_nothing :
  forall o1 o2 q1 q2 t files out t', is_order o1 -> is_order o2 ->
  (forall f d, In f files -> snd f = Some d -> fd_stnum d = Some (fst f) /\ fd_areas d <> Some []) ->
  run_index o1 (Some q1) t files = (Ok out, t') ->
  snd (run_index o2 (Some q2) t' files) = t'.
Proof.
  intros o1 o2 q1 q2 t files out t' O1 O2 NM R. destruct (indexing_is_exact o1 q1 t files out t' O1 R) as (fs & rss & added & rows & _ & F & S & -> & T & _).
  assert (E : to_index t' files = []).
  { destruct (to_index t' files) as [|f x] eqn:E; [reflexivity|]. exfalso. assert (I : In f (to_index t' files)) by (rewrite E; left; reflexivity).
    apply added_files in I. destruct I as [I N]. assert (K : ~ in_table t (fst f)) by (intros (r & A & B); apply N; exists r; split; [rewrite T; apply in_or_app; left; exact A|exact B]).
    assert (Q : exists rs, In rs rss /\ file_says f rs).
    { assert (G : In f fs) by (apply F; auto). clear -S G. induction S as [|g x fs rss H S IH]; [destruct G|]. destruct G as [<-|G]; [exists x; split; [left; reflexivity|exact H]|].
      destruct (IH G) as (y & Y & P). exists y. split; [right; exact Y|exact P]. }
    destruct Q as (rs & RS & d & l & D & L & P). destruct (NM f d I D) as [ST NE]. destruct P as [|a r l rs H P]; [congruence|].
    apply N. exists r. split; [rewrite T; apply in_or_app; right; apply in_concat; exists (r :: rs); split; [exact RS|left; reflexivity]|].
    destruct H as (H & _). congruence. }
  unfold run_index. rewrite E. pose proof (O2 []) as P. apply Permutation_sym, Permutation_nil in P. rewrite P. cbn [mapr List.concat snd]. apply app_nil_r.
Qed.
Print Assumptions indexing_again_adds_nothing.

Definition sample_area (code : string) : farea := mkFArea (Some "Biology") (Some "major") (Some code) None (Some "declared") (Some "B.A.") CatMissing.
Definition sample_file (name n : string) (codes : list string) : file :=
  (name, Some (mkFData (Some n) (Some (map sample_area codes)) (CatText "2019-20"))).
Definition same_order (l : list file) : list file := l.
Definition everything (r : irow) : bool := true.

(** A file that has changed is not read again; a file named otherwise is read each time. *)
Theorem the_index_is_up_to_date_refuted :
  (exists t files files' out out' t', run_index same_order (Some everything) [] files = (Ok out, t) /\
     run_index same_order (Some everything) t files' = (Ok out', t') /\
     exists f rs r, In f files' /\ file_says f rs /\ In r rs /\ ~ In r t') /\
  (exists files t t' out out', run_index same_order (Some everything) [] files = (Ok out, t) /\
     run_index same_order (Some everything) t files = (Ok out', t') /\ t' <> t).
Proof.
  split.
  - exists (snd (run_index same_order (Some everything) [] [sample_file "1" "1" ["120"]])), [sample_file "1" "1" ["120"]], [sample_file "1" "1" ["130"]].
    do 3 eexists. split; [vm_compute; reflexivity|]. split; [vm_compute; reflexivity|].
    exists (sample_file "1" "1" ["130"]), [mkIRow "1" "Biology" "major" "2019" "130" "" "declared" "B.A."], (mkIRow "1" "Biology" "major" "2019" "130" "" "declared" "B.A.").
    split; [left; reflexivity|]. split; [apply file_exact; vm_compute; reflexivity|]. split; [left; reflexivity|]. intros [H|[]]. discriminate H.
  - exists [sample_file "one" "1" ["120"]]. do 4 eexists. split; [vm_compute; reflexivity|]. split; [vm_compute; reflexivity|]. discriminate.
Qed.
Print Assumptions the_index_is_up_to_date_refuted.

Example index_example :
  let files := [sample_file "2" "2" ["120"; "130"]; sample_file "1" "1" ["140"]] in
  fst (run_index same_order (Some (fun r => negb (i_code r =? "130"))) [] files) = Ok [("1", "2019-20", "140"); ("2", "2019-20", "120")] /\
  List.length (snd (run_index same_order (Some everything) [] files)) = 3%nat /\
  (forall f d, In f files -> snd f = Some d -> fd_stnum d = Some (fst f) /\ fd_areas d <> Some []) /\
  run_index same_order (Some everything) [] (("3", None) :: files) = (Err ValueErr, []).
Proof.
  split; [vm_compute; reflexivity|]. split; [vm_compute; reflexivity|]. split; [|vm_compute; reflexivity].
  intros f d [<-|[<-|[]]] H; injection H as <-; split; try reflexivity; discriminate.
Qed.
