From Coq Require Import List ZArith Bool String Ascii Lia.
From Verif Require Import Prelude Dec StrFacts Catalog.
Import ListNotations.
Local Open Scope string_scope.

Lemma str_le_refl a : str_le a a = true.
Proof. unfold str_le. rewrite str_compare_refl. reflexivity. Qed.
Lemma str_le_trans a b c : str_le a b = true -> str_le b c = true -> str_le a c = true.
Proof.
  unfold str_le. destruct (String.compare a b) eqn:E; try discriminate; destruct (String.compare b c) eqn:F; try discriminate; intros _ _.
  - apply str_compare_eq in E, F. subst. rewrite str_compare_refl. reflexivity.
  - apply str_compare_eq in E. subst. rewrite F. reflexivity.
  - apply str_compare_eq in F. subst. rewrite E. reflexivity.
  - rewrite (str_lt_trans a b c E F). reflexivity.
Qed.
Lemma str_le_total a b : str_le a b = false -> str_le b a = true.
Proof. unfold str_le. destruct (String.compare a b) eqn:E; try discriminate. intros _. apply str_compare_lt_gt in E. rewrite E. reflexivity. Qed.
Lemma str_max_spec l : forall x, In (str_max x l) (x :: l) /\ forall y, In y (x :: l) -> str_le y (str_max x l) = true.
Proof.
  induction l as [|y l IH]; intro x; cbn [str_max].
  - split; [left; reflexivity|]. intros z [<-|[]]. apply str_le_refl.
  - destruct (str_le y x) eqn:E.
    + destruct (IH x) as [A B]. split; [destruct A as [A|A]; [left|right; right]; assumption|].
      intros z [<-|[<-|I]]; [apply B; left; reflexivity| |apply B; right; exact I].
      eapply str_le_trans; [exact E|apply B; left; reflexivity].
    + destruct (IH y) as [A B]. split; [right; exact A|].
      intros z [<-|[<-|I]]; [|apply B; left; reflexivity|apply B; right; exact I].
      eapply str_le_trans; [apply str_le_total, E|apply B; left; reflexivity].
Qed.

(** folders of years are in the order of the years *)
Lemma four_digits z : (1000 <= z <= 9999)%Z ->
  str_of_Z z = String (digit_ascii (z / 10 / 10 / 10)) (String (digit_ascii (z / 10 / 10 mod 10)) (String (digit_ascii (z / 10 mod 10)) (String (digit_ascii (z mod 10)) ""))).
Proof.
  intros R. unfold str_of_Z. destruct (z <? 0)%Z eqn:E; [apply Z.ltb_lt in E; lia|].
  assert (9 <= Z.log2 z)%Z by (apply Z.log2_le_pow2; [lia|]; change (2 ^ 9)%Z with 512%Z; lia).
  destruct (Z.to_nat (Z.log2 z)) as [|[|[|n]]] eqn:F; try lia. cbn [zdigits].
  assert (A1 : (z / 10 <= 999 /\ 100 <= z / 10)%Z) by (pose proof (Z.div_mod z 10); pose proof (Z.mod_pos_bound z 10); lia).
  assert (A2 : (z / 10 / 10 <= 99 /\ 10 <= z / 10 / 10)%Z) by (pose proof (Z.div_mod (z / 10) 10); pose proof (Z.mod_pos_bound (z / 10) 10); lia).
  assert (A3 : (z / 10 / 10 / 10 <= 9 /\ 1 <= z / 10 / 10 / 10)%Z) by (pose proof (Z.div_mod (z / 10 / 10) 10); pose proof (Z.mod_pos_bound (z / 10 / 10) 10); lia).
  replace (z <? 10)%Z with false by (symmetry; apply Z.ltb_ge; lia).
  replace (z / 10 <? 10)%Z with false by (symmetry; apply Z.ltb_ge; lia).
  replace (z / 10 / 10 <? 10)%Z with false by (symmetry; apply Z.ltb_ge; lia).
  replace (z / 10 / 10 / 10 <? 10)%Z with true by (symmetry; apply Z.ltb_lt; lia).
  rewrite (Z.mod_small (z / 10 / 10 / 10)) by lia. reflexivity.
Qed.
Lemma digit_order a b s t : (0 <= a < 10)%Z -> (0 <= b < 10)%Z -> (a < b)%Z -> String.compare (String (digit_ascii a) s) (String (digit_ascii b) t) = Lt.
Proof.
  intros A B L. assert (C : Ascii.compare (digit_ascii a) (digit_ascii b) = Lt).
  { assert (D : (a = 0 \/ a = 1 \/ a = 2 \/ a = 3 \/ a = 4 \/ a = 5 \/ a = 6 \/ a = 7 \/ a = 8 \/ a = 9)%Z) by lia.
    assert (E : (b = 0 \/ b = 1 \/ b = 2 \/ b = 3 \/ b = 4 \/ b = 5 \/ b = 6 \/ b = 7 \/ b = 8 \/ b = 9)%Z) by lia.
    clear A B. repeat (destruct D as [D|D]; [subst a|]); try subst a; (repeat (destruct E as [E|E]; [subst b|]); try subst b); try (exfalso; lia); reflexivity. }
  cbn [String.compare]. rewrite C. reflexivity.
Qed.
Lemma same_head c s t : String.compare (String c s) (String c t) = String.compare s t.
Proof. cbn [String.compare]. replace (Ascii.compare c c) with Eq; [reflexivity|]. symmetry. unfold Ascii.compare. apply N.compare_refl. Qed.
Lemma year_order a b s t : (1000 <= a)%Z -> (a < b)%Z -> (b <= 9999)%Z -> String.compare (str_of_Z a ++ s) (str_of_Z b ++ t) = Lt.
Proof.
  intros A L B. rewrite !four_digits by lia. cbn [append].
  set (a1 := (a / 10)%Z) in *. set (a2 := (a1 / 10)%Z) in *. set (a3 := (a2 / 10)%Z) in *.
  set (b1 := (b / 10)%Z) in *. set (b2 := (b1 / 10)%Z) in *. set (b3 := (b2 / 10)%Z) in *.
  pose proof (Z.div_mod a 10 ltac:(lia)) as A1. pose proof (Z.div_mod a1 10 ltac:(lia)) as A2. pose proof (Z.div_mod a2 10 ltac:(lia)) as A3.
  pose proof (Z.div_mod b 10 ltac:(lia)) as B1. pose proof (Z.div_mod b1 10 ltac:(lia)) as B2. pose proof (Z.div_mod b2 10 ltac:(lia)) as B3.
  pose proof (Z.mod_pos_bound a 10 ltac:(lia)). pose proof (Z.mod_pos_bound a1 10 ltac:(lia)). pose proof (Z.mod_pos_bound a2 10 ltac:(lia)).
  pose proof (Z.mod_pos_bound b 10 ltac:(lia)). pose proof (Z.mod_pos_bound b1 10 ltac:(lia)). pose proof (Z.mod_pos_bound b2 10 ltac:(lia)).
  fold a1 in A1. fold a2 in A2. fold a3 in A3. fold b1 in B1. fold b2 in B2. fold b3 in B3.
  clearbody a1 a2 a3 b1 b2 b3.
  destruct (Z.lt_trichotomy a3 b3) as [C|[C|C]]; [apply digit_order; lia|rewrite C, same_head|lia].
  destruct (Z.lt_trichotomy (a2 mod 10) (b2 mod 10)) as [D|[D|D]]; [apply digit_order; lia|rewrite D, same_head|lia].
  destruct (Z.lt_trichotomy (a1 mod 10) (b1 mod 10)) as [E|[E|E]]; [apply digit_order; lia|rewrite E, same_head|lia].
  apply digit_order; lia.
Qed.
Lemma folder_order a b : (1000 <= a <= 9998)%Z -> (1000 <= b <= 9998)%Z -> (str_le (folder_of a) (folder_of b) = true <-> (a <= b)%Z).
Proof.
  intros A B. unfold str_le. split.
  - intro H. destruct (Z_le_gt_dec a b); [assumption|]. exfalso.
    pose proof (year_order b a ("-" ++ drop2 (str_of_Z (b + 1))) ("-" ++ drop2 (str_of_Z (a + 1))) ltac:(lia) ltac:(lia) ltac:(lia)) as M. fold (folder_of a) in M. fold (folder_of b) in M.
    rewrite (proj1 (str_compare_lt_gt _ _) M) in H. discriminate.
  - intro L. destruct (Z.eq_dec a b) as [->|N]; [rewrite str_compare_refl; reflexivity|].
    pose proof (year_order a b ("-" ++ drop2 (str_of_Z (a + 1))) ("-" ++ drop2 (str_of_Z (b + 1))) ltac:(lia) ltac:(lia) ltac:(lia)) as M. fold (folder_of a) in M. fold (folder_of b) in M.
    rewrite M. reflexivity.
Qed.

(** ** C58 *)
(** the folder of the catalog of that year has a file for the area *)
Definition transcribed (l : listing) (code : string) (y : Z) : Prop :=
  (1000 <= y <= 9998)%Z /\ exists files, In (folder_of y, files) l /\ In (code ++ ".yaml") files.
(** catalogs of four-digit years, and folders whose name has no dash *)
Definition catalogs_only (l : listing) : Prop :=
  forall f files, In (f, files) l -> has_dash f = true -> exists y, (1000 <= y <= 9998)%Z /\ f = folder_of y.

Lemma folder_has_dash y : has_dash (folder_of y) = true.
Proof.
  unfold folder_of. assert (G : forall s t, has_dash t = true -> has_dash (s ++ t) = true).
  { induction s as [|c s IH]; intros t H; cbn [append has_dash]; [exact H|]. rewrite IH by exact H. apply orb_true_r. }
  apply G. reflexivity.
Qed.
Lemma in_matching l m code f : In f (matching l m code) <->
  exists files, In (f, files) l /\ In (code ++ ".yaml") files /\ has_dash f = true /\ str_le f m = true.
Proof.
  unfold matching. rewrite in_map_iff. split.
  - intros ([g files] & <- & I). apply filter_In in I. cbn [fst snd] in *. destruct I as [I C].
    apply andb_prop in C as [C L]. apply andb_prop in C as [D X]. apply existsb_exists in X as (z & Z1 & Z2). apply String.eqb_eq in Z2. subst z.
    exists files. auto.
  - intros (files & I & C & D & L). exists (f, files). split; [reflexivity|]. apply filter_In. split; [exact I|]. cbn [fst snd].
    rewrite D, L. rewrite andb_true_r. cbn [andb]. apply existsb_exists. exists (code ++ ".yaml"). split; [exact C|apply String.eqb_refl].
Qed.

Theorem newest_applicable_area_is_found :
  forall l catalog code, catalogs_only l -> (1000 <= catalog <= 9998)%Z ->
  (forall f, find_area l catalog code = Some f <->
     exists y, f = folder_of y /\ transcribed l code y /\ (y <= catalog)%Z /\
       forall y', transcribed l code y' -> (y' <= catalog)%Z -> (y' <= y)%Z) /\
  (find_area l catalog code = None <-> forall y, transcribed l code y -> (catalog < y)%Z).
Proof.
  intros l cat code CO R.
  assert (M : forall y, (1000 <= y <= 9998)%Z -> (In (folder_of y) (matching l (folder_of cat) code) <-> transcribed l code y /\ (y <= cat)%Z)).
  { intros y Y. rewrite in_matching. split.
    - intros (files & I & C & _ & L). apply folder_order in L; [|exact Y|exact R]. split; [split; [exact Y|exists files; auto]|exact L].
    - intros [[_ (files & I & C)] L]. exists files. repeat split; auto; [apply folder_has_dash|]. apply folder_order; assumption. }
  assert (YR : forall f, In f (matching l (folder_of cat) code) -> exists y, (1000 <= y <= 9998)%Z /\ f = folder_of y).
  { intros f I. apply in_matching in I as (files & I & _ & D & _). exact (CO f files I D). }
  unfold find_area. destruct (matching l (folder_of cat) code) as [|x t] eqn:E.
  - split.
    + intro f. split; [discriminate|]. intros (y & _ & T & L & _). exfalso. apply (proj2 (M y (proj1 T)) (conj T L)).
    + split; [|reflexivity]. intros _ y T. destruct (Z_le_gt_dec y cat) as [L|G]; [|lia]. exfalso. apply (proj2 (M y (proj1 T)) (conj T L)).
  - destruct (str_max_spec t x) as [A B]. set (m := str_max x t) in *. destruct (YR m A) as (ym & YM & EM).
    assert (TM : transcribed l code ym /\ (ym <= cat)%Z) by (apply M; [exact YM|rewrite <- EM; exact A]).
    assert (MX : forall y', transcribed l code y' -> (y' <= cat)%Z -> (y' <= ym)%Z).
    { intros y' T L. assert (Y' := proj1 T). apply (folder_order y' ym Y' YM). rewrite <- EM. apply B. apply (M y' Y'). auto. }
    split.
    + intro f. split.
      * intros [= <-]. exists ym. destruct TM. auto.
      * intros (y & -> & T & L & X). f_equal. rewrite EM. f_equal. destruct TM as [TM LM].
        pose proof (MX y T L). pose proof (X ym TM LM). lia.
    + split; [discriminate|]. intro N. destruct TM as [TM LM]. pose proof (N ym TM). lia.
Qed.
Print Assumptions newest_applicable_area_is_found.

(** A folder set aside under another name is used in its place. *)
Theorem only_catalogs_are_used_refuted :
  exists l, (forall f files, In (f, files) l -> f = "2019-20" \/ f = "2019-20-old") /\ find_area l 2021 "130" = Some "2019-20-old".
Proof.
  exists [("2019-20", ["130.yaml"]); ("2019-20-old", ["130.yaml"])]. split.
  - intros f files [[= <- _]|[[= <- _]|[]]]; auto.
  - vm_compute. reflexivity.
Qed.
Print Assumptions only_catalogs_are_used_refuted.

Example find_area_example :
  let l := [("2016-17", ["130.yaml"; "140.yaml"]); ("2019-20", ["140.yaml"]); ("1999-00", ["150.yaml"]); ("2021-22", ["130.yaml"]); ("notes", ["130.yaml"])] in
  catalogs_only l /\ find_area l 2020 "130" = Some "2016-17" /\ find_area l 2020 "140" = Some "2019-20" /\
  find_area l 2020 "150" = Some "1999-00" /\ find_area l 2015 "130" = None.
Proof.
  cbv zeta. split; [|repeat split; vm_compute; reflexivity].
  intros f files I D. repeat (destruct I as [[= <- _]|I]).
  - exists 2016%Z. split; [lia|reflexivity].
  - exists 2019%Z. split; [lia|reflexivity].
  - exists 1999%Z. split; [lia|reflexivity].
  - exists 2021%Z. split; [lia|reflexivity].
  - discriminate D.
  - contradiction.
Qed.
