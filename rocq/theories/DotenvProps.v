(** C158: what a file of settings puts into the environment. *)
From Coq Require Import List Bool Arith String Ascii Lia.
From Verif Require Import Prelude Keys Claims ClaimsProofs LabelSpec LabelProofs StudentSpec StudentProofs PlanProofs Dotenv DotenvSpec.
Import ListNotations.
Local Open Scope string_scope.

(** ** Taking a text apart *)
Inductive parts (p : ascii -> bool) : list string -> string -> Prop :=
| pt_last s : (forall c, In c (list_ascii_of_string s) -> p c = false) -> parts p [s] s
| pt_more s c l t : (forall c, In c (list_ascii_of_string s) -> p c = false) -> p c = true -> parts p l t -> parts p (s :: l) (s ++ String c t).
Lemma cut_parts p s : parts p (cut p s) s.
Proof.
  induction s as [|c s IH]; [constructor; intros x []|]. cbn [cut]. destruct (p c) eqn:P.
  - apply (pt_more p "" c _ s); [intros x []|exact P|exact IH].
  - remember (cut p s) as L eqn:EL. clear EL. destruct IH as [s' N|s' d l t N D R].
    + constructor. intros x [<-|I]; [exact P|exact (N x I)].
    + rewrite <- app_eq. constructor; [|exact D|exact R]. intros x [<-|I]; [exact P|exact (N x I)].
Qed.
Lemma cut_first p a x b : (forall c, In c (list_ascii_of_string a) -> p c = false) -> p x = true -> cut p (a ++ String x b) = a :: cut p b.
Proof.
  intros N X. induction a as [|c a IH]; [cbn; rewrite X; reflexivity|]. rewrite app_eq. cbn [cut]. rewrite N by (left; reflexivity).
  rewrite IH; [reflexivity|]. intros d I. apply N. right. exact I.
Qed.
Lemma cut_none p a : (forall c, In c (list_ascii_of_string a) -> p c = false) -> cut p a = [a].
Proof.
  intro N. induction a as [|c a IH]; [reflexivity|]. cbn [cut]. rewrite N by (left; reflexivity). rewrite IH; [reflexivity|]. intros d I. apply N. right. exact I.
Qed.
Lemma parts_cut p l s : parts p l s -> cut p s = l.
Proof. intro H. induction H; [apply cut_none; assumption|]. rewrite cut_first by assumption. congruence. Qed.

Lemma cut_two p m a b : cut p m = [a; b] -> exists x, m = a ++ String x b /\ p x = true /\
  (forall c, In c (list_ascii_of_string a) -> p c = false) /\ (forall c, In c (list_ascii_of_string b) -> p c = false).
Proof.
  intro E. pose proof (cut_parts p m) as H. rewrite E in H. inversion H as [|s x l t N X R]; subst. exists x. inversion R as [s' N'|? ? ? ? ? ? Q]; subst; [auto|inversion Q].
Qed.

Lemma line_end_in c : line_end c = true <-> In c ["010"%char; "013"%char].
Proof.
  unfold line_end. rewrite orb_true_iff, !Ascii.eqb_eq. cbn [In]. intuition congruence.
Qed.
Lemma no_end l : (without "010" l /\ without "013" l) <-> (forall c, In c (list_ascii_of_string l) -> line_end c = false).
Proof.
  unfold without. split.
  - intros [A B] c I. destruct (line_end c) eqn:E; [|reflexivity]. apply line_end_in in E. destruct E as [<-|[<-|[]]]; tauto.
  - intro H. split; intro I; apply H in I; discriminate.
Qed.
Lemma lines_cut ls t : lines_of ls t <-> cut line_end t = ls.
Proof.
  split.
  - intro H. apply parts_cut. induction H as [l A B|l c ls t A B C L IH].
    + constructor. apply no_end. auto.
    + constructor; [apply no_end; auto|apply line_end_in; exact C|exact IH].
  - intros <-. induction (cut_parts line_end t) as [s N|s c l u N C P IH].
    + apply no_end in N. constructor; tauto.
    + apply no_end in N. apply (lo_more s c); [tauto|tauto|apply line_end_in; exact C|exact IH].
Qed.

(** ** One line *)
Lemma eq_free s : without "=" s <-> (forall c, In c (list_ascii_of_string s) -> Ascii.eqb "=" c = false).
Proof.
  unfold without. split.
  - intros N c I. destruct (Ascii.eqb "=" c) eqn:E; [|reflexivity]. apply Ascii.eqb_eq in E. subst. contradiction.
  - intros H I. apply H in I. discriminate.
Qed.
Lemma blanks_free a : all_in blanks a -> without "=" a.
Proof. intros A I. apply A in I. vm_compute in I. intuition discriminate. Qed.
Lemma without_app c a b : without c (a ++ b) <-> without c a /\ without c b.
Proof. unfold without. rewrite chars_app, in_app_iff. tauto. Qed.
Lemma all_nil : all_in blanks "".
Proof. intros c []. Qed.
Lemma bare_nil : bare "".
Proof. split; [intros (c & t & X & _); discriminate|intros (c & [|d t] & X & _); discriminate]. Qed.
Lemma starts_keep t b : t <> "" -> ~ starts_blank t -> ~ starts_blank (t ++ b).
Proof. apply starts_app. Qed.
Lemma ends_keep a t : t <> "" -> ~ ends_blank t -> ~ ends_blank (a ++ t).
Proof.
  intros N E X. induction a as [|c a IH]; [apply E; exact X|]. apply IH. rewrite app_eq in X. eapply ends_cons; [|exact X].
  destruct a; [exact N|discriminate].
Qed.
Lemma hash_prefix l : String.prefix "#" l = true <-> exists t, l = "#" ++ t.
Proof.
  destruct l as [|c l]; [split; [discriminate|intros [t X]; discriminate]|]. cbn [String.prefix]. destruct (ascii_dec "#" c) as [<-|N].
  - split; [intros _; exists l; reflexivity|intros _; destruct l; reflexivity].
  - split; [discriminate|]. intros [t X]. injection X as -> _. contradiction.
Qed.
Lemma line_said args l o : says l o -> read_line args l = Ok match o with None => args | Some (k, v) => dset args k v end.
Proof.
  intro H. destruct H as [l A|a t A|a k b c v d A B C D N BK BV FK FV NH].
  - assert (E : strip l = "").
    { apply strip_exact. split; [apply bare_nil|]. split; [apply bare_nil|]. exists l, "". split; [rewrite str_nil; reflexivity|]. split; [exact A|apply all_nil]. }
    unfold read_line. rewrite E. reflexivity.
  - assert (E : exists u, strip (a ++ "#" ++ t) = "#" ++ u).
    { unfold strip. rewrite lstrip_blank; [|exact A|].
      - destruct (rstrip_split ("#" ++ t)) as (z & E & B & NE). destruct (rstrip ("#" ++ t)) as [|x u] eqn:R.
        + cbn [append] in E. subst z. apply all_in_cons in B. destruct B as [I _]. vm_compute in I. intuition discriminate.
        + cbn [append] in E. injection E as -> _. exists u. reflexivity.
      - intros (x & u & X & I). cbn [append] in X. injection X as <- _. vm_compute in I. intuition discriminate. }
    destruct E as [u E]. unfold read_line. rewrite E. assert (P : String.prefix "#" ("#" ++ u) = true) by (apply hash_prefix; eauto). rewrite P. reflexivity.
  - assert (E : exists w, strip (a ++ k ++ b ++ "=" ++ c ++ v ++ d) = k ++ b ++ "=" ++ w /\ strip w = v /\ without "=" w).
    { destruct v as [|x v].
      - exists "". split; [|split; [reflexivity|intros []]]. apply strip_exact. split; [apply starts_keep; [exact N|apply BK]|]. split.
        + rewrite str_assoc. apply ends_keep; [discriminate|]. intros (x & [|y u] & X & I); [injection X as <-; vm_compute in I; intuition discriminate|destruct u; discriminate].
        + exists a, (c ++ d). split; [rewrite <- !str_assoc; reflexivity|]. split; [exact A|apply all_in_app; auto].
      - exists (c ++ String x v). split; [|split].
        + apply strip_exact. split; [apply starts_keep; [exact N|apply BK]|]. split.
          * rewrite !str_assoc. apply ends_keep; [discriminate|apply BV].
          * exists a, d. split; [rewrite <- !str_assoc; reflexivity|auto].
        + apply strip_exact. split; [apply BV|]. split; [apply BV|]. exists c, "". rewrite str_nil. split; [reflexivity|]. split; [exact C|apply all_nil].
        + apply without_app. split; [apply blanks_free; exact C|exact FV]. }
    destruct E as (w & E & SW & FW). unfold read_line. rewrite E.
    destruct (String.prefix "#" (k ++ b ++ "=" ++ w)) eqn:P.
    { exfalso. apply hash_prefix in P. destruct P as [t P]. destruct k as [|x k]; [contradiction|]. cbn [append] in P. injection P as -> _. apply (NH k). reflexivity. }
    destruct (String.eqb (k ++ b ++ "=" ++ w) "") eqn:Z.
    { exfalso. apply String.eqb_eq in Z. destruct k; [contradiction|discriminate]. }
    rewrite (str_assoc k b). change ("=" ++ w) with (String "=" w). rewrite cut_first; [|apply eq_free, without_app; split; [exact FK|apply blanks_free; exact B]|reflexivity].
    rewrite cut_none by (apply eq_free; exact FW). rewrite SW.
    assert (SK : strip (k ++ b) = k). { apply strip_exact. split; [apply BK|]. split; [apply BK|]. exists "", b. split; [reflexivity|]. split; [apply all_nil|exact B]. }
    rewrite SK. destruct (String.eqb k "") eqn:KE; [apply String.eqb_eq in KE; contradiction|reflexivity].
Qed.
Lemma line_heard args l d : read_line args l = Ok d -> exists o, says l o.
Proof.
  unfold read_line. intro H. pose proof (proj1 (strip_exact l (strip l)) eq_refl) as (SB & EB & a & b & E & A & B). remember (strip l) as m eqn:M. clear M.
  destruct (String.prefix "#" m) eqn:P.
  { apply hash_prefix in P. destruct P as [t ->]. exists None. rewrite E. rewrite <- str_assoc. apply says_comment. exact A. }
  destruct (String.eqb m "") eqn:Z.
  { apply String.eqb_eq in Z. subst m. exists None. rewrite E. apply says_blank. apply all_in_app. split; [exact A|exact B]. }
  destruct (cut (Ascii.eqb "=") m) as [|k0 [|v0 [|? ?]]] eqn:C; try discriminate.
  apply cut_two in C. destruct C as (x & -> & X & N & N'). apply Ascii.eqb_eq in X. subst x.
  destruct (String.eqb (strip k0) "") eqn:K; [discriminate|]. apply String.eqb_neq in K.
  pose proof (proj1 (strip_exact k0 (strip k0)) eq_refl) as (SK & EK & a1 & b1 & Ek & A1 & B1).
  pose proof (proj1 (strip_exact v0 (strip v0)) eq_refl) as (SV & EV & a2 & b2 & Ev & A2 & B2).
  remember (strip k0) as k eqn:Mk. clear Mk. remember (strip v0) as v eqn:Mv. clear Mv.
  apply eq_free in N. apply eq_free in N'. subst k0 v0. apply without_app in N. destruct N as [_ N]. apply without_app in N. destruct N as [N _].
  apply without_app in N'. destruct N' as [_ N']. apply without_app in N'. destruct N' as [N' _].
  assert (a1 = ""). { destruct a1 as [|x a1]; [reflexivity|]. exfalso. apply SB. rewrite <- !str_assoc. rewrite app_eq. exists x. eexists. split; [reflexivity|]. exact (proj1 (proj1 (all_in_cons _ _ _) A1)). }
  subst a1. exists (Some (k, v)). rewrite E.
  replace (a ++ ((("" ++ k ++ b1) ++ String "=" (a2 ++ v ++ b2)) ++ b)) with (a ++ k ++ b1 ++ "=" ++ a2 ++ v ++ (b2 ++ b)).
  - apply says_setting; auto; [apply all_in_app; auto|split; assumption|split; assumption|]. intros t ->.
    assert (String.prefix "#" (("" ++ ("#" ++ t) ++ b1) ++ String "=" (a2 ++ v ++ b2)) = true); [|congruence]. apply hash_prefix. exists ((t ++ b1) ++ String "=" (a2 ++ v ++ b2)). reflexivity.
  - rewrite <- !str_assoc. cbn [append]. rewrite <- !str_assoc. reflexivity.
Qed.
Lemma says_once l o o' : says l o -> says l o' -> o = o'.
Proof.
  intros A B. pose proof (line_said [] l o A) as X. rewrite (line_said [] l o' B) in X. destruct o as [[k v]|], o' as [[k' v']|]; cbn in X; congruence.
Qed.
Lemma read_line_error args l e : read_line args l = Err e -> ~ exists o, says l o.
Proof. intros H [o S]. rewrite (line_said args l o S) in H. discriminate. Qed.

(** ** All of them *)
Lemma lines_read ls : forall args d, read_lines args ls = Ok d -> readable ls /\
  forall k v, dget d k = Some v <-> latest ls k v \/ (unmentioned ls k /\ dget args k = Some v).
Proof.
  induction ls as [|l ls IH]; intros args d H; cbn [read_lines] in H.
  - injection H as <-. split; [intros l []|]. intros k v. split; [intro G; right; split; [intros l w []|exact G]|].
    intros [(b & l & a & X & _)|[_ G]]; [destruct b; discriminate|exact G].
  - destruct (read_line args l) as [a|e] eqn:R; [cbn [bind] in H|discriminate]. apply IH in H. destruct H as [RD L]. destruct (line_heard _ _ _ R) as [o S].
    split; [intros x [<-|I]; [eauto|apply RD; exact I]|]. intros k v. rewrite L. rewrite (line_said _ _ _ S) in R.
    assert (LC : latest (l :: ls) k v <-> latest ls k v \/ (unmentioned ls k /\ o = Some (k, v))).
    { split.
      - intros (b & x & c & X & SX & N). destruct b as [|y b]; cbn [app] in X; injection X as <- X.
        + subst c. right. split; [intros z w I; apply N; exact I|eapply says_once; eauto].
        + left. exists b, x, c. auto.
      - intros [(b & x & c & X & SX & N)|[U ->]]; [exists (l :: b), x, c; subst; auto|]. exists [], l, ls. split; [reflexivity|]. split; [exact S|]. intros z w I. apply U. exact I. }
    assert (UC : unmentioned (l :: ls) k <-> unmentioned ls k /\ forall w, o <> Some (k, w)).
    { split.
      - intro U. split; [intros z w I; apply U; right; exact I|]. intros w ->. exact (U l w (or_introl eq_refl) S).
      - intros [U N] z w [<-|I]; [intro X; apply (N w); eapply says_once; eauto|apply U; exact I]. }
    rewrite LC, UC. destruct o as [[k' v']|]; injection R as <-.
    + destruct (String.eqb_spec k k') as [->|NK].
      * rewrite dget_dset_same. split.
        -- intros [A|[U X]]; [auto|]. injection X as <-. left. right. auto.
        -- intros [[A|[U X]]|[[U N] G]]; [auto| |exfalso; apply (N v'); reflexivity]. injection X as <-. right. auto.
      * rewrite PlanProofs.dget_dset_other by congruence. split.
        -- intros [A|[U X]]; [auto|]. right. split; [split; [exact U|]|exact X]. intros w X'. injection X' as <- _. contradiction.
        -- intros [[A|[U X]]|[[U N] G]]; [auto| |auto]. injection X as <- _. contradiction.
    + split.
      * intros [A|[U X]]; [auto|]. right. split; [split; [exact U|discriminate]|exact X].
      * intros [[A|[U X]]|[[U N] G]]; [auto|discriminate|auto].
Qed.
Lemma lines_error ls : forall args e, read_lines args ls = Err e -> ~ readable ls.
Proof.
  induction ls as [|l ls IH]; intros args e H; cbn [read_lines] in H; [discriminate|]. destruct (read_line args l) as [a|e'] eqn:R; cbn [bind] in H.
  - apply IH in H. intro X. apply H. intros z I. apply X. right. exact I.
  - injection H as ->. apply read_line_error in R. intro X. apply R, X. left. reflexivity.
Qed.
Lemma put_all (args : list (string * string)) : forall (env : list (string * string)) k, NoDup (map fst args) -> dget (fold_left (fun e kv => dset e (fst kv) (snd kv)) args env) k =
  match dget args k with Some v => Some v | None => dget env k end.
Proof.
  induction args as [|[x v] args IH]; intros env k N; [reflexivity|]. cbn [fold_left fst snd]. inversion N as [|? ? NI N']; subst. rewrite IH by exact N'. cbn [dget].
  destruct (String.eqb_spec k x) as [->|NK].
  - destruct (dget args x) as [w|] eqn:G; [|apply dget_dset_same]. exfalso. apply NI. clear -G. induction args as [|[y u] args IH]; [discriminate|]. cbn [dget] in G. destruct (String.eqb_spec x y) as [->|]; [left; reflexivity|right; auto].
  - rewrite PlanProofs.dget_dset_other by congruence. reflexivity.
Qed.
Lemma dset_keys {V} (d : list (string * V)) k v x : In x (map fst (dset d k v)) -> x = k \/ In x (map fst d).
Proof. induction d as [|[y w] d IH]; cbn; [intuition|]. destruct (String.eqb k y); cbn; intuition. Qed.
Lemma dset_nodup {V} (d : list (string * V)) k v : NoDup (map fst d) -> NoDup (map fst (dset d k v)).
Proof.
  induction d as [|[y w] d IH]; intro N; cbn; [constructor; [intros []|constructor]|]. inversion N as [|? ? A B]; subst. destruct (String.eqb_spec k y) as [->|NK]; cbn; constructor; auto.
  intro I. apply dset_keys in I. destruct I; [congruence|contradiction].
Qed.
Lemma read_nodup ls : forall args d, NoDup (map fst args) -> read_lines args ls = Ok d -> NoDup (map fst d).
Proof.
  induction ls as [|l ls IH]; intros args d N H; cbn [read_lines] in H; [congruence|]. destruct (read_line args l) as [a|e] eqn:R; [cbn [bind] in H|discriminate].
  apply IH in H; [exact H|]. destruct (line_heard _ _ _ R) as [o S]. rewrite (line_said _ _ _ S) in R. injection R as <-. destruct o as [[k v]|]; [apply dset_nodup|]; exact N.
Qed.

Lemma some_latest ls k : forall l w, In l ls -> says l (Some (k, w)) -> exists w', latest ls k w'.
Proof.
  induction ls as [|x ls IH]; intros l w I SL; [destruct I|].
  destruct (in_dec string_dec k (flat_map (fun l => match read_line [] l with Ok d => map fst d | Err _ => [] end) ls)) as [J|J].
  - apply in_flat_map in J. destruct J as (y & Iy & Jy). destruct (read_line [] y) as [dy|] eqn:Ry; [|destruct Jy]. destruct (line_heard _ _ _ Ry) as [o So].
    rewrite (line_said _ _ _ So) in Ry. injection Ry as <-. destruct o as [[k' v']|]; [|destruct Jy]. destruct Jy as [E|[]]. cbn [fst] in E. subst k'.
    destruct (IH y v' Iy So) as (w' & b & z & c & -> & R). exists w', (x :: b), z, c. split; [reflexivity|exact R].
  - assert (N : forall l' w', In l' ls -> ~ says l' (Some (k, w'))).
    { intros l' w' Il Sl. apply J. apply in_flat_map. exists l'. split; [exact Il|]. rewrite (line_said [] _ _ Sl). left. reflexivity. }
    destruct I as [<-|I]; [|exfalso; exact (N l w I SL)]. exists w, [], x, ls. split; [reflexivity|]. split; [exact SL|exact N].
Qed.

(** C158. Every text falls into lines in one way. Loading it succeeds exactly when every line is
    blank, a comment or a setting; then a name has the value of the last line about it, and what
    no line is about is as before. Otherwise, the environment is not touched (there is no result). *)
Theorem settings_are_loaded_exactly :
  (forall text, exists ls, lines_of ls text /\ forall ls', lines_of ls' text -> ls' = ls) /\
  (forall text ls env, lines_of ls text ->
     ((exists env', load env (Some text) = Ok env') <-> readable ls) /\
     (forall env', load env (Some text) = Ok env' -> forall k v, dget env' k = Some v <-> latest ls k v \/ (unmentioned ls k /\ dget env k = Some v))) /\
  (forall env, load env None = Ok env).
Proof.
  split; [|split].
  - intro text. exists (cut line_end text). split; [apply lines_cut; reflexivity|]. intros ls' H. apply lines_cut in H. congruence.
  - intros text ls env L. apply lines_cut in L. unfold load. cbn [read]. rewrite L. destruct (read_lines [] ls) as [args|e] eqn:R.
    + pose proof (read_nodup ls [] args (NoDup_nil _) R) as ND. pose proof (lines_read _ _ _ R) as [RD EX]. split.
      * split; [intros _; exact RD|intros _; eexists; reflexivity].
      * intros env' H k v. injection H as <-. rewrite put_all by exact ND. destruct (dget args k) as [w|] eqn:G.
        -- apply EX in G. destruct G as [G|[_ X]]; [|discriminate]. split.
           ++ intro X. injection X as <-. auto.
           ++ intros [A|[U _]].
              ** assert (dget args k = Some v) as Y by (apply EX; auto). assert (dget args k = Some w) as Y' by (apply EX; auto). congruence.
              ** exfalso. destruct G as (b & l & c & -> & SL & _). apply (U l w); [apply in_or_app; right; left; reflexivity|exact SL].
        -- split.
           ++ intro X. right. split; [|exact X]. intros l w I SL. clear X v.
              destruct (some_latest ls k l w I SL) as [w' LW].
              assert (dget args k = Some w') as Y by (apply EX; auto). congruence.
           ++ intros [A|[_ X]]; [|exact X]. assert (dget args k = Some v) as Y by (apply EX; auto). congruence.
    + pose proof (lines_error _ _ _ R) as NR. cbn [bind]. split; [split; [intros [x X]; discriminate|intro; contradiction]|discriminate].
  - intro env. reflexivity.
Qed.
Print Assumptions settings_are_loaded_exactly.

(** A value that has a "=" in it, as the base64 text of a password does, cannot be given: the
    whole file is refused. *)
Theorem settings_with_equals_are_refused :
  forall env text ls l k x y, lines_of ls text -> In l ls -> l = k ++ "=" ++ x ++ "=" ++ y -> bare k -> (forall t, k <> "#" ++ t) ->
  exists e, load env (Some text) = Err e.
Proof.
  intros env text ls l k x y L I E BK NH. destruct (proj1 (proj2 settings_are_loaded_exactly) text ls env L) as [EX _].
  destruct (load env (Some text)) as [e'|e]; [|eauto]. exfalso. pose proof (proj1 EX (ex_intro _ e' eq_refl) l I) as [o S].
  remember l as l0 eqn:EL. destruct S as [l0 A|a t A|a k' b c v d A B C D N BK' BV FK FV NH'].
  - rewrite E in EL. assert (In "="%char blanks) as X; [apply A; rewrite E; rewrite !chars_app; apply in_or_app; right; left; reflexivity|]. vm_compute in X. intuition discriminate.
  - destruct a as [|z a].
    + cbn [append] in E. destruct k as [|z k]; cbn [append] in E; [discriminate|]. injection E as <- _. apply (NH k). reflexivity.
    + apply all_in_cons in A. destruct A as [IZ _]. cbn [append] in E. destruct k as [|z' k]; cbn [append] in E; injection E as -> _.
      * vm_compute in IZ. intuition discriminate.
      * apply (proj1 BK). exists z', k. auto.
  - assert (CE : count_occ ascii_dec (list_ascii_of_string (a ++ k' ++ b ++ "=" ++ c ++ v ++ d)) "="%char = 1).
    { rewrite !chars_app, !count_occ_app. assert (Z : forall s, without "=" s -> count_occ ascii_dec (list_ascii_of_string s) "="%char = 0) by (intros s W; apply count_occ_not_In; exact W).
      rewrite (Z a), (Z k'), (Z b), (Z c), (Z v), (Z d) by (try assumption; apply blanks_free; assumption). reflexivity. }
    rewrite E, !chars_app, !count_occ_app in CE. cbn [list_ascii_of_string] in CE. cbn [count_occ] in CE. destruct (ascii_dec "=" "=") as [_|X]; [|contradiction]. lia.
Qed.
Print Assumptions settings_with_equals_are_refused.

Definition nl : string := String "010" "".
Definition env_text : string :=
  "# the database" ++ nl ++ "PGHOST = db.example.edu" ++ nl ++ nl ++ "  PGUSER=auditor  " ++ nl ++ "PGHOST=other" ++ nl.
Example settings_example :
  load [("HOME", "/root"); ("PGUSER", "me")] (Some env_text) = Ok [("HOME", "/root"); ("PGUSER", "auditor"); ("PGHOST", "other")].
Proof. vm_compute. reflexivity. Qed.
Lemma bare_check s : strip s = s -> bare s.
Proof. intro E. apply strip_exact in E. split; apply E. Qed.
Lemma blank_check s : forallb white (list_ascii_of_string s) = true -> all_in blanks s.
Proof. intros E c I. apply white_blank. rewrite forallb_forall in E. exact (E c I). Qed.
Example settings_example_says : says "PGHOST = db.example.edu" (Some ("PGHOST", "db.example.edu")).
Proof.
  apply (says_setting "" "PGHOST" " " " " "db.example.edu" "");
    try (apply blank_check; reflexivity); try (apply bare_check; reflexivity); try (unfold without; cbn; intuition discriminate); discriminate.
Qed.
Example settings_refused_example : load [] (Some ("DATABASE_URL=postgres://db?sslmode=require" ++ nl)) = Err ValueErr.
Proof. vm_compute. reflexivity. Qed.
