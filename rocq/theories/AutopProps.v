(** C159: the HTML of a message. *)
From Coq Require Import List Bool Arith String Ascii Lia.
From Verif Require Import Prelude Keys LabelSpec LabelProofs StudentSpec StudentProofs Dotenv DotenvSpec DotenvProps Autop AutopSpec.
Import ListNotations.
Local Open Scope string_scope.

(** ** Lines *)
Lemma is_newline_in s : (forall c, In c (list_ascii_of_string s) -> is_newline c = false) <-> without "010" s.
Proof.
  unfold without, is_newline, newline. split.
  - intros H I. apply H in I. rewrite Ascii.eqb_refl in I. discriminate.
  - intros N c I. destruct (Ascii.eqb_spec c "010"%char); [subst; contradiction|reflexivity].
Qed.
Lemma concat_cons sep x y l : String.concat sep (x :: y :: l) = x ++ sep ++ String.concat sep (y :: l).
Proof. reflexivity. Qed.
Lemma parts_lines s ls : parts is_newline ls s <-> has_lines s ls.
Proof.
  split.
  - intro P. induction P as [s N|s c l t N C P (NE & F & ->)].
    + split; [discriminate|]. split; [constructor; [apply is_newline_in; exact N|constructor]|reflexivity].
    + split; [discriminate|]. split; [constructor; [apply is_newline_in; exact N|exact F]|]. unfold is_newline in C. apply Ascii.eqb_eq in C. subst c.
      destruct l as [|y l]; [contradiction|]. rewrite concat_cons. reflexivity.
  - intros (NE & F & ->). induction F as [|x l N F IH]; [contradiction|]. destruct l as [|y l]; [constructor; apply is_newline_in; exact N|].
    rewrite concat_cons. apply (pt_more _ x newline); [apply is_newline_in; exact N|reflexivity|]. apply IH. discriminate.
Qed.
Lemma lines_cut s : has_lines s (cut is_newline s).
Proof. apply parts_lines, cut_parts. Qed.
Lemma cut_lines s ls : has_lines s ls -> cut is_newline s = ls.
Proof. intro H. apply parts_cut, parts_lines. exact H. Qed.

(** ** The margin *)
Lemma indenting_in c : indenting c = true <-> In c spaces_or_tabs.
Proof. unfold indenting, spaces_or_tabs. rewrite orb_true_iff, !Ascii.eqb_eq. cbn [In]. intuition. Qed.
Lemma indent_cons c s : indentation (String c s) <-> In c spaces_or_tabs /\ indentation s.
Proof. apply all_in_cons. Qed.
Lemma lead_none l : lead l = None <-> indentation l.
Proof.
  induction l as [|c l IH]; cbn [lead]; [split; [intros _ x []|reflexivity]|]. rewrite indent_cons, <- IH, <- indenting_in. destruct (indenting c); [|split; [discriminate|intros [X _]; discriminate]].
  destruct (lead l); split; try discriminate; auto. intros [_ X]. discriminate.
Qed.
Lemma lead_some l w : lead l = Some w -> indentation w /\ exists c t, l = w ++ String c t /\ indenting c = false.
Proof.
  revert w. induction l as [|c l IH]; intros w H; cbn [lead] in H; [discriminate|]. destruct (indenting c) eqn:C.
  - destruct (lead l) as [u|]; [|discriminate]. injection H as <-. destruct (IH u eq_refl) as (A & d & t & -> & D). split; [apply indent_cons; split; [apply indenting_in; exact C|exact A]|]. exists d, t. auto.
  - injection H as <-. split; [intros x []|]. exists c, l. auto.
Qed.
Lemma lead_of w c t : indentation w -> indenting c = false -> lead (w ++ String c t) = Some w.
Proof.
  intros A C. induction w as [|d w IH]; [cbn; rewrite C; reflexivity|]. apply indent_cons in A. destruct A as [D A]. rewrite app_eq. cbn [lead]. apply indenting_in in D. rewrite D, IH by exact A. reflexivity.
Qed.
Lemma lead_app w l u : indentation w -> lead l = Some u -> lead (w ++ l) = Some (w ++ u).
Proof.
  intros A H. apply lead_some in H. destruct H as (B & c & t & -> & C). rewrite str_assoc. apply lead_of; [|exact C]. apply all_in_app. auto.
Qed.
Lemma common_app w a b : common (w ++ a) (w ++ b) = w ++ common a b.
Proof. induction w as [|c w IH]; [reflexivity|]. cbn. rewrite Ascii.eqb_refl, IH. reflexivity. Qed.
Lemma common_starts a b : (exists r, a = common a b ++ r) /\ (exists r, b = common a b ++ r).
Proof.
  revert b. induction a as [|c a IH]; intro b; [split; [exists ""|exists b]; reflexivity|]. destruct b as [|d b]; [split; [exists (String c a)|exists ""]; reflexivity|]. cbn [common].
  destruct (Ascii.eqb_spec c d) as [<-|N]; [|split; [exists (String c a)|exists (String d b)]; reflexivity]. destruct (IH b) as [[r E] [r' E']].
  split; [exists r; rewrite app_eq; congruence|exists r'; rewrite app_eq; congruence].
Qed.
Lemma common_longest m a b : (exists r, a = m ++ r) -> (exists r, b = m ++ r) -> exists r, common a b = m ++ r.
Proof. intros [r ->] [r' ->]. rewrite common_app. eauto. Qed.
Lemma indent_app a b : indentation (a ++ b) <-> indentation a /\ indentation b.
Proof. apply all_in_app. Qed.
Lemma margin_none ls : margin ls = None <-> Forall indentation ls.
Proof.
  induction ls as [|l ls IH]; cbn [margin]; [split; [constructor|reflexivity]|]. destruct (lead l) as [w|] eqn:L.
  - split; [destruct (margin ls); discriminate|]. intro F. inversion F as [|? ? X _]; subst. apply lead_none in X. congruence.
  - apply lead_none in L. rewrite IH. split; [constructor; assumption|intro F; inversion F; assumption].
Qed.
Lemma margin_some ls m : margin ls = Some m ->
  indentation m /\ (forall l w, In l ls -> lead l = Some w -> exists r, w = m ++ r) /\
  (forall m', (forall l w, In l ls -> lead l = Some w -> exists r, w = m' ++ r) -> exists r, m = m' ++ r).
Proof.
  revert m. induction ls as [|l ls IH]; intros m H; cbn [margin] in H; [discriminate|]. destruct (lead l) as [w|] eqn:L.
  - destruct (margin ls) as [n|] eqn:M; injection H as <-.
    + destruct (IH n eq_refl) as (A & B & C). destruct (common_starts w n) as [[r E] [r' E']]. split; [|split].
      * apply (indent_app _ r'). rewrite <- E'. exact A.
      * intros x u [<-|I] X.
        -- rewrite L in X. injection X as <-. eauto.
        -- destruct (B x u I X) as [z ->]. exists (r' ++ z). rewrite str_assoc, <- E'. reflexivity.
      * intros m' S. apply common_longest; [apply (S l); [left; reflexivity|exact L]|]. apply C. intros x u I X. apply (S x u); [right; exact I|exact X].
    + apply margin_none in M. split; [apply (lead_some _ _ L)|]. split.
      * intros x u [<-|I] X; [rewrite L in X; injection X as <-; exists ""; rewrite str_nil; reflexivity|]. exfalso. rewrite Forall_forall in M. apply M in I. apply lead_none in I. congruence.
      * intros m' S. apply (S l); [left; reflexivity|exact L].
  - destruct (IH m H) as (A & B & C). split; [exact A|]. split.
    + intros x u [<-|I] X; [congruence|exact (B x u I X)].
    + intros m' S. apply C. intros x u I X. apply (S x u); [right; exact I|exact X].
Qed.
Lemma prefix_app m t : String.prefix m (m ++ t) = true.
Proof. induction m as [|c m IH]; [destruct t; reflexivity|]. cbn. destruct (ascii_dec c c); [exact IH|contradiction]. Qed.
Lemma unindent_app m t : unindent m (m ++ t) = t.
Proof.
  unfold unindent. rewrite prefix_app. induction m as [|c m IH]; [reflexivity|]. rewrite app_eq. cbn [less]. rewrite Ascii.eqb_refl. exact IH.
Qed.
Lemma unindent_nil m : unindent m "" = "".
Proof. unfold unindent. destruct m; reflexivity. Qed.
Lemma without_sub c a b : without c (a ++ b) -> without c b.
Proof. intro H. apply without_app in H. apply H. Qed.

Definition blanked (l : string) : string := match lead l with None => "" | Some _ => l end.
Lemma blanked_lead l : lead (blanked l) = lead l.
Proof. unfold blanked. destruct (lead l) eqn:E; [exact E|reflexivity]. Qed.
Lemma margin_blanked ls : margin (map blanked ls) = margin ls.
Proof. induction ls as [|l ls IH]; [reflexivity|]. cbn [map margin]. rewrite blanked_lead, IH. reflexivity. Qed.
(** the lines of [dedent] *)
Definition dedent_lines (ls : list string) : list string :=
  match margin ls with Some m => map (fun l => unindent m (blanked l)) ls | None => map (fun _ => "") ls end.
Lemma dedent_eq s ls : has_lines s ls -> has_lines (dedent s) (dedent_lines ls).
Proof.
  intro H. apply cut_lines in H as E. unfold dedent. rewrite E. fold blanked. change (fun l => match lead l with None => "" | Some _ => l end) with blanked.
  rewrite margin_blanked. unfold dedent_lines. destruct H as (NE & F & _). destruct (margin ls) as [m|] eqn:M.
  - rewrite map_map. split; [destruct ls; [contradiction|discriminate]|]. split; [|reflexivity]. rewrite Forall_map. eapply Forall_impl; [|exact F]. intros l N.
    unfold blanked. destruct (lead l); [|rewrite unindent_nil; intros []]. unfold unindent. destruct (String.prefix m l); [|exact N].
    clear -N. revert l N. induction m as [|c m IH]; intros l N; [exact N|]. destruct l as [|d l]; [exact N|]. cbn [less]. destruct (Ascii.eqb c d); [|exact N]. apply IH. intro I. apply N. right. exact I.
  - apply margin_none in M. split; [destruct ls; [contradiction|discriminate]|]. split; [rewrite Forall_map; eapply Forall_impl; [|exact F]; intros l _ []|].
    f_equal. apply map_ext_in. intros l I. unfold blanked. rewrite Forall_forall in M. apply M, lead_none in I. rewrite I. reflexivity.
Qed.
Lemma dedent_spec s : dedented s (dedent s).
Proof.
  pose proof (lines_cut s) as H. remember (cut is_newline s) as ls eqn:E. clear E.
  exists ls, (dedent_lines ls). unfold dedent_lines. destruct (margin ls) as [m|] eqn:M.
  - exists m. split; [exact H|]. split; [pose proof (dedent_eq s ls H) as X; unfold dedent_lines in X; rewrite M in X; exact X|].
    pose proof (margin_some _ _ M) as (A & B & C).
    assert (B' : forall l, In l ls -> ~ indentation l -> exists t, l = m ++ t).
    { intros l I N. destruct (lead l) as [w|] eqn:L; [|apply lead_none in L; contradiction]. destruct (B l w I L) as [r ->]. apply lead_some in L. destruct L as (_ & c & t & -> & _). exists (r ++ String c t). rewrite str_assoc. reflexivity. }
    split.
    + split; [split; [exact A|exact B']|]. intros m' [IM S] _. destruct (C m') as [r ->].
      * intros l w I L. assert (N : ~ indentation l) by (intro X; apply lead_none in X; congruence). destruct (S l I N) as [t ->]. destruct (lead t) as [u|] eqn:LT.
        -- rewrite (lead_app _ _ _ IM LT) in L. injection L as <-. eauto.
        -- exfalso. apply N. apply indent_app. split; [exact IM|apply lead_none; exact LT].
      * rewrite str_len. lia.
    + clear -B'. induction ls as [|l ls IH]; constructor; [|apply IH; intros x I; apply B'; right; exact I]. split.
      * intro X. apply lead_none in X. unfold blanked. rewrite X. apply unindent_nil.
      * intro N. destruct (B' l (or_introl eq_refl) N) as [t ->]. unfold blanked. destruct (lead (m ++ t)) eqn:L; [|apply lead_none in L; contradiction]. rewrite unindent_app. reflexivity.
  - exists "". split; [exact H|]. split; [pose proof (dedent_eq s ls H) as X; unfold dedent_lines in X; rewrite M in X; exact X|]. apply margin_none in M. rewrite Forall_forall in M. split.
    + split; [split; [intros x []|intros l I N; exfalso; apply N, M, I]|]. intros m' _ (l & I & N). exfalso. apply N, M, I.
    + clear -M. induction ls as [|l ls IH]; constructor; [|apply IH; intros x I; apply M; right; exact I]. split; [reflexivity|]. intro N. exfalso. apply N, M. left. reflexivity.
Qed.

(** ** Paragraphs *)
Lemma paragraphs_ne s : paragraphs s <> [].
Proof.
  remember (String.length s) as n eqn:L. revert s L. induction n as [n IH] using lt_wf_ind. intros s L. destruct s as [|c t]; [discriminate|]. cbn [paragraphs].
  destruct t as [|d u]; [discriminate|]. destruct (is_newline c && is_newline d); [discriminate|]. destruct (paragraphs (String d u)); discriminate.
Qed.
Lemma paragraphs_spec s : in_paragraphs (paragraphs s) s.
Proof.
  remember (String.length s) as n eqn:L. revert s L. induction n as [n IH] using lt_wf_ind. intros s L. subst n.
  destruct s as [|c t]; [constructor; intros [|x a] b; discriminate|].
  assert (O : (forall u, String c t <> nl ++ nl ++ u) -> in_paragraphs match paragraphs t with h :: r => String c h :: r | [] => [String c ""] end (String c t)).
  { intro N. pose proof (IH (String.length t) (Nat.lt_succ_diag_r _) t eq_refl) as H. remember (paragraphs t) as ps eqn:E. clear E. destruct H as [p Q|p ps t Q R].
    - constructor. intros [|x a] b X; [exact (N b X)|]. rewrite app_eq in X. injection X as _ X. exact (Q a b X).
    - rewrite <- app_eq. constructor; [|exact R]. intros [|x a] b X.
      + destruct p as [|y p].
        * cbn [append nl one] in X. injection X as -> _. apply (N (nl ++ t)). reflexivity.
        * cbn [append nl one] in X. injection X as -> -> X. apply (N (p ++ nl ++ nl ++ t)). reflexivity.
      + rewrite !app_eq in X. injection X as _ X. exact (Q a b X). }
  cbn [paragraphs]. destruct t as [|d u]; [apply O; intros v X; discriminate|]. destruct (is_newline c && is_newline d) eqn:B.
  - apply andb_true_iff in B. destruct B as [C D]. unfold is_newline in C, D. apply Ascii.eqb_eq in C, D. subst c d.
    apply (ip_more "" _ u); [intros [|x [|y a]] b; discriminate|]. apply (IH (String.length u)); [cbn; lia|reflexivity].
  - apply O. intros v X. injection X as -> -> _. discriminate B.
Qed.

(** ** All of it *)
Lemma flat_spec p : flat p (one_line (strip p)).
Proof.
  exists (strip p), (cut is_newline (strip p)). split; [apply strip_exact; reflexivity|]. split; [apply lines_cut|reflexivity].
Qed.
Lemma prefix_lt s : String.prefix "<" s = true <-> exists t, s = "<" ++ t.
Proof.
  destruct s as [|c s]; [split; [discriminate|intros [t X]; discriminate]|]. cbn [String.prefix]. destruct (ascii_dec "<" c) as [<-|N].
  - split; [intros _; exists s; reflexivity|intros _; destruct s; reflexivity].
  - split; [discriminate|]. intros [t X]. injection X as -> _. contradiction.
Qed.
Lemma block_spec c : block c (wrap_untagged c).
Proof.
  unfold wrap_untagged. destruct (String.prefix "<" c) eqn:P; [left; split; [apply prefix_lt; exact P|reflexivity]|]. right. split; [|reflexivity].
  intros t X. assert (String.prefix "<" c = true) by (apply prefix_lt; eauto). congruence.
Qed.
(** C159. The HTML is what it should be: a block for every paragraph of the text without its margin. *)
Theorem messages_become_html : forall s, html s (autop s).
Proof.
  intro s. exists (dedent s), (paragraphs (dedent s)), (map one_line (map strip (paragraphs (dedent s)))), (map wrap_untagged (map one_line (map strip (paragraphs (dedent s))))).
  split; [apply dedent_spec|]. split; [apply paragraphs_spec|]. split; [|split; [|reflexivity]].
  - rewrite map_map. induction (paragraphs (dedent s)); constructor; [apply flat_spec|assumption].
  - induction (map one_line (map strip (paragraphs (dedent s)))); constructor; [apply block_spec|assumption].
Qed.
Print Assumptions messages_become_html.

(** ** What is kept *)
Definition spaced : string -> string :=
  fix go s := match s with "" => "" | String c t => String (if is_newline c then " " else c) (go t) end.
Lemma one_line_spaced s : one_line s = spaced s.
Proof.
  unfold one_line. pose proof (cut_parts is_newline s) as P. induction P as [s N|s c l t N C P IH].
  - cbn. induction s as [|c s IH]; [reflexivity|]. cbn [spaced]. rewrite (N c) by (left; reflexivity). rewrite <- IH; [reflexivity|]. intros x I. apply N. right. exact I.
  - assert (E : String.concat " " (s :: l) = s ++ String " " (String.concat " " l)).
    { destruct l as [|y l]; [inversion P|apply concat_cons]. }
    rewrite E, IH. clear -N C. induction s as [|d s IH]; [cbn [append spaced]; rewrite C; reflexivity|]. rewrite !app_eq. cbn [spaced]. rewrite (N d) by (left; reflexivity). rewrite IH; [reflexivity|]. intros x I. apply N. right. exact I.
Qed.
Lemma spaced_app a b : spaced (a ++ b) = spaced a ++ spaced b.
Proof. induction a as [|c a IH]; [reflexivity|]. rewrite !app_eq. cbn [spaced]. rewrite IH. reflexivity. Qed.
Lemma spaced_without s : without "010" (spaced s).
Proof.
  induction s as [|c s IH]; [intros []|]. cbn [spaced]. intros [X|X]; [|exact (IH X)]. unfold is_newline, newline in X. destruct (Ascii.eqb_spec c "010"%char); [discriminate|contradiction].
Qed.
Lemma spaced_ends s : ~ ends_blank s -> ~ ends_blank (spaced s).
Proof.
  induction s as [|c s IH]; intro N; [exact N|]. destruct s as [|d s].
  - cbn [spaced]. assert (C : is_newline c = false).
    { destruct (is_newline c) eqn:C; [|reflexivity]. exfalso. apply N. exists c, "". split; [reflexivity|]. unfold is_newline in C. apply Ascii.eqb_eq in C. subst c. apply white_blank. reflexivity. }
    rewrite C. exact N.
  - change (spaced (String c (String d s))) with (one (if is_newline c then " " else c) ++ spaced (String d s)). apply ends_keep; [discriminate|]. apply IH.
    intros (x & t & E & I). apply N. exists x, (String c t). rewrite E. auto.
Qed.
Definition solid (h : string) : Prop := (exists t, h = "<" ++ t) /\ without "010" h /\ ~ ends_blank h.
Lemma solid_app a b : solid a -> solid b -> solid (a ++ b).
Proof.
  intros ([t ->] & N & _) ([u ->] & M & E). split; [exists (t ++ "<" ++ u); symmetry; apply str_assoc|]. split; [apply without_app; auto|]. apply ends_keep; [discriminate|exact E].
Qed.
Lemma solid_concat bs : bs <> [] -> Forall solid bs -> solid (String.concat "" bs).
Proof.
  intros NE F. induction F as [|b bs S F IH]; [contradiction|]. destruct bs as [|c bs]; [exact S|]. rewrite concat_cons. cbn [append]. apply solid_app; [exact S|]. apply IH. discriminate.
Qed.
Lemma solid_wrap c : without "010" c -> ~ ends_blank c -> solid (wrap_untagged c).
Proof.
  intros N E. unfold wrap_untagged. destruct (String.prefix "<" c) eqn:P; [apply prefix_lt in P; split; [exact P|auto]|]. split; [exists ("p>" ++ c ++ "</p>"); reflexivity|]. split.
  - rewrite !without_app. split; [|split; [exact N|]]; intros X; cbn in X; intuition discriminate.
  - rewrite str_assoc. apply ends_keep; [discriminate|]. intros (x & t & X & I). 
    assert (x = ">"%char) as ->.
    { assert (Y : list_ascii_of_string "</p>" = (list_ascii_of_string t ++ [x])%list) by (rewrite X, chars_app; reflexivity).
      change (list_ascii_of_string "</p>") with (["<"; "/"; "p"] ++ [">"])%char%list in Y. apply app_inj_tail in Y. symmetry. apply Y. }
    apply white_blank in I. discriminate I.
Qed.
Lemma autop_solid s : solid (autop s).
Proof.
  unfold autop. apply solid_concat.
  - pose proof (paragraphs_ne (dedent s)) as H. destruct (paragraphs (dedent s)); [contradiction|discriminate].
  - rewrite !map_map. apply Forall_map. rewrite Forall_forall. intros p _. rewrite one_line_spaced. apply solid_wrap; [apply spaced_without|]. apply spaced_ends. assert (T : trimmed p (strip p)) by (apply strip_exact; reflexivity). apply T.
Qed.
Lemma paragraphs_line s : without "010" s -> paragraphs s = [s].
Proof.
  induction s as [|c s IH]; intro N; [reflexivity|]. assert (M : without "010" s) by (intro I; apply N; right; exact I). cbn [paragraphs]. rewrite IH by exact M.
  destruct s as [|d s]; [reflexivity|]. assert (C : is_newline c = false).
  { apply is_newline_in with (s := String c (String d s)); [exact N|left; reflexivity]. }
  rewrite C. reflexivity.
Qed.
Lemma solid_fixed h : solid h -> autop h = h.
Proof.
  intros ([t ->] & N & E). set (h := "<" ++ t) in *.
  assert (C : cut is_newline h = [h]) by (apply cut_none, is_newline_in; exact N).
  assert (D : dedent h = h). { unfold dedent. rewrite C. reflexivity. }
  assert (S : strip h = h). { apply strip_exact. split; [|split; [exact E|]]. - intros (c & u & X & I). injection X as <- _. apply white_blank in I. discriminate I. - exists "", "". rewrite str_nil. split; [reflexivity|]. split; intros x []. }
  unfold autop. rewrite D, paragraphs_line by exact N. cbn [map]. rewrite S. unfold one_line. rewrite C. cbn [String.concat]. unfold wrap_untagged. assert (P : String.prefix "<" h = true) by (apply prefix_lt; exists t; reflexivity). rewrite P. reflexivity.
Qed.
(** C159. HTML is left as it is. *)
Theorem html_is_left_alone : forall s, autop (autop s) = autop s.
Proof. intro s. apply solid_fixed, autop_solid. Qed.
Print Assumptions html_is_left_alone.
(** C159. It starts with a tag and is on one line. *)
Theorem html_is_one_line : forall s, (exists t, autop s = "<" ++ t) /\ without "010" (autop s).
Proof. intro s. destruct (autop_solid s) as (A & B & _). auto. Qed.

Lemma ink_app a b : ink (a ++ b) = (ink a ++ ink b)%list.
Proof. unfold ink. rewrite chars_app. apply filter_app. Qed.
Lemma ink_cons c s : ink (String c s) = ((if white c then [] else [c]) ++ ink s)%list.
Proof.
  unfold ink. cbn [list_ascii_of_string filter]. assert (E : existsb (Ascii.eqb c) blanks = white c).
  { apply eq_true_iff_eq. rewrite white_blank, existsb_exists. split; [intros (x & I & X); apply Ascii.eqb_eq in X; subst; exact I|intro I; exists c; split; [exact I|apply Ascii.eqb_refl]]. }
  rewrite E. destruct (white c); reflexivity.
Qed.
Lemma ink_blank s : all_in blanks s -> ink s = [].
Proof. induction s as [|c s IH]; [reflexivity|]. intro A. apply all_in_cons in A. destruct A as [I A]. apply white_blank in I. rewrite ink_cons, I. apply IH. exact A. Qed.
Lemma ink_indent s : indentation s -> ink s = [].
Proof.
  intro A. apply ink_blank. intros c I. apply A in I. apply white_blank. destruct I as [<-|[<-|[]]]; reflexivity.
Qed.
Lemma ink_spaced s : ink (spaced s) = ink s.
Proof.
  induction s as [|c s IH]; [reflexivity|]. cbn [spaced]. rewrite !ink_cons, IH. f_equal. unfold is_newline, newline. destruct (Ascii.eqb_spec c "010"%char) as [->|]; reflexivity.
Qed.
Lemma ink_strip s : ink (strip s) = ink s.
Proof.
  assert (T : trimmed s (strip s)) by (apply strip_exact; reflexivity). destruct T as (_ & _ & a & b & E & A & B). rewrite E at 2. rewrite !ink_app, (ink_blank a A), (ink_blank b B), app_nil_r. reflexivity.
Qed.
Lemma ink_paragraphs ps s : in_paragraphs ps s -> List.concat (map ink ps) = ink s.
Proof.
  intro P. induction P as [p _|p ps t _ P IH]; cbn [map List.concat]; [apply app_nil_r|]. rewrite IH, !ink_app. reflexivity.
Qed.
Lemma ink_lines s ls : has_lines s ls -> ink s = List.concat (map ink ls).
Proof.
  intros (NE & _ & ->). induction ls as [|x l IH]; [contradiction|]. destruct l as [|y l]; [cbn; symmetry; apply app_nil_r|].
  rewrite concat_cons, !ink_app, IH by discriminate. reflexivity.
Qed.
Lemma ink_dedented s d : dedented s d -> ink d = ink s.
Proof.
  intros (ls & ls' & m & H & H' & [[IM _] _] & F). rewrite (ink_lines _ _ H), (ink_lines _ _ H'). clear H H'. induction F as [|l l' ls ls' [A B] F IH]; [reflexivity|]. cbn [map List.concat]. rewrite IH. f_equal.
  destruct (lead l) eqn:L.
  - rewrite (B ltac:(intro X; apply lead_none in X; congruence)). rewrite ink_app, (ink_indent m IM). reflexivity.
  - apply lead_none in L. rewrite (A L), (ink_indent l L). reflexivity.
Qed.
(** C159. What is written in a message is in its HTML, in the same order; nothing but white space is lost. *)
Theorem messages_keep_their_text : forall s, exists cs bs,
  Forall2 block cs bs /\ autop s = String.concat "" bs /\ List.concat (map ink cs) = ink s.
Proof.
  intro s. exists (map one_line (map strip (paragraphs (dedent s)))), (map wrap_untagged (map one_line (map strip (paragraphs (dedent s))))). split; [|split; [reflexivity|]].
  - induction (map one_line (map strip (paragraphs (dedent s)))); constructor; [apply block_spec|assumption].
  - rewrite <- (ink_dedented _ _ (dedent_spec s)), <- (ink_paragraphs _ _ (paragraphs_spec (dedent s))). rewrite !map_map. f_equal. apply map_ext. intro p. rewrite one_line_spaced, ink_spaced. apply ink_strip.
Qed.
Print Assumptions messages_keep_their_text.

(** ** Indentation *)
Lemma margin_indented w ls ls' : indentation w ->
  Forall2 (fun l l' => indentation l /\ indentation l' \/ ~ indentation l /\ l' = w ++ l) ls ls' -> margin ls' = option_map (append w) (margin ls).
Proof.
  intros A F. induction F as [|l l' ls ls' H F IH]; [reflexivity|]. cbn [margin]. rewrite IH. destruct H as [[B C]|[N ->]].
  - apply lead_none in B, C. rewrite B, C. reflexivity.
  - destruct (lead l) as [u|] eqn:L; [|apply lead_none in L; contradiction]. rewrite (lead_app w l u A L). destruct (margin ls); cbn [option_map]; [rewrite common_app|]; reflexivity.
Qed.
(** C159. It does not matter how far to the right the whole message is, nor what is in its empty lines. *)
Theorem indentation_does_not_matter : forall w s s', indented w s s' -> autop s' = autop s.
Proof.
  intros w s s' (A & ls & ls' & H & H' & F). unfold autop. replace (dedent s') with (dedent s); [reflexivity|].
  destruct (dedent_eq s ls H) as (_ & _ & ->). destruct (dedent_eq s' ls' H') as (_ & _ & ->). f_equal. unfold dedent_lines. rewrite (margin_indented w ls ls' A F).
  destruct (margin ls) as [m|] eqn:M; cbn [option_map].
  - pose proof (margin_some _ _ M) as (_ & B & _). clear M H H'. induction F as [|l l' ls ls' X F IH]; [reflexivity|]. cbn [map]. f_equal; [|apply IH; intros x u I; apply B; right; exact I].
    unfold blanked. destruct X as [[P Q]|[N ->]].
    + apply lead_none in P, Q. rewrite P, Q, !unindent_nil. reflexivity.
    + destruct (lead l) as [u|] eqn:L; [|apply lead_none in L; contradiction]. rewrite (lead_app w l u A L). destruct (B l u (or_introl eq_refl) L) as [r ->].
      apply lead_some in L. destruct L as (_ & c & t & -> & _). rewrite <- (str_assoc m r), unindent_app, (str_assoc w m), unindent_app. reflexivity.
  - clear -F. induction F; [reflexivity|]. cbn [map]. f_equal. assumption.
Qed.
Print Assumptions indentation_does_not_matter.

(** ** A message *)
Definition note : string := "  You need" ++ nl ++ "    one of:" ++ nl ++ nl ++ "  <ul><li>a</li></ul>" ++ nl ++ " " ++ nl ++ "  or a waiver. ".
Definition note_left : string := "You need" ++ nl ++ "  one of:" ++ nl ++ nl ++ "<ul><li>a</li></ul>" ++ nl ++ nl ++ "or a waiver. ".
Example note_html : autop note = "<p>You need   one of:</p><ul><li>a</li></ul><p>or a waiver.</p>".
Proof. reflexivity. Qed.
Example note_indented : indented "  " note_left note.
Proof.
  split; [apply lead_none; reflexivity|]. exists (cut is_newline note_left), (cut is_newline note). split; [apply lines_cut|]. split; [apply lines_cut|].
  change (cut is_newline note_left) with ["You need"; "  one of:"; ""; "<ul><li>a</li></ul>"; ""; "or a waiver. "].
  change (cut is_newline note) with ["  You need"; "    one of:"; ""; "  <ul><li>a</li></ul>"; " "; "  or a waiver. "].
  assert (B : forall l, lead l = None -> indentation l) by (intros l X; apply lead_none; exact X).
  assert (T : forall l w, lead l = Some w -> ~ indentation l) by (intros l w X Y; apply lead_none in Y; congruence).
  constructor; [right; split; [eapply T; reflexivity|reflexivity]|].
  constructor; [right; split; [eapply T; reflexivity|reflexivity]|].
  constructor; [left; split; apply B; reflexivity|].
  constructor; [right; split; [eapply T; reflexivity|reflexivity]|].
  constructor; [left; split; apply B; reflexivity|].
  constructor; [right; split; [eapply T; reflexivity|reflexivity]|constructor].
Qed.
(** C159. A longer gap between two paragraphs gives a paragraph with nothing in it. *)
Theorem no_empty_paragraphs_refuted :
  ~ (forall s, ink s <> [] -> forall a b, autop s <> a ++ "<p></p>" ++ b).
Proof.
  intro H. refine (H ("one" ++ nl ++ nl ++ nl ++ nl ++ "two") _ "<p>one</p>" "<p>two</p>" eq_refl). discriminate.
Qed.
