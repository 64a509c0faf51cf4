From Coq Require Import List ZArith QArith Bool String Ascii Lia.
From Verif Require Import Prelude Dec Status Course Claims Exceptions Op Context CondExpr Paths Keys Predicate PredicateProofs Limit Apply Assertion Query CourseRule Tree TreeSpec Area ListFacts Catalog CatalogProps LimitLoadProofs StudentProofs AreaLoadProofs Json JsonSpec JsonProofs Report ReportSpec.
Import ListNotations.
Local Open Scope string_scope.
Local Infix "+++" := (@app _) (at level 61, right associativity).

(** ** Results that are given or not *)
Definition gives {A} (b : bool) (x : A) (r : res A) : Prop := if b then r = Ok x else exists e, r = Err e.
Lemma gives_ok {A} (x : A) : gives true x (Ok x).
Proof. reflexivity. Qed.
Lemma gives_bind {A B} b1 b2 (x : A) (y : B) r f : gives b1 x r -> gives b2 y (f x) -> gives (b1 && b2) y (bind r f).
Proof.
  unfold gives. destruct b1; cbn [andb]; [intros ->; cbn [bind]; auto|intros (e & ->) _]. exists e. reflexivity.
Qed.
Lemma gives_bind_l {A B} b (x : A) (y : B) r f : gives b x r -> f x = Ok y -> gives b y (bind r f).
Proof. intros H E. rewrite <- (andb_true_r b). eapply gives_bind; [exact H|exact E]. Qed.
Lemma gives_bind2 {A B C} b1 b2 (x : B) (y : C) (r : res A) f g : gives b1 x (let! w := r in f w) -> gives b2 y (g x) -> gives (b1 && b2) y (let! w := r in let! z := f w in g z).
Proof.
  intros H G. destruct r as [a|e]; cbn [bind] in *; [eapply gives_bind; eassumption|]. destruct b1; cbn [gives] in H; [discriminate|]. exists e. reflexivity.
Qed.
Lemma gives_mapr {A B} (f : A -> res B) (b : A -> bool) (g : A -> B) l : (forall x, In x l -> gives (b x) (g x) (f x)) -> gives (forallb b l) (map g l) (mapr f l).
Proof.
  induction l as [|x l IH]; intro H; [reflexivity|]. cbn [mapr forallb map]. eapply gives_bind; [apply H; left; reflexivity|].
  rewrite <- (andb_true_r (forallb b l)). eapply gives_bind; [apply IH; intros; apply H; right; assumption|reflexivity].
Qed.
Lemma gives_eq {A} b b' (x y : A) r : b = b' -> x = y -> gives b x r -> gives b' y r.
Proof. intros -> ->. auto. Qed.

(** ** Texts *)
Lemma pieces_cons a l : pieces (a :: l) = a ++ pieces l.
Proof. unfold pieces. destruct l; cbn [String.concat]; [|reflexivity]. induction a; cbn; congruence. Qed.
Lemma append_nil_r s : s ++ "" = s.
Proof. induction s; cbn; congruence. Qed.
Lemma append_assoc a b c : (a ++ b) ++ c = a ++ b ++ c.
Proof. induction a; cbn; congruence. Qed.
Lemma pieces_app l r : pieces (l +++ r) = pieces l ++ pieces r.
Proof. induction l as [|x l IH]; [reflexivity|]. cbn [app]. rewrite !pieces_cons, IH, append_assoc. reflexivity. Qed.
Lemma pieces_nil : pieces [] = "".
Proof. reflexivity. Qed.
Lemma blanks_ok n : spaces n = blanks n.
Proof. induction n as [|n IH]; [reflexivity|]. unfold blanks. cbn [repeat spaces]. change (String.concat "" (" " :: repeat " " n)) with (pieces (" " :: repeat " " n)). rewrite pieces_cons. cbn. f_equal. exact IH. Qed.
Ltac texts := rewrite ?pieces_cons, ?pieces_nil, ?append_nil_r, ?append_assoc, ?blanks_ok.
Lemma row_ok cs k : on_transcript cs k = row_with cs k.
Proof.
  unfold on_transcript, row_with. assert (X : forall l o, fold_left (fun found c => if c_clbid c =? k then Some c else found) l o = match find (fun c => c_clbid c =? k) (rev l) with Some c => Some c | None => o end).
  { intro l. induction l as [|c l IH]; intro o; [reflexivity|]. cbn [fold_left rev]. rewrite IH.
    assert (F : forall (p : course -> bool) l x, find p (l +++ [x]) = match find p l with Some y => Some y | None => if p x then Some x else None end).
    { intros p m x. induction m as [|y m IHm]; cbn; [destruct (p x); reflexivity|]. destruct (p y); [reflexivity|exact IHm]. }
    rewrite F. destruct (find _ (rev l)); [reflexivity|]. destruct (c_clbid c =? k); reflexivity. }
  rewrite X. destruct (find _ _); reflexivity.
Qed.
Lemma with_term_ok c : with_term c = course_and_term c.
Proof. unfold with_term, course_and_term, section_suffix. texts. reflexivity. Qed.
Lemma concat_cons sep x l : String.concat sep (x :: l) = x ++ pieces (map (fun y => sep ++ y) l).
Proof.
  revert x. induction l as [|y l IH]; intro x; [cbn [String.concat map]; rewrite pieces_nil, append_nil_r; reflexivity|].
  change (String.concat sep (x :: y :: l)) with (x ++ sep ++ String.concat sep (y :: l)). rewrite IH. cbn [map]. rewrite pieces_cons, append_assoc. reflexivity.
Qed.
Lemma verbose_ok c : verbose c = course_in_full c.
Proof.
  unfold verbose, course_in_full. rewrite !pieces_app.
  assert (A : match c_attributes c with [] => "" | l => " " ++ String.concat " " (map (fun a => "#" ++ a) (isort str_leb l)) end = pieces (map (fun a => " #" ++ a) (isort str_leb (c_attributes c)))).
  { assert (L := isort_length str_leb (c_attributes c)). destruct (c_attributes c) as [|a l] eqn:E; [reflexivity|]. rewrite <- E in *.
    destruct (isort str_leb (c_attributes c)) as [|x r]; [rewrite E in L; discriminate|]. cbn [map]. rewrite concat_cons, pieces_cons. cbn [append]. do 2 f_equal.
    rewrite map_map. reflexivity. }
  rewrite A. rewrite !with_term_ok. destruct (c_institution c =? "STOLAF"); texts; reflexivity.
Qed.
Lemma known_ok c : emojify_course (Some c) JNull = known_mark c.
Proof. reflexivity. Qed.
Lemma mark_ok s : emoji_of (JStr (status_value s)) = mark s.
Proof. destruct s; reflexivity. Qed.
Lemma course_mark_ok s c : emojify_course c (JStr (status_value s)) = course_mark s c.
Proof. destruct s; reflexivity. Qed.
Lemma passes_ok s : passing_value (JStr (status_value s)) = passes s.
Proof. destruct s; reflexivity. Qed.
Lemma finished_ok s : ok_value (JStr (status_value s)) = finished s.
Proof. destruct s; reflexivity. Qed.
Lemma sign_ok o : str_operator (operator_name o) = Ok (sign o).
Proof. destruct o; reflexivity. Qed.
Lemma jtexts_ok l : jtexts (jstrs l) = Ok l.
Proof. unfold jtexts, jstrs. cbn [jitems bind]. induction l as [|x l IH]; [reflexivity|]. cbn [map mapr jtext bind]. rewrite IH. reflexivity. Qed.
Lemma isort_twice l : isort str_leb (isort str_leb l) = isort str_leb l.
Proof.
  apply isort_id. apply isort_sorted.
  - intros x y. change str_leb with str_le. destruct (str_le x y) eqn:E; [tauto|]. right. apply str_le_total. exact E.
  - intros x y z. apply str_le_trans.
Qed.

Ltac look := cbn [jkey jget jfind jobj key bind String.eqb Ascii.eqb Bool.eqb app base_json fst snd jis jtrue jitems jtext jsub orb andb negb].

Section Text.
  Variables (repr quote : string -> string) (g4 dtext : Q -> string).
  Variable transcript : list course.
  Variables paths ranks : bool.
  Notation condition := (condition repr).
  Notation clause := (clause repr).

  Lemma mapr_told {A} (f : json -> res string) (g : A -> json) (h : A -> string) l : Forall (fun x => f (g x) = Ok (h x)) l -> mapr f (map g l) = Ok (map h l).
  Proof. induction 1 as [|x l E F IH]; [reflexivity|]. cbn [map mapr]. rewrite E. cbn [bind]. rewrite IH. reflexivity. Qed.
  Lemma headline_ok r : headline (jopt JBool r) = holds_mark r.
  Proof. destruct r as [[|]|]; reflexivity. Qed.
  Lemma condition_ok e : forall nested, str_expression repr dtext nested (expr_json e) = Ok (condition nested e).
  Proof.
    induction e as [l r IH|l r IH|x r IH|f a r] using pexpr_ind'; intro nested; cbn [expr_json str_expression]; look.
    - erewrite mapr_told; [|eapply Forall_impl; [|exact IH]; intros y H; apply H]. look. cbn [ReportSpec.condition]. unfold in_parens. texts. reflexivity.
    - erewrite mapr_told; [|eapply Forall_impl; [|exact IH]; intros y H; apply H]. look. cbn [ReportSpec.condition]. unfold in_parens. texts. reflexivity.
    - rewrite IH. look. rewrite headline_ok. cbn [ReportSpec.condition]. texts. reflexivity.
    - rewrite headline_ok. cbn [ReportSpec.condition]. texts. reflexivity.
  Qed.
  Lemma dyn_condition_ok e : forall nested, str_expression repr dtext nested (dexpr_json e) = Ok (dyn_condition repr nested e).
  Proof.
    induction e as [l r IH|l r IH|f a r] using dexpr_ind'; intro nested; cbn [dexpr_json str_expression]; look.
    - erewrite mapr_told; [|eapply Forall_impl; [|exact IH]; intros y H; apply H]. look. cbn [dyn_condition]. unfold in_parens. texts. reflexivity.
    - erewrite mapr_told; [|eapply Forall_impl; [|exact IH]; intros y H; apply H]. look. cbn [dyn_condition]. unfold in_parens. texts. reflexivity.
    - rewrite headline_ok. cbn [dyn_condition]. texts. reflexivity.
  Qed.
  Lemma scalar_str s : pystr repr dtext (scalar_json s) = shown_scalar repr false s.
  Proof. destruct s as [|[|]| | | | |]; reflexivity. Qed.
  Lemma scalar_repr s : pyrepr repr dtext (scalar_json s) = shown_scalar repr true s.
  Proof. destruct s as [|[|]| | | | |]; reflexivity. Qed.
  Lemma value_str v : pystr repr dtext (value_json v) = shown_value repr v.
  Proof.
    destruct v as [s|l]; [apply scalar_str|]. cbn [value_json pystr shown_value pyrepr]. texts. do 3 f_equal. rewrite map_map. apply map_ext. intro. apply scalar_repr.
  Qed.
  Lemma leaf_ok l : str_predicate repr dtext false false (pred_json (PLeaf l)) = Ok (leaf_words repr l) /\ forall nested, str_predicate repr dtext nested false (pred_json (PLeaf l)) = Ok (leaf_words repr l).
  Proof.
    assert (X : forall nested, str_predicate repr dtext nested false (pred_json (PLeaf l)) = Ok (leaf_words repr l)).
    { intro nested. cbn [pred_json str_predicate]. look. unfold str_single_predicate, label_text. look. rewrite sign_ok. look. f_equal.
      assert (K : (if l_key l =? "attributes" then "bucket" else if l_key l =? "is_in_progress" then "in-progress" else if l_key l =? "is_stolaf" then "from STOLAF" else pystr repr dtext (JStr (l_key l))) = key_word (l_key l)) by reflexivity.
      rewrite K. unfold leaf_words. destruct (l_op l); texts; rewrite ?value_str; try reflexivity.
      cbn [operator_name]. look. destruct (l_expected l) as [[|[|]| | | | |]|]; cbn [value_json scalar_json]; texts; try reflexivity;
      try (rewrite <- value_str; reflexivity). }
    split; [apply X|exact X].
  Qed.
  Lemma joined_ok nested sep l : Forall (fun x => forall nested, gives (clause_printable x) (clause nested x) (str_predicate repr dtext nested false (pred_json x))) l ->
    gives (forallb clause_printable l) (in_parens nested (String.concat sep (map (clause true) l)))
      (let! r := mapr (str_predicate repr dtext true false) (map pred_json l) in Ok (if nested then "(" ++ String.concat sep r ++ ")" else String.concat sep r)).
  Proof.
    intro H. eapply gives_bind_l.
    - assert (X : gives (forallb (fun x => clause_printable x) l) (map (clause true) l) (mapr (fun x => str_predicate repr dtext true false (pred_json x)) l)).
      { apply gives_mapr. rewrite Forall_forall in H. intros x I. apply H. exact I. }
      assert (M : forall l, mapr (str_predicate repr dtext true false) (map pred_json l) = mapr (fun x => str_predicate repr dtext true false (pred_json x)) l).
      { clear. induction l as [|x l IH]; [reflexivity|]. cbn [map mapr]. rewrite IH. reflexivity. }
      rewrite M. exact X.
    - unfold in_parens. texts. reflexivity.
  Qed.
  Lemma expr_json_dict e : exists d, expr_json e = JObj d.
  Proof. destruct e; eexists; reflexivity. Qed.
  Lemma expr_json_result e : (let! cd := jobj (expr_json e) in jkey cd "result") = Ok (jopt JBool (e_result e)).
  Proof. destruct e; reflexivity. Qed.
  Lemma dexpr_json_result e : (let! cd := jobj (dexpr_json e) in jkey cd "result") = Ok (jopt JBool (d_result e)).
  Proof. destruct e; reflexivity. Qed.
  Lemma pred_json_true p : jtrue (pred_json p) = true.
  Proof. destruct p; reflexivity. Qed.
  Lemma then_ok r : match jopt JBool r with JBool true => "t." | _ => "" end = then_mark r.
  Proof. destruct r as [[|]|]; reflexivity. Qed.
  Lemma else_ok r : match jopt JBool r with JBool false => "f!" | _ => "" end = else_mark r.
  Proof. destruct r as [[|]|]; reflexivity. Qed.
  Lemma clause_ok p : forall nested, gives (clause_printable p) (clause nested p) (str_predicate repr dtext nested false (pred_json p)).
  Proof.
    induction p as [l IH|l IH|x IH|c t IH|c t e IHt IHe|l] using pred_ind'; intro nested.
    - cbn [pred_json str_predicate]. look. apply joined_ok. exact IH.
    - cbn [pred_json str_predicate]. look. apply joined_ok. exact IH.
    - cbn [pred_json str_predicate]. look. eexists. reflexivity.
    - cbn [pred_json str_predicate]. look. rewrite condition_ok. look. cbn [clause_printable]. eapply gives_bind; [apply IH|].
      assert (R := expr_json_result c). destruct (expr_json_dict c) as (cd & E). rewrite E in *. look. cbn [jobj bind] in R. rewrite R. look.
      cbn [ReportSpec.clause]. rewrite then_ok, else_ok. unfold in_parens. unfold gives. first [reflexivity|destruct nested; texts; reflexivity].
    - cbn [pred_json str_predicate]. look. rewrite condition_ok. look. cbn [clause_printable]. eapply gives_bind; [apply IHt|].
      assert (R := expr_json_result c). destruct (expr_json_dict c) as (cd & E). rewrite E in *. look. cbn [jobj bind] in R. rewrite R. look.
      rewrite pred_json_true. eapply gives_bind_l; [apply IHe|]. cbn [ReportSpec.clause]. rewrite then_ok, else_ok. unfold in_parens. first [reflexivity|destruct nested; texts; reflexivity].
    - apply leaf_ok.
  Qed.

  (** ** Lines *)
  Lemma dumps_strs l : dumps quote dtext (jstrs l) = pieces ["["; String.concat ", " (map quote l); "]"].
  Proof. unfold jstrs. cbn [dumps]. texts. rewrite map_map. reflexivity. Qed.
  Lemma path_ok d indent p : jget d "path" = Some (jstrs p) -> path_lines quote dtext paths d indent = Ok (path_line quote paths indent p).
  Proof.
    unfold path_lines, path_line, jkey. intros ->. destruct paths; [|reflexivity]. cbn [key bind]. rewrite dumps_strs. texts. reflexivity.
  Qed.
  Lemma rank_ok d r m s : jget d "rank" = Some (JNum r) -> jget d "max_rank" = Some (JNum m) -> jget d "status" = Some (JStr (status_value s)) ->
    rank_prefix repr g4 dtext ranks d = Ok (rank_words g4 dtext ranks r m s).
  Proof.
    unfold rank_prefix, rank_words, jkey. intros -> -> ->. destruct ranks; [|reflexivity]. cbn [key bind rank_text pystr when]. rewrite passes_ok. texts. reflexivity.
  Qed.
  Lemma what_ok w : what_name w = match w with Courses => "Courses" | Credits => "Credits" end.
  Proof. destruct w; reflexivity. Qed.
  Lemma mapr_map {A B C} (f : B -> res C) (g : A -> B) l : mapr f (map g l) = mapr (fun x => f (g x)) l.
  Proof. induction l as [|x l IH]; [reflexivity|]. cbn [map mapr]. rewrite IH. reflexivity. Qed.
  Lemma limits_ok lead d l : jget d "limit" = Some (limits_json l) ->
    gives (limits_printable l) (limits_lines repr lead l) (limit_lines repr dtext lead d).
  Proof.
    unfold limit_lines, jkey. intros ->. cbn [key bind]. unfold limits_json. cbn [jtrue jitems bind]. destruct l as [|x l]; [reflexivity|].
    change (match map limit_json (x :: l) with [] => false | _ => true end) with true. cbn iota. rewrite mapr_map. eapply gives_bind_l.
    - eapply (gives_mapr _ (fun y => clause_printable (lm_where y)) (fun x => pieces [lead; "- at most "; str_of_dec (lm_at_most x); " "; match lm_what x with Courses => "Courses" | Credits => "Credits" end;
                             " where "; clause false (lm_where x)])).
      intros y _. unfold limit_json, where_text. look. eapply gives_bind_l; [apply clause_ok|]. texts. rewrite what_ok. reflexivity.
    - reflexivity.
  Qed.
  Lemma where_ok {B} d (o : option pred) (f : string -> B) (none : B) : jget d "where" = Some (jopt pred_json o) ->
    gives (where_printable o) (match o with Some p => f (clause false p) | None => none end)
      (let! w := jkey d "where" in if jtrue w then let! t := where_text repr dtext d in Ok (f t) else Ok none).
  Proof.
    intro H. unfold jkey. rewrite H. cbn [key bind]. destruct o as [p|]; [|reflexivity]. cbn [jopt]. rewrite pred_json_true. cbn [where_printable].
    eapply gives_bind_l; [|reflexivity]. unfold where_text, jsub.
    assert (X : forall B (f : json -> B) k v d, jget d k = Some v -> jfind f k d = Some (f v)).
    { clear. unfold jget. intros B f k v. induction d as [|[a b] d IH]; cbn [jfind]; [discriminate|]. destruct (a =? k); [congruence|exact IH]. }
    rewrite (X _ _ _ _ _ H). apply clause_ok.
  Qed.
  Lemma claims_ids l : (let! cls := jitems (claims_json l) in mapr (fun x => let! x := jobj x in let! k := jkey x "clbid" in jtext k) cls) = Ok (map (fun cl => c_clbid (cl_course cl)) l).
  Proof. unfold claims_json. cbn [jitems bind]. induction l as [|x l IH]; [reflexivity|]. cbn [map mapr]. rewrite IH. reflexivity. Qed.
  Lemma course_ok indent k r : print_course repr quote g4 dtext transcript paths ranks indent (course_json k r) = Ok (course_lines repr quote g4 dtext transcript paths ranks indent k r).
  Proof.
    unfold print_course, course_json. cbn [jobj bind]. set (d := (base_json _ _ _ _ _ _ +++ _)).
    rewrite (path_ok d indent (r_path r)) by reflexivity. rewrite (rank_ok d (c_rank k r) (c_max_rank k r) (c_status k r)) by reflexivity. cbn [bind].
    assert (KC : jkey d "claims" = Ok (claims_json (c_claims k r))) by reflexivity. rewrite KC.
    assert (KS : jkey d "status" = Ok (JStr (status_value (c_status k r)))) by reflexivity. rewrite KS.
    assert (KN : jkey d "course" = Ok (jopt JStr (r_course r))) by reflexivity. rewrite KN.
    assert (KA : jkey d "ap" = Ok (jopt JStr (r_ap r))) by reflexivity. rewrite KA.
    assert (KI : jkey d "institution" = Ok (jopt JStr (r_institution r))) by reflexivity. rewrite KI. clearbody d.
    unfold claims_json, course_lines, claimed_row. cbn [bind jitems].
    assert (X : match map claim_json (c_claims k r) with
                | [] => Ok None
                | x :: _ => let! k0 := let! cd := jobj x in jkey cd "clbid" in let! k1 := jtext k0 in Ok (on_transcript transcript k1)
                end = Ok (match c_claims k r with [] => None | cl :: _ => row_with transcript (c_clbid (cl_course cl)) end)).
    { destruct (c_claims k r) as [|cl l]; [reflexivity|]. cbn [map]. unfold claim_json. look. rewrite row_ok. reflexivity. }
    rewrite X. cbn [bind]. rewrite course_mark_ok. f_equal. f_equal. f_equal. texts. do 4 f_equal. f_equal.
    - destruct (match c_claims k r with [] => None | cl :: _ => row_with transcript (c_clbid (cl_course cl)) end) as [c|].
      + unfold course_ident. texts. reflexivity.
      + destruct (r_course r) as [[|]|]; destruct (r_ap r) as [[|]|]; reflexivity.
    - destruct (r_institution r) as [[|]|]; cbn [jopt jtrue pystr]; texts; reflexivity.
  Qed.

  (** ** Assertions *)
  Lemma item_label_ok s t : item_text s = Ok t -> item_label repr s = t.
  Proof. unfold item_text, item_label. destruct s; cbn [scalar_json jdec shown_scalar]; congruence. Qed.
  Lemma items_label o j : items_json o = Ok j -> j = jstrs (isort str_leb (map (item_label repr) (match o with Some l => l | None => [] end))).
  Proof.
    destruct o as [l|]; cbn [items_json]; [|intros [= <-]; reflexivity]. intro H. apply bind_iff in H as (ts & M & E). injection E as <-. do 2 f_equal.
    revert ts M. induction l as [|x l IH]; intros ts M; cbn [mapr] in M; [injection M as <-; reflexivity|].
    apply bind_iff in M as (t & E & M). apply bind_iff in M as (us & F & M). injection M as <-. cbn [map]. rewrite (item_label_ok _ _ E). f_equal. apply IH. exact F.
  Qed.
  Lemma clbids_label o : clbids_json o = jstrs (isort str_leb (match o with Some l => l | None => [] end)).
  Proof. destruct o; reflexivity. Qed.
  Lemma existsb_sorted k l : existsb (String.eqb k) (isort str_leb l) = existsb (String.eqb k) l.
  Proof.
    apply eq_true_iff_eq. rewrite !existsb_exists. split; intros (x & I & E); exists x; (split; [|exact E]); apply (in_isort str_leb); exact I.
  Qed.
  (** the entries of an assertion, label, message and original amount aside *)
  Definition fixed (a : assertion) (items : json) : list (string * json) :=
    [("type", JStr "assertion"); ("path", jstrs (as_path a)); ("status", JStr (status_value (as_state a)));
             ("rank", JNum (as_rank a)); ("max_rank", JNum 1);
             ("where", jopt pred_json (as_where a)); ("key", JStr (akey_name (as_key a)));
             ("operator", JStr (operator_name (as_op a))); ("expected", jdec (as_expected a));
             ("data-type", JStr (data_type_value (as_type a))); ("evaluated", JBool (as_evaluated a));
             ("resolved", jopt JNum (as_resolved a)); ("resolved_items", items);
             ("resolved_clbids", clbids_json (as_clbids a)); ("inserted_clbids", clbids_json (as_inserted a))].
  Lemma original_ok a rest : jget (fixed a JNull +++ rest) "original" = jget rest "original".
  Proof. reflexivity. Qed.
  Definition label_words (a : assertion) : string := match as_label a with None | Some "" => "" | Some l => pieces [" [label: """; l; """]"] end.
  Definition original_words (a : assertion) : string :=
    match as_original a with
    | None | Some SNone => ""
    | Some s => match s with
                | SBool _ | SInt _ => pieces [" [via "; shown_scalar repr true s; "]"]
                | _ => if shown_scalar repr false s =? str_of_dec (as_expected a) then "" else pieces [" [via "; shown_scalar repr true s; "]"]
                end
    end.
  Lemma tail_ok a : let rest := text_entry "label" (as_label a) +++ text_entry "message" (as_message a) +++ original_entry (jdec (as_expected a)) (as_original a) in
    match jget rest "original" with Some v => " [via " ++ pyrepr repr dtext v ++ "]" | None => "" end = original_words a /\ label_text repr dtext rest = label_words a /\
    jget rest "in_progress_clbids" = None.
  Proof.
    cbv zeta.
    assert (L : text_entry "label" (as_label a) = [] /\ label_words a = "" \/ exists s, s <> "" /\ text_entry "label" (as_label a) = [("label", JStr s)] /\ label_words a = pieces [" [label: """; s; """]"]).
    { unfold text_entry, label_words. destruct (as_label a) as [[|c s]|]; cbn [String.eqb]; [left; split; reflexivity|right; eexists; split; [|split; reflexivity]; discriminate|left; split; reflexivity]. }
    assert (M : text_entry "message" (as_message a) = [] \/ exists s, text_entry "message" (as_message a) = [("message", JStr s)]).
    { unfold text_entry. destruct (as_message a) as [s|]; [|left; reflexivity]. destruct (s =? ""); [left; reflexivity|right; eexists; reflexivity]. }
    assert (O : original_entry (jdec (as_expected a)) (as_original a) = [] /\ original_words a = "" \/
                exists j, original_entry (jdec (as_expected a)) (as_original a) = [("original", j)] /\ original_words a = " [via " ++ pyrepr repr dtext j ++ "]").
    { unfold original_entry, original_words, jdec. destruct (as_original a) as [s|]; [|left; split; reflexivity].
      destruct s as [|b|z|d|t|g|o]; cbn [scalar_json shown_scalar jdec]; try (left; split; reflexivity);
      try (right; eexists; split; [reflexivity|]; texts; first [destruct b; reflexivity|reflexivity]);
      unfold jdec; destruct (_ =? str_of_dec (as_expected a)); try (left; split; reflexivity); right; eexists; (split; [reflexivity|]); texts; reflexivity. }
    destruct L as [(L1 & L2)|(ls & LN & L1 & L2)]; destruct M as [M1|(ms & M1)]; destruct O as [(O1 & O2)|(oj & O1 & O2)];
    rewrite L1, M1, O1, L2, O2; unfold label_text; look; (split; [reflexivity|split; [|reflexivity]]); try reflexivity;
    destruct ls as [|c ls]; try contradiction; cbn [String.eqb negb]; texts; reflexivity.
  Qed.
  Lemma assertion_ok indent inserted a j : assertion_json a = Ok j ->
    gives (assertion_printable transcript a) (assertion_lines repr quote g4 dtext transcript paths ranks indent inserted a)
      (str_assertion repr quote g4 dtext transcript paths ranks indent inserted j).
  Proof.
    unfold assertion_json. intro H. apply bind_iff in H as (items & HI & H). injection H as <-. apply items_label in HI. subst items.
    destruct (tail_ok a) as (TO & TL & TI). set (rest := text_entry "label" _ +++ _) in *. cbv zeta in TO, TL, TI.
    match goal with |- context [JObj ?x] => set (d := x) end.
    assert (KT : jkey d "type" = Ok (JStr "assertion")) by reflexivity.
    assert (KS : jkey d "status" = Ok (JStr (status_value (as_state a)))) by reflexivity.
    assert (KK : jkey d "key" = Ok (JStr (akey_name (as_key a)))) by reflexivity.
    assert (KR : jget d "resolved" = Some (jopt JNum (as_resolved a))) by reflexivity.
    assert (KE : jkey d "expected" = Ok (JStr (str_of_dec (as_expected a)))) by reflexivity.
    assert (KO : jkey d "operator" = Ok (JStr (operator_name (as_op a)))) by reflexivity.
    assert (KW : jget d "where" = Some (jopt pred_json (as_where a))) by reflexivity.
    assert (KI : jget d "resolved_items" = Some (jstrs (isort str_leb (map (item_label repr) (match as_items a with Some l => l | None => [] end))))) by reflexivity.
    assert (KC : jget d "resolved_clbids" = Some (jstrs (isort str_leb (match as_clbids a with Some l => l | None => [] end)))) by (unfold d; rewrite <- clbids_label; reflexivity).
    assert (KN : jkey d "inserted_clbids" = Ok (jstrs (isort str_leb (match as_inserted a with Some l => l | None => [] end)))) by (unfold d; rewrite <- clbids_label; reflexivity).
    assert (KP : jget d "in_progress_clbids" = None) by (transitivity (jget rest "in_progress_clbids"); [reflexivity|exact TI]).
    assert (KG : jget d "original" = jget rest "original") by reflexivity.
    assert (KL : label_text repr dtext d = label_words a) by (transitivity (label_text repr dtext rest); [reflexivity|exact TL]).
    assert (KA : path_lines quote dtext paths d indent = Ok (path_line quote paths indent (as_path a))) by (apply path_ok; reflexivity).
    assert (KB : rank_prefix repr g4 dtext ranks d = Ok (rank_words g4 dtext ranks (as_rank a) 1 (as_state a))) by (apply rank_ok; reflexivity).
    clearbody d. cbn [str_assertion]. rewrite KT. cbn [bind jis String.eqb Ascii.eqb Bool.eqb]. unfold str_single_assertion.
    rewrite KA, KB, KS, KK, KR, KE, KG, TO, KL, KO. cbn [bind jtext]. rewrite sign_ok. cbn [bind]. clear rest TO TL TI KG.
    unfold assertion_printable, assertion_lines. fold (original_words a). fold (label_words a).
    set (gap := "             ").
    set (far := pieces [pieces [blanks indent; "      "]; gap]).
    match goal with |- context [headed _ (map ?f _)] => set (line := f) end.
    assert (FAR : (spaces indent ++ spaces 6) ++ gap = far) by (unfold far; texts; reflexivity).
    eapply gives_bind2.
    { apply (where_ok d (as_where a) (fun t => [(spaces indent ++ spaces 6) ++ gap ++ "where " ++ t]) []). exact KW. }
    match goal with |- gives _ _ (let! il := ?x in _) => assert (IL : x = Ok (match as_resolved a with Some _ => [pieces [far; "resolved items: ["; String.concat ", " (map repr (isort str_leb (map (item_label repr) (match as_items a with Some l => l | None => [] end)))); "]"]] | None => [] end)) end.
    { destruct (as_resolved a) as [q|]; [|reflexivity]. cbn [jopt]. rewrite KI, jtexts_ok. cbn [bind]. rewrite isort_twice. unfold jstrs. cbn [pystr pyrepr]. rewrite map_map. unfold far. texts. reflexivity. }
    rewrite IL. clear IL. cbn [bind]. rewrite KC, jtexts_ok, KP. cbn [bind]. rewrite isort_twice.
    eapply gives_bind_l.
    { assert (FE : forallb (id_printable transcript) (match as_clbids a with Some l => l | None => [] end) = forallb (id_printable transcript) (isort str_leb (match as_clbids a with Some l => l | None => [] end))).
      { apply eq_true_iff_eq. rewrite !forallb_forall. split; intros F x I; apply F; apply (in_isort str_leb); exact I. }
      rewrite FE. apply (gives_mapr _ _ line). intros k _. rewrite KN. cbn [bind]. rewrite jtexts_ok. cbn [bind]. rewrite row_ok, existsb_sorted, <- existsb_app.
      unfold id_printable, line, far. destruct (row_with transcript k) as [c|].
      - unfold gives, when. rewrite verbose_ok, known_ok. texts. reflexivity.
      - destruct (py_int k) as [z|e]; cbn [bind gives]; [|eexists; reflexivity]. unfold when. texts. reflexivity. }
    f_equal. f_equal. cbn [app]. f_equal; [|f_equal; [|f_equal]].
    - rewrite mark_ok. destruct (operator_name (as_op a) =? "EqualTo") eqn:E; cbn [jis]; rewrite E; destruct (as_resolved a) as [q|]; cbn [jopt pystr pyrepr]; texts; reflexivity.
    - destruct (as_where a); [|reflexivity]. f_equal. unfold far. texts. reflexivity.
    - destruct (map line _) eqn:E; cbn [headed]; [reflexivity|]. f_equal. unfold far. texts. reflexivity.
  Qed.

  Notation assertion_said := (assertion_lines repr quote g4 dtext transcript paths ranks).
  Notation any_said := (any_lines repr quote g4 dtext transcript paths ranks).
  Notation str_any := (str_assertion repr quote g4 dtext transcript paths ranks).
  Lemma assertion_json_true a j : assertion_json a = Ok j -> jtrue j = true.
  Proof. unfold assertion_json. intro H. apply bind_iff in H as (items & HI & H). injection H as <-. reflexivity. Qed.
  Lemma any_ok indent inserted a j : any_json a = Ok j -> gives (any_printable transcript a) (any_said indent inserted a) (str_any indent inserted j).
  Proof.
    destruct a as [x|p c t [e|]|p c t]; cbn [any_json any_printable any_lines]; intro H.
    - apply assertion_ok. exact H.
    - apply bind_iff in H as (jt & HT & H). apply bind_iff in H as (je & HE & H). injection H as <-. cbn [str_assertion]. look.
      rewrite (path_ok _ indent p) by reflexivity. cbn [bind]. rewrite condition_ok. cbn [bind].
      assert (R := expr_json_result c). destruct (expr_json_dict c) as (cd & E). rewrite E in *. look. cbn [jobj bind] in R. rewrite R. look.
      eapply gives_bind; [apply assertion_ok; exact HT|]. rewrite (assertion_json_true _ _ HE). rewrite <- (andb_true_r (assertion_printable transcript e)).
      eapply gives_bind; [eapply gives_bind_l; [apply assertion_ok; exact HE|reflexivity]|].
      unfold gives. rewrite then_ok, else_ok. texts. reflexivity.
    - apply bind_iff in H as (jt & HT & H). cbn [bind] in H. injection H as <-. cbn [str_assertion]. look.
      rewrite (path_ok _ indent p) by reflexivity. cbn [bind]. rewrite condition_ok. cbn [bind].
      assert (R := expr_json_result c). destruct (expr_json_dict c) as (cd & E). rewrite E in *. look. cbn [jobj bind] in R. rewrite R. look.
      eapply gives_bind; [apply assertion_ok; exact HT|]. look. unfold gives. rewrite then_ok, else_ok. texts. reflexivity.
    - apply bind_iff in H as (jt & HT & H). injection H as <-. cbn [str_assertion]. look.
      rewrite (path_ok _ indent p) by reflexivity. cbn [bind]. rewrite dyn_condition_ok. cbn [bind].
      assert (R := dexpr_json_result c). assert (EX : exists d, dexpr_json c = JObj d) by (destruct c; eexists; reflexivity). destruct EX as (cd & E). rewrite E in *. look. cbn [jobj bind] in R. rewrite R. look.
      rewrite <- (andb_true_r (assertion_printable transcript t)). eapply gives_bind; [apply assertion_ok; exact HT|]. look. unfold gives. rewrite then_ok, else_ok. texts. reflexivity.
  Qed.
  Lemma mapr_forall2 {A B C} (f : B -> res C) (R : A -> B -> Prop) (b : A -> bool) (g : A -> C) l js :
    Forall2 R l js -> (forall x j, In x l -> R x j -> gives (b x) (g x) (f j)) -> gives (forallb b l) (map g l) (mapr f js).
  Proof.
    induction 1 as [|x j l js E F IH]; intro H; [reflexivity|]. cbn [mapr forallb map]. eapply gives_bind; [apply H; [left; reflexivity|exact E]|].
    eapply gives_bind_l; [apply IH; intros; apply H; [right|]; assumption|reflexivity].
  Qed.
  Lemma anys_ok indent inserted l js : mapr any_json l = Ok js ->
    gives (forallb (any_printable transcript) l) (map (any_said indent inserted) l) (mapr (str_any indent inserted) js).
  Proof. intro H. apply mapr_iff in H. eapply mapr_forall2; [exact H|]. intros x j _. apply any_ok. Qed.
  Lemma mapr_ok_map {A B} (f : A -> res B) g l : (forall x, f x = Ok (g x)) -> mapr f l = Ok (map g l).
  Proof. intro H. induction l as [|x l IH]; [reflexivity|]. cbn [map mapr]. rewrite H. cbn [bind]. rewrite IH. reflexivity. Qed.
  Lemma headed_map {A} h (f : A -> string) (l : list A) : match map f l with [] => [] | _ => h :: map f l end = headed h (map f l).
  Proof. destruct l; reflexivity. Qed.
  Lemma rank_words_empty r m s : (rank_words g4 dtext ranks r m s =? "") = negb ranks.
  Proof. unfold rank_words, when. destruct ranks; [|reflexivity]. rewrite pieces_cons. reflexivity. Qed.
  Lemma query_ok indent k q d : query_json k q = Ok (JObj d) ->
    gives (query_printable transcript q) (query_lines repr quote g4 dtext transcript paths ranks indent k q) (print_query repr quote g4 dtext transcript paths ranks indent d).
  Proof.
    unfold query_json. intro H. apply bind_iff in H as (js & HA & H). injection H as <-.
    match goal with |- gives _ _ (print_query _ _ _ _ _ _ _ _ ?x) => set (d := x) end.
    assert (KS : jkey d "status" = Ok (JStr (status_value (q_status q)))) by reflexivity.
    assert (KW : jget d "where" = Some (jopt pred_json (q_where q))) by reflexivity.
    assert (KL : jget d "limit" = Some (limits_json (q_limit q))) by reflexivity.
    assert (KI : jkey d "inserted" = Ok (jstrs (q_inserted q))) by reflexivity.
    assert (KC : jkey d "claims" = Ok (claims_json (q_node_claims k q))) by reflexivity.
    assert (KF : jkey d "failures" = Ok (claims_json (match k with KRes => q_failures q | _ => [] end))) by reflexivity.
    assert (KA : jkey d "assertions" = Ok (JList js)) by reflexivity.
    assert (KP : path_lines quote dtext paths d indent = Ok (path_line quote paths indent (q_path q))) by (apply path_ok; reflexivity).
    assert (KB : rank_prefix repr g4 dtext ranks d = Ok (rank_words g4 dtext ranks (q_rank q) (q_max_rank q) (q_status q))) by (apply rank_ok; reflexivity).
    clearbody d. unfold print_query. rewrite KP, KB, KS, KI, KC, KF, KA. cbn [bind]. rewrite jtexts_ok. cbn [bind]. unfold claims_json. cbn [jitems bind].
    unfold query_printable, query_lines. rewrite <- andb_assoc.
    eapply gives_bind2.
    { apply (where_ok d (q_where q) (fun t => [spaces indent ++ emoji_of (JStr (status_value (q_status q))) ++ " [" ++ pystr repr dtext (JStr (status_value (q_status q))) ++ "] Given courses matching " ++ t]) []). exact KW. }
    eapply gives_bind; [apply limits_ok; exact KL|].
    rewrite !mapr_map.
    erewrite (mapr_ok_map _ _ (q_node_claims k q)). 2: { intro cl. unfold claim_json. look. rewrite row_ok. reflexivity. }
    erewrite (mapr_ok_map _ _ (match k with KRes => q_failures q | _ => [] end)). 2: { intro cl. unfold claim_json. look. rewrite row_ok. reflexivity. }
    cbn [bind]. eapply gives_bind_l; [apply anys_ok; exact HA|]. rewrite !headed_map, rank_words_empty. f_equal. f_equal. f_equal; [|f_equal; [|f_equal; [|f_equal; [|f_equal]]]].
    - destruct (q_where q); [|reflexivity]. rewrite mark_ok. f_equal. cbn [pystr]. texts. reflexivity.
    - rewrite blanks_ok. reflexivity.
    - fold (q_node_claims k q). f_equal; [rewrite blanks_ok; reflexivity|]. apply map_ext. intro cl. destruct (row_with _ _); [rewrite verbose_ok, known_ok|]; unfold when; texts; reflexivity.
    - f_equal; [rewrite blanks_ok; reflexivity|]. apply map_ext. intro cl. destruct (row_with _ _); unfold course_ident; texts; reflexivity.
    - destruct ranks; cbn [negb]; rewrite ?blanks_ok; reflexivity.
    - rewrite flat_map_concat_map. reflexivity.
  Qed.

  (** ** Parts *)
  Notation said := (report repr quote g4 dtext transcript paths ranks).
  Notation printed := (print_result repr quote g4 dtext transcript paths ranks).
  Lemma describe_ok c size : describe repr dtext (JInt c) size = how_many c size.
  Proof.
    unfold describe, how_many. cbn [pystr]. destruct size as [|[|[|n]]]; cbn [Nat.eqb]; rewrite ?andb_true_r, ?andb_false_r; texts; try reflexivity.
    destruct (c =? 1)%Z; [reflexivity|]. destruct (c =? 2)%Z eqn:E; [reflexivity|]. change (Z.of_nat 2) with 2%Z. rewrite E. reflexivity.
  Qed.
  Lemma spaced_ok two l : item_lines two l = spaced (if two then [] else [""]) l.
  Proof. induction l as [|x [|y l] IH]; [reflexivity|cbn [item_lines spaced app]; rewrite app_nil_r; reflexivity|]. cbn [item_lines spaced] in *. rewrite IH. reflexivity. Qed.
  Lemma statuses_ok items js : Forall2 (fun m x => node_json m = Ok x) items js ->
    mapr (fun x => let! x := jobj x in jkey x "status") js = Ok (map (fun m => JStr (status_value (status_of m))) items).
  Proof.
    induction 1 as [|m x l js E F IH]; [reflexivity|]. cbn [mapr map]. rewrite IH.
    assert (X : (let! d := jobj x in jkey d "status") = Ok (JStr (status_value (status_of m)))); [|rewrite X; reflexivity].
    apply node_inv in E as (rk & R & E). destruct m as [k c|k q|k i items|k i result|k i t f|k i c].
    - subst x. reflexivity.
    - unfold query_json in E. apply bind_iff in E as (a & _ & E). injection E as <-. reflexivity.
    - destruct E as (a & b & _ & _ & ->). reflexivity.
    - destruct E as (a & _ & ->). reflexivity.
    - destruct E as (a & b & _ & _ & ->). reflexivity.
    - subst x. reflexivity.
  Qed.
  Lemma count_finished items : List.length (filter ok_value (map (fun m => JStr (status_value (status_of m))) items)) = List.length (filter (fun x => finished (status_of x)) items).
  Proof. induction items as [|x l IH]; [reflexivity|]. cbn [map filter]. rewrite finished_ok. destruct (finished (status_of x)); cbn [List.length]; rewrite IH; reflexivity. Qed.
  Lemma node_json_obj n j : node_json n = Ok j -> exists x y d, j = JObj ((x, y) :: d).
  Proof.
    intro E. apply node_inv in E as (rk & R & E). destruct n as [k c|k q|k i items|k i result|k i t f|k i c].
    - subst j. do 3 eexists. reflexivity.
    - unfold query_json in E. apply bind_iff in E as (a & _ & E). injection E as <-. do 3 eexists. reflexivity.
    - destruct E as (a & b & _ & _ & ->). do 3 eexists. reflexivity.
    - destruct E as (a & _ & ->). do 3 eexists. reflexivity.
    - destruct E as (a & b & _ & _ & ->). do 3 eexists. reflexivity.
    - subst j. do 3 eexists. reflexivity.
  Qed.
  Lemma node_json_true n j : node_json n = Ok j -> jtrue j = true.
  Proof. intro H. apply node_json_obj in H as (x & y & d & ->). reflexivity. Qed.
  Lemma find_get B (f : json -> B) k v d : jget d k = Some v -> jfind f k d = Some (f v).
  Proof. unfold jget. induction d as [|[a b] d IH]; cbn [jfind]; [discriminate|]. destruct (a =? k); [congruence|exact IH]. Qed.
  Lemma elsewhere_ok only d p : jget d "path" = Some (jstrs p) -> is_elsewhere only d = Ok (negb (asked_for only p)).
  Proof. intro H. destruct only as [[|x q]|]; [reflexivity| |reflexivity]. unfold is_elsewhere, jkey. rewrite H. cbn [key bind]. rewrite jtexts_ok. reflexivity. Qed.
  Lemma base_path n rk rest : jget (base_json (path_of n) (kind_of n) (type_of_node n) (status_of n) rk (overridden n) +++ rest) "path" = Some (jstrs (path_of n)).
  Proof. reflexivity. Qed.

  Ltac kind := cbn [bind jis String.eqb Ascii.eqb Bool.eqb].
  Theorem node_report n : forall j only indent, node_json n = Ok j -> gives (printable transcript only n) (said only indent n) (printed only indent j).
  Proof.
    induction n as [k r|k q|k i items IH|k i result IH|k i t f IHT IHF|k i c] using node_induction; intros j only indent H; assert (HJ := H); apply node_inv in H as ([rk mx] & R & H).
    - subst j. cbn [printable report]. unfold course_json at 1. cbn [print_result]. look. apply course_ok.
    - cbn [printable report]. assert (exists d, j = JObj d /\ jget d "type" = Some (JStr "query")) as (d & -> & TY).
      { unfold query_json in H. apply bind_iff in H as (a & _ & H). injection H as <-. eexists. split; reflexivity. }
      cbn [print_result]. unfold jkey. rewrite TY. look. apply query_ok. exact H.
    - destruct H as (js & au & F & A & ->). unfold based. set (n := NCount k i items) in *.
      set (d := base_json _ _ _ _ _ _ +++ _).
      assert (KT : jkey d "type" = Ok (JStr "count")) by reflexivity. assert (KI : jget d "items" = Some (JList js)) by reflexivity.
      assert (KS : jkey d "status" = Ok (JStr (status_value (status_of n)))) by reflexivity.
      assert (KC : jkey d "count" = Ok (JInt (n_count i))) by reflexivity. assert (KA : jkey d "audit" = Ok (JList au)) by reflexivity.
      assert (KU : jkey d "audit_status" = Ok (JStr (status_value (count_audit_status i)))) by reflexivity.
      assert (KP := path_ok d indent (n_path i) eq_refl). assert (KB := rank_ok d rk mx (status_of n) eq_refl eq_refl eq_refl).
      clearbody d. cbn [print_result]. rewrite KT. kind. assert (KJ : jkey d "items" = Ok (JList js)) by (unfold jkey; rewrite KI; reflexivity). rewrite KJ. cbn [bind jitems].
      assert (W : node_rank_words g4 dtext ranks n = rank_words g4 dtext ranks rk mx (status_of n)) by (unfold node_rank_words; rewrite R; reflexivity).
      subst n. cbn [printable report]. rewrite W. 
      eapply gives_bind.
      + unfold count_lines. rewrite KP, KB, KS, KC, KA. cbn [bind]. rewrite (statuses_ok _ _ F). cbn [bind]. rewrite KU. cbn [bind jitems].
        instantiate (1 := path_line quote paths indent (n_path i) +++ [_] +++ match n_audits i with [] => [] | _ => _ end).
        apply mapr_iff in A as A'. destruct A' as [|a x la lx E G].
        * cbn [jtrue forallb bind]. rewrite count_finished. reflexivity.
        * cbn [jtrue]. eapply gives_bind_l; [eapply gives_bind_l; [apply anys_ok; exact A|reflexivity]|]. rewrite count_finished. reflexivity.
      + unfold jsub. rewrite (find_get _ _ _ _ _ KI). eapply gives_bind_l.
        * eapply mapr_forall2; [exact F|]. intros x y X E. apply IH; assumption.
        * f_equal. rewrite spaced_ok, <- (Forall2_len _ _ _ F).
          assert (DS := describe_ok (n_count i) (List.length items)). rewrite DS, mark_ok. rewrite <- !app_assoc. cbn [pystr].
          f_equal. f_equal; [texts; reflexivity|]. f_equal.
          destruct (n_audits i); [reflexivity|]. rewrite flat_map_concat_map. texts. reflexivity.
    - destruct H as (x & X & ->). unfold based. set (n := NReq k i result) in *. set (d := base_json _ _ _ _ _ _ +++ _).
      assert (KT : jkey d "type" = Ok (JStr "requirement")) by reflexivity. assert (KR : jget d "result" = Some x) by reflexivity.
      assert (KS : jkey d "status" = Ok (JStr (status_value (status_of n)))) by reflexivity.
      assert (KN : jkey d "name" = Ok (JStr (e_name i))) by reflexivity. assert (KA : jkey d "is_audited" = Ok (JBool (e_audited i))) by reflexivity.
      assert (KP := path_ok d indent (e_path i) eq_refl). assert (KB := rank_ok d rk mx (status_of n) eq_refl eq_refl eq_refl).
      assert (KE := elsewhere_ok only d (e_path i) eq_refl).
      clearbody d. cbn [print_result]. rewrite KT. kind. rewrite KE. cbn [bind].
      assert (W : node_rank_words g4 dtext ranks n = rank_words g4 dtext ranks rk mx (status_of n)) by (unfold node_rank_words; rewrite R; reflexivity).
      assert (L : requirement_lines repr quote g4 dtext paths ranks indent d = Ok (path_line quote paths indent (e_path i) +++
        [pieces [pieces [blanks indent; node_rank_words g4 dtext ranks n]; mark (status_of n); " Requirement("; e_name i; ") ["; status_value (status_of n); "]"]])).
      { unfold requirement_lines. rewrite KP, KB, KS, KN. cbn [bind pystr]. rewrite mark_ok, W. texts. reflexivity. }
      subst n. cbn [printable report]. destruct (asked_for only (e_path i)); cbn [negb]; [|reflexivity].
      rewrite L, KA. cbn [bind jtrue]. destruct (e_audited i).
      + rewrite KB. cbn [bind]. unfold gives. rewrite W. rewrite <- app_assoc. texts. reflexivity.
      + unfold jsub. rewrite (find_get _ _ _ _ _ KR). destruct result as [m|].
        * rewrite (node_json_true _ _ X). eapply gives_bind_l; [eapply IH; [reflexivity|exact X]|]. rewrite <- app_assoc. reflexivity.
        * subst x. cbn [jtrue bind]. unfold gives. rewrite <- app_assoc. reflexivity.
    - destruct H as (a & b & HT & HF & ->). unfold based. set (n := NCond k i t f) in *. set (d := base_json _ _ _ _ _ _ +++ _).
      assert (KT : jkey d "type" = Ok (JStr "conditional")) by reflexivity. assert (K1 : jget d "when_true" = Some a) by reflexivity. assert (K2 : jget d "when_false" = Some b) by reflexivity.
      assert (KC : jkey d "condition" = Ok (expr_json (d_cond i))) by reflexivity.
      assert (KP := path_ok d indent (d_path i) eq_refl). assert (KB := rank_ok d rk mx (status_of n) eq_refl eq_refl eq_refl).
      clearbody d. cbn [print_result]. rewrite KT. kind. rewrite KP, KB, KC. cbn [bind]. rewrite condition_ok. cbn [bind]. unfold jsub.
      rewrite (find_get _ _ _ _ _ K1), (find_get _ _ _ _ _ K2).
      assert (W : node_rank_words g4 dtext ranks n = rank_words g4 dtext ranks rk mx (status_of n)) by (unfold node_rank_words; rewrite R; reflexivity).
      subst n. cbn [printable report]. rewrite W. eapply gives_bind; [apply IHT; exact HT|]. destruct f as [m|].
      + rewrite (node_json_true _ _ HF). eapply gives_bind_l; [eapply gives_bind_l; [eapply IHF; [reflexivity|exact HF]|reflexivity]|]. texts. reflexivity.
      + subst b. cbn [jtrue bind]. unfold gives. texts. reflexivity.
    - subst j. unfold based. set (n := NProf k i c) in *. set (d := base_json _ _ _ _ _ _ +++ _).
      assert (KT : jkey d "type" = Ok (JStr "proficiency")) by reflexivity.
      assert (KS : jkey d "status" = Ok (JStr (status_value (status_of n)))) by reflexivity.
      assert (KN : jkey d "proficiency" = Ok (JStr (f_proficiency i))) by reflexivity.
      assert (KC : jkey d "course" = Ok (match c with Some (k, x) => course_json k x | None => JNull end)) by reflexivity.
      assert (KP := path_ok d indent (f_path i) eq_refl). assert (KB := rank_ok d rk mx (status_of n) eq_refl eq_refl eq_refl).
      clearbody d. cbn [print_result]. rewrite KT. kind. unfold print_proficiency. rewrite KP, KB, KS, KN, KC. cbn [bind].
      assert (W : node_rank_words g4 dtext ranks n = rank_words g4 dtext ranks rk mx (status_of n)) by (unfold node_rank_words; rewrite R; reflexivity).
      assert (M : (if jis (JStr (status_value (status_of n))) "waived" then "💜 [wvd]" else if jis (JStr (status_value (status_of n))) "done" then "💚 [ ok]" else "🌀      ") = met_mark (status_of n)) by (destruct (status_of n); reflexivity).
      rewrite M. subst n. cbn [printable report]. rewrite W. destruct c as [[k' r]|]; [|eexists; reflexivity].
      assert (S1 : (let! cd := jobj (course_json k' r) in jkey cd "status") = Ok (JStr (status_value (c_status k' r)))) by reflexivity.
      rewrite S1. cbn [bind]. rewrite finished_ok. destruct (finished (c_status k' r)).
      + rewrite course_ok. cbn [bind pystr]. unfold gives. texts. reflexivity.
      + cbn [bind pystr]. unfold gives. texts. reflexivity.
  Qed.

  (** ** The area *)
  Lemma area_inv v j : area_json v = Ok j -> exists rk mx x, area_rank v = Ok (rk, mx) /\ node_json (v_result v) = Ok x /\ exists d, j = JObj d /\
    jget d "type" = Some (JStr "area") /\ jget d "path" = Some (jstrs ["$"]) /\ jget d "name" = Some (JStr (u_name (v_area v))) /\
    jget d "status" = Some (JStr (status_value (area_status v))) /\ jget d "rank" = Some (JNum rk) /\ jget d "max_rank" = Some (JNum mx) /\
    jget d "gpa" = Some (JStr (str_of_dec (area_gpa v))) /\ jget d "limit" = Some (limits_json (u_limit (v_area v))) /\ jget d "result" = Some x.
  Proof.
    intro H. unfold area_json in H. apply bind_iff in H as ([r m] & R & H). apply bind_iff in H as (x & E & H). injection H as <-.
    exists r, m, x. split; [exact R|]. split; [exact E|]. eexists. split; [reflexivity|]. repeat (split; [reflexivity|]). reflexivity.
  Qed.
  Theorem area_said only v j : area_json v = Ok j ->
    gives (area_printable transcript only v) (area_report repr quote g4 dtext transcript paths ranks only v) (printed only 0 j).
  Proof.
    intro H. apply area_inv in H as (rk & mx & x & R & E & d & -> & KT & KP & KN & KS & KR & KM & KG & KL & KX).
    cbn [print_result]. unfold jkey at 1. rewrite KT. cbn [key]. kind. unfold area_printable. eapply gives_bind.
    - unfold area_lines. rewrite (path_ok d 0 ["$"] KP). unfold jkey. rewrite KN, KS, KR, KM, KG. cbn [key bind]. eapply gives_bind_l; [apply limits_ok; exact KL|reflexivity].
    - unfold jsub. rewrite (find_get _ _ _ _ _ KX). eapply gives_bind_l; [apply node_report; exact E|]. unfold area_report. rewrite R. cbn [pystr pyrepr]. rewrite <- !app_assoc. texts. reflexivity.
  Qed.
  Lemma claimed_path_ok area p : claimed_path (("%" ++ area) :: p) = String.concat " > " (area :: names_of p).
  Proof.
    unfold claimed_path. change ("%" ++ area) with (String "%" area). cbn [flat_map app]. f_equal. f_equal. unfold names_of.
    induction p as [|s p IH]; [reflexivity|]. cbn [flat_map filter]. destruct s as [|c t]; [exact IH|]. rewrite IH.
    destruct (Ascii.eqb_spec c "%"); [subst c; reflexivity|]. destruct c as [[|] [|] [|] [|] [|] [|] [|] [|]]; try reflexivity. exfalso. apply n. reflexivity.
  Qed.
  Theorem output_ok only v j : area_json v = Ok j ->
    gives (output_printable transcript only v) (output repr quote g4 dtext transcript paths ranks only v)
      (summarize repr quote g4 dtext transcript paths ranks j (keyed_claims v) only).
  Proof.
    intro H. unfold summarize, output_printable. eapply gives_bind; [apply area_said; exact H|].
    assert (S1 : match only with None | Some [] => false | _ => true end = negb (claims_shown only)) by (destruct only as [[|]|]; reflexivity).
    rewrite S1. unfold output. destruct (claims_shown only); cbn [negb orb]; [|reflexivity].
    apply area_inv in H as (rk & mx & x & R & E & d & -> & _ & _ & KN & _). cbn [jobj bind]. unfold jkey. rewrite KN. cbn [key bind].
    eapply gives_bind_l.
    - unfold claims_printable. eapply (gives_mapr _ (fun kc => forallb (fun _ : path => match row_with transcript (fst kc) with Some _ => true | None => false end) (snd kc)) (fun kc => map (fun p => [claim_line transcript (u_name (v_area v)) (fst kc) p; line_end]) (snd kc))).
      intros [id ps] _. cbn [fst snd]. apply (gives_mapr _ (fun _ => match row_with transcript id with Some _ => true | None => false end)). intros p _. rewrite row_ok. unfold claim_line. destruct (row_with transcript id) as [c|]; [|eexists; reflexivity].
      cbn [key bind pystr]. unfold gives. rewrite with_term_ok, claimed_path_ok. texts. reflexivity.
    - assert (X : List.concat (List.concat (map (fun kc : string * list path => map (fun p => [claim_line transcript (u_name (v_area v)) (fst kc) p; line_end]) (snd kc)) (keyed_claims v))) = claims_section transcript v).
      { unfold claims_section. induction (keyed_claims v) as [|kc l IH]; [reflexivity|]. cbn [map List.concat flat_map]. rewrite concat_app. f_equal; [rewrite flat_map_concat_map; reflexivity|exact IH]. }
      rewrite X. reflexivity.
  Qed.
End Text.
