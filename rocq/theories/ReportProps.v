(** Property theorems about the printed report (C129-C134). *)
From Coq Require Import List ZArith QArith Bool String Ascii Permutation Lia.
From Verif Require Import Prelude Dec Status Course Claims Exceptions Op Context CondExpr Paths Keys Predicate Limit Apply Assertion Query CourseRule Tree TreeSpec Area ListFacts Solve SolveProps TreeSolProps AreaProps Json JsonSpec JsonProofs JsonProps StudentProofs Report ReportSpec ReportProofs.
Import ListNotations.
Local Open Scope string_scope.
Local Infix "+++" := (@app _) (at level 61, right associativity).

(** ** C129 *)

(** The report is exactly what the description of it says of the result, for any way of writing
    numbers and of quoting texts; where the description gives none, printing fails. *)
Theorem printed_report_exact :
  forall repr quote g4 dtext transcript paths ranks only v j, area_json v = Ok j ->
  (output_printable transcript only v = true ->
     print_area repr quote g4 dtext paths ranks transcript only v = Ok (output repr quote g4 dtext transcript paths ranks only v)) /\
  (output_printable transcript only v = false -> exists e, print_area repr quote g4 dtext paths ranks transcript only v = Err e).
Proof.
  intros repr quote g4 dtext transcript paths ranks only v j H. assert (X := output_ok repr quote g4 dtext transcript paths ranks only v j H).
  unfold print_area. rewrite H. cbn [bind]. split; intro E; rewrite E in X; exact X.
Qed.
Print Assumptions printed_report_exact.

(** ** C130 *)

(** Every part that is shown has its own report within that of the whole, four columns further in
    for each step; what is below it is not cut short. *)
Section Text.
  Variables (repr quote : string -> string) (g4 dtext : Q -> string).
  Variable transcript : list course.
  Variables paths ranks : bool.
  Notation said := (report repr quote g4 dtext transcript paths ranks).
  Lemma within {A} (x y a b c d : list A) : x = a +++ y +++ b -> c +++ x +++ d = (c +++ a) +++ y +++ (b +++ d).
  Proof. intros ->. rewrite <- !app_assoc. reflexivity. Qed.
  Lemma spaced_within gap l k x : nth_error l k = Some x -> exists a b, spaced gap l = a +++ x +++ b.
  Proof.
    revert k. induction l as [|y l IH]; intros [|k] H; try discriminate; cbn [nth_error spaced] in *.
    - injection H as ->. exists []. eexists. reflexivity.
    - destruct (IH k H) as (a & b & E). rewrite E. exists (y +++ (match l with [] => [] | _ => gap end) +++ a), b. rewrite <- !app_assoc. reflexivity.
  Qed.
  Theorem parts_are_printed : forall l only n indent below m,
    shown only n l = Some below -> part_at n l = Some m ->
    exists a b, said only indent n = a +++ said below (indent + 4 * List.length l) m +++ b.
  Proof.
    induction l as [|s l IH]; intros only n indent below m S P.
    - cbn [part_at shown] in *. injection P as <-. exists [], []. cbn [List.length app]. rewrite Nat.mul_0_r, Nat.add_0_r, app_nil_r.
      destruct n; try congruence. destruct (asked_for only (e_path _)); congruence.
    - cbn [part_at shown] in *. destruct (part n s) as [x|] eqn:PS; [|discriminate].
      assert (D : forall k, (k + 4 * List.length (s :: l) = k + 4 + 4 * List.length l)%nat) by (intro; cbn [List.length]; lia). rewrite D.
      destruct n as [k r|k q|k i items|k i result|k i t f|k i c]; destruct s; cbn [part] in PS; try discriminate; try (destruct c as [[? ?]|]; discriminate).
      + destruct (IH _ _ (indent + 4)%nat _ _ S P) as (a & b & E).
        assert (NT : nth_error (map (said only (indent + 4)) items) k0 = Some (said only (indent + 4) x)) by (apply map_nth_error; exact PS).
        cbn [report]. destruct (spaced_within (if Nat.eqb (List.length items) 2 then [] else [""]) _ _ _ NT) as (a' & b' & E'). rewrite E'. rewrite E.
        match goal with |- exists a b, ?p +++ ?q +++ ?r +++ _ = _ => exists (p +++ q +++ r +++ a' +++ a), (b +++ b') end. rewrite <- !app_assoc. reflexivity.
      + subst result. destruct (asked_for only (e_path i) && negb (e_audited i)) eqn:AF; [|discriminate]. apply andb_prop in AF as [AF AU].
        cbn [report]. rewrite AF. destruct (e_audited i); [discriminate|]. destruct (IH _ _ (indent + 4)%nat _ _ S P) as (a & b & E). rewrite E.
        match goal with |- exists a b, ?p +++ ?q +++ _ = _ => exists (p +++ q +++ a), b end. rewrite <- !app_assoc. reflexivity.
      + injection PS as ->. destruct (IH _ _ (indent + 4)%nat _ _ S P) as (a & b & E). cbn [report]. rewrite E.
        match goal with |- exists a b, ?p +++ ?q +++ (_ +++ _ +++ _) +++ ?r = _ => exists (p +++ q +++ a), (b +++ r) end. rewrite <- !app_assoc. reflexivity.
      + subst f. destruct (IH _ _ (indent + 4)%nat _ _ S P) as (a & b & E). cbn [report]. rewrite E.
        match goal with |- exists a b, ?p +++ ?q +++ ?r +++ (?w :: _) = _ => exists (p +++ q +++ r +++ [w] +++ a), b end. rewrite <- !app_assoc. reflexivity.
      + destruct c as [[k' r]|]; [|discriminate]. injection PS as <-. destruct (finished (c_status k' r)) eqn:FI; [|discriminate].
        destruct (IH _ _ (indent + 4)%nat _ _ S P) as (a & b & E). cbn [report] in *. rewrite FI, E.
        match goal with |- exists a b, ?p +++ ?q +++ _ = _ => exists (p +++ q +++ a), b end. rewrite <- !app_assoc. reflexivity.
  Qed.

  Lemma shown_all l : forall n k i r, part_at n l = Some (NReq k i r) -> forallb (fun x => negb (by_hand x)) (above n l) = true -> shown None n l = Some None.
  Proof.
    induction l as [|s l IH]; intros n k i r P A; cbn [part_at shown above forallb] in *; [injection P as ->; reflexivity|].
    destruct (part n s) as [x|] eqn:PS; [|discriminate]. apply andb_prop in A as [A B]. specialize (IH _ _ _ _ P B).
    destruct n as [k' r'|k' q|k' i' items|k' i' result|k' i' t f|k' i' [[k2 r2]|]]; try exact IH.
    - cbn [by_hand] in A. cbn [asked_for andb]. rewrite A. exact IH.
    - destruct s; try discriminate. cbn [part] in PS. injection PS as <-. destruct l; discriminate.
  Qed.
  Lemma shown_at_top l p : forall n k i r, part_at n l = Some (NReq k i r) -> forallb (fun x => negb (is_requirement x)) (above n l) = true ->
    e_path i = p -> exists below, shown (Some p) n l = Some below.
  Proof.
    induction l as [|s l IH]; intros n k i r P A E; cbn [part_at shown above forallb] in *.
    - injection P as ->. cbn [asked_for]. rewrite E, firstn_all. exists (Some p). destruct (path_eqb p p) eqn:X; [reflexivity|]. exfalso.
      assert (Y : forall q, path_eqb q q = true); [|rewrite Y in X; discriminate]. intro q. induction q as [|a q IHq]; [reflexivity|]. cbn. rewrite String.eqb_refl. exact IHq.
    - destruct (part n s) as [x|] eqn:PS; [|discriminate]. apply andb_prop in A as [A B].
      destruct n as [k' r'|k' q|k' i' items|k' i' result|k' i' t f|k' i' [[k2 r2]|]]; try (eapply IH; eassumption); try discriminate.
      + exists None. eapply shown_all; [exact P|]. rewrite forallb_forall in *. intros y Y. apply B in Y. destruct y; try reflexivity. discriminate.
      + destruct s; try discriminate. cbn [part] in PS. injection PS as <-. destruct l; discriminate.
  Qed.

  Lemma line_within only k i r indent : asked_for only (e_path i) = true -> In (requirement_line g4 dtext ranks indent (NReq k i r) i) (said only indent (NReq k i r)).
  Proof.
    intro A. cbn [report]. rewrite A. apply in_or_app. right. apply in_or_app. left. left. unfold requirement_line. rewrite !pieces_cons, !pieces_nil, !append_nil_r, !append_assoc. reflexivity.
  Qed.
  Lemma shown_asked l : forall only n k i r below, part_at n l = Some (NReq k i r) -> shown only n l = Some below -> asked_for below (e_path i) = true.
  Proof.
    induction l as [|s l IH]; intros only n k i r below P S; cbn [part_at shown] in *.
    - injection P as ->. destruct (asked_for only (e_path i)) eqn:A; congruence.
    - destruct (part n s) as [x|]; [|discriminate].
      destruct n as [k' r'|k' q|k' i' items|k' i' result|k' i' t f|k' i' [[k2 r2]|]]; try (eapply IH; eassumption).
      + destruct (_ && _); [eapply IH; eassumption|discriminate].
      + destruct (finished _); [eapply IH; eassumption|discriminate].
  Qed.
  Lemma shown_line l only n k i r below indent : part_at n l = Some (NReq k i r) -> shown only n l = Some below ->
    In (requirement_line g4 dtext ranks (indent + 4 * List.length l) (NReq k i r) i) (said only indent n).
  Proof.
    intros P S. destruct (parts_are_printed _ _ _ indent _ _ S P) as (a & b & ->). apply in_or_app. right. apply in_or_app. left.
    apply line_within. eapply shown_asked; eassumption.
  Qed.
  (** Every requirement that is not below one audited by hand is printed with its name and status. *)
  Theorem every_requirement_is_printed : forall v l k i r, part_at (v_result v) l = Some (NReq k i r) ->
    forallb (fun x => negb (by_hand x)) (above (v_result v) l) = true ->
    In (requirement_line g4 dtext ranks (4 * List.length l) (NReq k i r) i) (area_report repr quote g4 dtext transcript paths ranks None v).
  Proof.
    intros v l k i r P A. unfold area_report. do 4 (apply in_or_app; right). exact (shown_line l None _ k i r None 0 P (shown_all _ _ _ _ _ P A)).
  Qed.

  (** ** C132 *)

  (** A requirement that lies in no other is printed when its path is asked for. *)
  Theorem outer_requirement_at_the_path_is_printed : forall v l k i r, part_at (v_result v) l = Some (NReq k i r) ->
    forallb (fun x => negb (is_requirement x)) (above (v_result v) l) = true ->
    In (requirement_line g4 dtext ranks (4 * List.length l) (NReq k i r) i) (area_report repr quote g4 dtext transcript paths ranks (Some (e_path i)) v).
  Proof.
    intros v l k i r P A. unfold area_report. do 4 (apply in_or_app; right). destruct (shown_at_top l (e_path i) _ _ _ _ P A eq_refl) as (below & S).
    exact (shown_line l _ _ k i r below 0 P S).
  Qed.
  (** A requirement elsewhere is left out with all that is in it. *)
  Theorem requirement_elsewhere_is_left_out : forall p k i r indent, firstn (List.length p) (e_path i) <> p -> said (Some p) indent (NReq k i r) = [].
  Proof.
    intros p k i r indent N. cbn [report asked_for].
    assert (Y : forall a b, path_eqb a b = true -> a = b).
    { clear. induction a as [|x a IH]; intros [|y b] H; try discriminate; [reflexivity|]. cbn in H. apply andb_prop in H as [H1 H2]. apply String.eqb_eq in H1. subst. f_equal. apply IH. exact H2. }
    destruct (path_eqb (firstn (List.length p) (e_path i)) p) eqn:E; [|reflexivity]. apply Y in E. contradiction.
  Qed.
End Text.
Print Assumptions parts_are_printed.
Print Assumptions every_requirement_is_printed.
Print Assumptions outer_requirement_at_the_path_is_printed.
Print Assumptions requirement_elsewhere_is_left_out.

(** ** C131 *)

(** A result can be printed exactly when every part that is shown can: its clauses have no
    negation, a proficiency has a course, and the ids that were counted are on the transcript or numbers;
    and when every claim is of a course on the transcript. *)
Theorem printable_exactly_when_its_parts_are :
  forall transcript n only, printable transcript only n = true <->
  forall l m below, part_at n l = Some m -> shown only n l = Some below -> own_printable transcript m = true.
Proof.
  intros transcript n. induction n as [k r|k q|k i items IH|k i result IH|k i t f IHT IHF|k i c] using node_induction; intro only.
  - split; [|reflexivity]. intros _ [|s l] m below P S; cbn [part_at] in P; [injection P as <-; reflexivity|]. destruct s; discriminate.
  - cbn [printable]. split.
    + intros Q [|s l] m below P S; cbn [part_at] in P; [injection P as <-; exact Q|]. destruct s; discriminate.
    + intro H. exact (H [] _ only eq_refl eq_refl).
  - cbn [printable]. split.
    + intro Q. apply andb_prop in Q as [A B]. rewrite forallb_forall in B. intros [|s l] m below P S; cbn [part_at shown] in *; [injection P as <-; exact A|].
      destruct s; try discriminate. cbn [part] in *. destruct (nth_error items k0) as [x|] eqn:E; [|discriminate]. apply nth_error_In in E. eapply (IH x E); [apply B; exact E|exact P|exact S].
    + intro H. apply andb_true_intro. split; [exact (H [] _ only eq_refl eq_refl)|]. apply forallb_forall. intros x X. apply (IH x X). intros l m below P S.
      apply In_nth_error in X as (j & E). apply (H (ToItem j :: l) m below); cbn [part_at shown part]; rewrite E; assumption.
  - cbn [printable]. destruct (asked_for only (e_path i)) eqn:AF.
    + split.
      * intros Q [|s l] m below P S; cbn [part_at shown] in *; [injection P as <-; reflexivity|]. destruct s; try discriminate. cbn [part] in *.
        destruct result as [x|]; [|discriminate]. rewrite AF in S. destruct (e_audited i); [discriminate|]. eapply (IH x eq_refl only); [exact Q|exact P|exact S].
      * intro H. destruct (e_audited i) eqn:AU; [reflexivity|]. destruct result as [x|]; [|reflexivity]. apply (IH x eq_refl). intros l m below P S.
        apply (H (ToResult :: l) m below); cbn [part_at shown part]; [exact P|]. rewrite AF, AU. exact S.
    + split; [|reflexivity]. intros _ [|s l] m below P S; cbn [part_at shown] in *; rewrite AF in S; [discriminate|]. destruct (part _ s); discriminate.
  - cbn [printable]. split.
    + intro Q. apply andb_prop in Q as [A B]. intros [|s l] m below P S; cbn [part_at shown] in *; [injection P as <-; reflexivity|].
      destruct s; try discriminate; cbn [part] in *; [eapply (IHT None); [exact A|exact P|exact S]|]. destruct f as [x|]; [|discriminate]. eapply (IHF x eq_refl None); [exact B|exact P|exact S].
    + intro H. apply andb_true_intro. split.
      * apply IHT. intros l m below P S. apply (H (ToTrue :: l) m below); cbn [part_at shown part]; assumption.
      * destruct f as [x|]; [|reflexivity]. apply (IHF x eq_refl). intros l m below P S. apply (H (ToFalse :: l) m below); cbn [part_at shown part]; assumption.
  - cbn [printable]. split.
    + intros Q [|s l] m below P S; cbn [part_at shown] in *; [injection P as <-; cbn [own_printable]; destruct c; [reflexivity|discriminate]|].
      destruct c as [[k' r]|]; [|discriminate]. destruct s; try discriminate. cbn [part] in *. destruct l as [|s l]; cbn [part_at] in P; [injection P as <-; reflexivity|]. destruct s; discriminate.
    + intro H. specialize (H [] _ only eq_refl eq_refl). cbn [own_printable] in H. destruct c; [reflexivity|discriminate].
Qed.
Print Assumptions printable_exactly_when_its_parts_are.
Lemma row_found cs k : row_with cs k <> None <-> exists c, In c cs /\ c_clbid c = k.
Proof.
  unfold row_with.
  assert (X : forall l o, fold_left (fun found c => if c_clbid c =? k then Some c else found) l o <> None <-> o <> None \/ exists c, In c l /\ c_clbid c = k).
  { induction l as [|x l IH]; intro o; cbn [fold_left In]; [split; [tauto|intros [H|(c & [] & _)]; exact H]|]. rewrite IH. destruct (String.eqb_spec (c_clbid x) k) as [E|E].
    - split; [right; exists x; auto|left; discriminate].
    - split; intros [H|(c & I1 & F)]; auto; right; [exists c; auto|]. destruct I1 as [->|I1]; [contradiction|eauto]. }
  rewrite X. split; [intros [H|H]; [congruence|exact H]|auto].
Qed.
Lemma row_is cs k c : row_with cs k = Some c -> In c cs /\ c_clbid c = k.
Proof.
  unfold row_with. assert (X : forall l o, fold_left (fun found c => if c_clbid c =? k then Some c else found) l o = Some c -> o = Some c \/ In c l /\ c_clbid c = k).
  { induction l as [|x l IH]; intros o H; cbn [fold_left In] in *; [auto|]. apply IH in H. destruct (String.eqb_spec (c_clbid x) k) as [E|E]; [|tauto]. destruct H as [H|H]; [|tauto]. injection H as ->. tauto. }
  intro H. apply X in H as [H|H]; [discriminate|exact H].
Qed.
(** the claims of the table of claims are the successful ones of the result *)
Definition listed (d : list (string * list path)) : list (string * path) := flat_map (fun kc => map (fun p => (fst kc, p)) (snd kc)) d.
Lemma listed_set (d : list (string * list claim)) cl :
  let flat := fun d : list (string * list claim) => flat_map (fun kc => map (fun x => (fst kc, cl_by x)) (snd kc)) d in
  Permutation (flat (dset d (clbid_of cl) (match dget d (clbid_of cl) with Some l => l | None => [] end ++ [cl])%list)) ((clbid_of cl, cl_by cl) :: flat d).
Proof.
  intro flat. induction d as [|[k l] d IH]; [apply Permutation_refl|]. cbn [dset dget]. destruct (String.eqb_spec (clbid_of cl) k) as [E|E].
  - subst k. unfold flat. cbn [flat_map fst snd]. rewrite map_app, <- app_assoc. cbn [map app]. apply Permutation_sym, Permutation_middle.
  - unfold flat in *. cbn [flat_map fst snd]. eapply Permutation_trans; [apply Permutation_app_head; exact IH|]. apply Permutation_sym, Permutation_middle.
Qed.
Lemma listed_claims v : Permutation (listed (keyed_claims v)) (map (fun cl => (clbid_of cl, cl_by cl)) (filter (fun cl => negb (cl_failed cl)) (area_claims v))).
Proof.
  unfold keyed_claims. set (l := filter _ _). assert (P : Permutation (isort claim_leb l) l) by apply isort_perm.
  eapply Permutation_trans; [|apply Permutation_map; exact P]. generalize (isort claim_leb l) as m. intro m. unfold by_clbid, listed.
  assert (X : forall m d, Permutation (flat_map (fun kc : string * list claim => map (fun x => (fst kc, cl_by x)) (snd kc))
      (fold_left (fun d cl => let k := c_clbid (cl_course cl) in dset d k (match dget d k with Some l => l | None => [] end ++ [cl])%list) m d))
      (flat_map (fun kc => map (fun x => (fst kc, cl_by x)) (snd kc)) d +++ map (fun cl => (clbid_of cl, cl_by cl)) m)).
  { clear. induction m as [|cl m IH]; intro d; cbn [fold_left map]; [rewrite app_nil_r; apply Permutation_refl|]. eapply Permutation_trans; [apply IH|].
    eapply Permutation_trans; [apply Permutation_app_tail; apply (listed_set d cl)|]. cbn [app]. apply Permutation_middle. }
  specialize (X m []). cbn [flat_map app] in X. rewrite flat_map_concat_map, map_map, <- flat_map_concat_map.
  eapply Permutation_trans; [|exact X]. erewrite flat_map_ext; [apply Permutation_refl|]. intros [k x]. cbn [fst snd]. rewrite map_map. reflexivity.
Qed.
Theorem claims_are_printed_exactly_when :
  forall transcript v, claims_printable transcript v = true <->
  forall cl, In cl (area_claims v) -> cl_failed cl = false -> exists c, In c transcript /\ c_clbid c = clbid_of cl.
Proof.
  intros transcript v. unfold claims_printable.
  assert (X : forallb (fun kc => forallb (fun _ : path => match row_with transcript (fst kc) with Some _ => true | None => false end) (snd kc)) (keyed_claims v) = true <->
    forall kp, In kp (listed (keyed_claims v)) -> row_with transcript (fst kp) <> None).
  { unfold listed. induction (keyed_claims v) as [|[k ps] d IH]; cbn [forallb flat_map fst snd]; [split; [intros _ kp []|reflexivity]|].
    rewrite andb_true_iff, IH. split.
    - intros (A & B) kp I1. apply in_app_or in I1 as [I1|I1]; [|apply B; exact I1]. apply in_map_iff in I1 as (p & <- & I1). cbn [fst].
      rewrite forallb_forall in A. specialize (A p I1). destruct (row_with transcript k); [discriminate|discriminate A].
    - intro H. split; [|intros kp I1; apply H, in_or_app; right; exact I1]. apply forallb_forall. intros p I1.
      assert (Y := H (k, p)). cbn [fst] in Y. destruct (row_with transcript k); [reflexivity|]. exfalso. apply Y; [|reflexivity]. apply in_or_app. left. apply in_map_iff. eauto. }
  rewrite X. assert (P := listed_claims v). split.
  - intros H cl I1 F. apply row_found. apply (H (clbid_of cl, cl_by cl)). eapply Permutation_in; [apply Permutation_sym; exact P|]. apply in_map_iff. exists cl. split; [reflexivity|].
    apply filter_In. rewrite F. auto.
  - intros H kp I1. apply (Permutation_in _ P) in I1. apply in_map_iff in I1 as (cl & <- & I1). apply filter_In in I1 as (I1 & F). cbn [fst]. apply row_found. apply H; [exact I1|].
    destruct (cl_failed cl); [discriminate|reflexivity].
Qed.
Print Assumptions claims_are_printed_exactly_when.

(** ** C133 *)

(** Below the report every successful claim has a line of its own, naming the course and the
    requirements that lead to it; there are no other lines. *)
Theorem claimed_courses_are_listed :
  forall transcript v, exists ls,
  claims_section transcript v = flat_map (fun l => [l; line_end]) ls /\
  Permutation ls (map (fun cl => claim_line transcript (u_name (v_area v)) (clbid_of cl) (cl_by cl)) (filter (fun cl => negb (cl_failed cl)) (area_claims v))).
Proof.
  intros transcript v. exists (map (fun kp => claim_line transcript (u_name (v_area v)) (fst kp) (snd kp)) (listed (keyed_claims v))). split.
  - unfold claims_section, listed. induction (keyed_claims v) as [|[k ps] d IH]; [reflexivity|]. cbn [flat_map fst snd]. rewrite map_app, flat_map_app, IH. f_equal.
    rewrite map_map. cbn [fst snd]. clear. induction ps as [|p ps IH]; [reflexivity|]. cbn [flat_map map app]. rewrite IH. reflexivity.
  - eapply Permutation_trans; [apply Permutation_map, listed_claims|]. rewrite map_map. apply Permutation_refl.
Qed.
Print Assumptions claimed_courses_are_listed.

(** ** C134 *)

(** A course rule marked as finished is done, whatever else holds of it ... *)
Theorem finished_mark_means_done :
  forall transcript r cl, r_claim r = Some cl -> row_with transcript (clbid_of cl) = Some (cl_course cl) ->
  In (course_mark (c_status KRes r) (claimed_row transcript KRes r)) ["💚 [ ok]"; "💕 [rep]"] -> c_status KRes r = Done.
Proof.
  intros transcript r cl C R. assert (CC : c_claims KRes r = if cl_failed cl then [] else [cl]) by (unfold c_claims; rewrite C; reflexivity).
  unfold claimed_row, c_status. rewrite CC. unfold clbid_of in R. destruct (cl_failed cl) eqn:F; cbn [matched_of filter map dedup].
  - destruct (c_waived KRes r); [|destruct (r_optional r)]; vm_compute; intuition discriminate.
  - unfold matched_of. cbn [filter]. rewrite F. cbn [negb map dedup existsb orb andb]. rewrite R, ?orb_false_r.
    destruct (c_waived KRes r); [vm_compute; intuition discriminate|]. destruct (c_in_progress (cl_course cl)) eqn:IP; cbn [andb negb]; [|reflexivity].
    intro H. exfalso. revert H. unfold course_mark, known_mark. rewrite IP.
    destruct (c_incomplete (cl_course cl)), (c_ip_this_term (cl_course cl)), (c_ip_in_future (cl_course cl)), (r_optional r); cbn [orb andb negb]; vm_compute; intuition discriminate.
Qed.
Print Assumptions finished_mark_means_done.
(** ... but not the other way round: a course that is incomplete and not marked as in progress
    meets its rule and is shown as not finished. *)
Definition done_is_marked_finished : Prop :=
  forall transcript r cl, r_claim r = Some cl -> row_with transcript (clbid_of cl) = Some (cl_course cl) -> c_status KRes r = Done ->
  In (course_mark (c_status KRes r) (claimed_row transcript KRes r)) ["💚 [ ok]"; "💕 [rep]"].
Theorem done_is_marked_finished_when_complete :
  forall transcript r cl, r_claim r = Some cl -> row_with transcript (clbid_of cl) = Some (cl_course cl) -> c_status KRes r = Done ->
  c_incomplete (cl_course cl) = false -> (c_ip_this_term (cl_course cl) || c_ip_in_future (cl_course cl) = true -> c_in_progress (cl_course cl) = true) ->
  course_mark (c_status KRes r) (claimed_row transcript KRes r) = if c_repeat (cl_course cl) then "💕 [rep]" else "💚 [ ok]".
Proof.
  intros transcript r cl C R D INC IP. rewrite D. assert (CC : c_claims KRes r = if cl_failed cl then [] else [cl]) by (unfold c_claims; rewrite C; reflexivity).
  unfold claimed_row. rewrite CC. unfold c_status in D. rewrite CC in D. unfold clbid_of in R. destruct (c_waived KRes r); [discriminate|].
  destruct (cl_failed cl) eqn:F.
  - cbn in D. destruct (r_optional r); discriminate.
  - rewrite R. unfold matched_of in D. cbn [filter] in D. rewrite F in D. cbn [negb map dedup existsb orb andb] in D. rewrite ?orb_false_r in D.
    destruct (c_in_progress (cl_course cl)) eqn:P; cbn [andb negb] in D.
    + destruct ((c_ip_this_term (cl_course cl) || c_incomplete (cl_course cl)) && negb (c_ip_in_future (cl_course cl))); [discriminate|]. destruct (c_ip_in_future (cl_course cl)); [discriminate|]. destruct (r_optional r); discriminate.
    + unfold course_mark, known_mark. rewrite INC, P. destruct (c_ip_this_term (cl_course cl)); [discriminate IP; reflexivity|]. destruct (c_ip_in_future (cl_course cl)); [discriminate IP; reflexivity|]. reflexivity.
Qed.
Print Assumptions done_is_marked_finished_when_complete.
Definition incomplete_course : course := {| c_clbid := "900"; c_attributes := []; c_credits := mkDec 100 (-2); c_crsid := ""; c_course_type := CtSemester; c_gereqs := [];
  c_gpa_points := mkDec 300 (-2); c_grade_code := G_I; c_grade_option := GoGrade; c_grade_points := mkDec 300 (-2); c_institution := "STOLAF"; c_in_gpa := true;
  c_in_progress := false; c_ip_this_term := false; c_ip_in_future := false; c_incomplete := true; c_repeat := false; c_stolaf := true; c_lab := false; c_covid := false;
  c_level := 100; c_name := ""; c_number := "1"; c_schedid := None; c_section := None; c_sub_type := StNormal; c_subject := "F"; c_su_grade := None; c_term := "1";
  c_transcript_code := TcEmpty; c_year := 2000; c_yearterm := "20001"; c_identity := "F 1"; c_chbi := None |}.
Definition met_by (cl : claim) : crule :=
  mkCrule ["$"; "*F 1"] false (Some "F 1") None None None None None None None None None None None false false false false false false [] None (Some cl).
Theorem done_is_marked_finished_refuted : ~ done_is_marked_finished.
Proof.
  intro H. specialize (H [incomplete_course] (met_by (mkClaim incomplete_course ["$"; "*F 1"] false)) _ eq_refl eq_refl eq_refl). vm_compute in H. intuition discriminate.
Qed.
Print Assumptions done_is_marked_finished_refuted.

(** ** Examples *)
Definition audited (u : study) (cs : list course) : res area_result :=
  match g_items (area_solutions same_order keep u (took cs) []) with
  | z :: _ => let! (v, _) := area_audit same_order u z in Ok v
  | [] => Err OtherErr
  end.
Definition quoted (c : ascii) (s : string) : string := String c (s ++ String c "").
Definition fraction (q : Q) : string := str_of_Z (Qnum q) ++ match Qden q with 1%positive => "" | d => "/" ++ str_of_Z (Z.pos d) end.
Definition printed (paths ranks : bool) (only : option path) (u : study) (cs : list course) : res (list string) :=
  let! v := audited u cs in print_area (quoted "'") (quoted """") fraction fraction paths ranks cs only v.
Definition lines (l : list string) : string := String.concat line_end l.
Example report_example :
  printed false false None demo_area [mk_simple "100" "A" "1"] =
  Ok [lines ["'X' audit status: needs-more-items. (rank 1 of 2; gpa: 3.00)"; "";
             "💙 both of (these 2) (ok: 1; need: 2)";
             "    🌀 Requirement(%y) [empty]";
             "        🌀       B 1";
             "    💚 [ ok] A 1 'A 1'"];
      line_end; line_end; "Claimed courses:"; line_end; "  - A 1 2000-1 ""A 1"" at X"; line_end].
Proof. vm_compute. reflexivity. Qed.
Example report_with_ranks_and_paths :
  printed true true (Some ["$"; ".count"; "%x"]) demo_area [] =
  Ok [lines ["[""$""]"; "'X' audit status: empty. (rank 0 of 2; gpa: 0.00)"; ""; "[""$"", "".count""]";
             "(0|2|f) 🌀 both of (these 2) (ok: 0; need: 2)"; "    [""$"", "".count"", ""*A 1""]"; "    (0|1|f) 🌀       A 1"]].
Proof. vm_compute. reflexivity. Qed.

(** Every result that is stored can be printed. Refuted: a query with a negated condition. The
    query is loaded, solved, audited and stored without complaint. *)
Definition every_stored_result_is_printed : Prop :=
  forall repr quote g4 dtext paths ranks u cs v j, audited u cs = Ok v -> area_json v = Ok j ->
  exists ls, print_area repr quote g4 dtext paths ranks cs None v = Ok ls.
Definition negated_query : node := NQuery KRule
  (mkQuery ["$"; ".count"; ".query"] false QCourses DtCourse
    [APlain (mkAs ["$"; ".count"; ".query"; ".assertions"; "[0]"] Empty DtCourse None KCourses OGte (mkDec 1 0) None [] false None None false false false None None None None)]
    [] (Some (PNot (PLeaf (mkLeaf "subject" OEq (VS (SStr "B")) None)))) true true true false [] [] [] [] [] []).
Definition negated_area : study := one_rule "concentration" (all_of [negated_query]) [].
Theorem every_stored_result_is_printed_refuted : ~ every_stored_result_is_printed.
Proof.
  intro H. destruct (audited negated_area [mk_simple "100" "A" "1"]) as [v|] eqn:A; [|vm_compute in A; discriminate].
  destruct (area_json v) as [j|] eqn:J; [|vm_compute in A; injection A as <-; vm_compute in J; discriminate].
  destruct (H (quoted "'") (quoted """") fraction fraction false false _ _ v j A J) as (ls & P).
  vm_compute in A. injection A as <-. vm_compute in P. discriminate.
Qed.
Print Assumptions every_stored_result_is_printed_refuted.

(** ** C132, refuted for nested requirements *)
Definition asked_requirement_is_printed : Prop :=
  forall repr quote g4 dtext transcript paths ranks v l k i r, part_at (v_result v) l = Some (NReq k i r) ->
  forallb (fun x => negb (by_hand x)) (above (v_result v) l) = true ->
  In (requirement_line g4 dtext ranks (4 * List.length l) (NReq k i r) i) (area_report repr quote g4 dtext transcript paths ranks (Some (e_path i)) v).
Definition nested_area : study := one_rule "concentration"
  (NReq KRule (mkReq ["$"; "%a"] false "a" false false true None)
     (Some (NReq KRule (mkReq ["$"; "%a"; "%b"] false "b" false false true None) (Some (named "A 1"))))) [].
Theorem asked_requirement_is_printed_refuted : ~ asked_requirement_is_printed.
Proof.
  intro H. destruct (audited nested_area [mk_simple "100" "A" "1"]) as [v|] eqn:A; [|vm_compute in A; discriminate].
  assert (X := H (quoted "'") (quoted """") fraction fraction [] false false v [ToResult]). vm_compute in A. injection A as <-.
  specialize (X _ _ _ eq_refl eq_refl). vm_compute in X. intuition discriminate.
Qed.
Print Assumptions asked_requirement_is_printed_refuted.
