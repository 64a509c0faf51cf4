From Coq Require Import List ZArith QArith Bool String Lia Lqa.
From Verif Require Import Prelude Status QuerySpec QueryProofs Driver DriverSpec SolveProofs.
Import ListNotations.
Local Open Scope list_scope.

Section Proofs.
  Context {R : Type} (args : arguments).
  Hypothesis AE : ar_audit_each args <> 0%Z.
  Hypothesis PE : ar_progress_every args <> 0%Z.
  Lemma only_iff i : in_only args i = true <-> In i (ar_print_only args).
  Proof. unfold in_only. rewrite existsb_exists. split; [intros [x [I E]]; apply Z.eqb_eq in E; congruence|]. intro I. exists i. split; auto. apply Z.eqb_refl. Qed.
  Lemma zmod_zero a b : b <> 0%Z -> zmod a b = Ok (a mod b)%Z.
  Proof. intro H. unfold zmod. destruct (b =? 0)%Z eqn:E; [apply Z.eqb_eq in E; congruence|reflexivity]. Qed.
  Lemma divides_mod a b : b <> 0%Z -> ((a mod b)%Z = 0%Z <-> (b | a)%Z).
  Proof. intro H. apply Z.mod_divide. exact H. Qed.
  Definition unfin (seen : list (Z * outcome R)) : Prop := forall x, In x seen -> ~ finished (snd x).
  Definition inv (s : state R) (seen : list (Z * outcome R)) : Prop :=
    st_audits s = Z.of_nat (List.length seen) /\ unfin seen /\
    match st_best s with
    | None => seen = []
    | Some (r, q, j) => exists b, leads seen (j, b) /\ r = o_result b /\ q = o_rank b
    end /\
    (st_printed s = true <-> exists i o, In (i, o) seen /\ In i (ar_print_only args)).
  Lemma leads_first (i : Z) (o : outcome R) : leads [(i, o)] (i, o).
  Proof. exists [], []. split; [reflexivity|]. split; intros x []. Qed.
  Lemma leads_keep seen j b i (o : outcome R) : leads seen (j, b) -> (o_rank o <= o_rank b)%Q -> leads (seen ++ [(i, o)]) (j, b).
  Proof.
    intros [pre [post [-> [A B]]]] L. exists pre, (post ++ [(i, o)]). split; [rewrite <- app_assoc; reflexivity|]. split; auto.
    intros x I. apply in_app_iff in I. destruct I as [I|[<-|[]]]; auto.
  Qed.
  Lemma leads_max seen p x : leads seen p -> In x seen -> (rank_at (R:=R) x <= rank_at p)%Q.
  Proof.
    intros [pre [post [-> [A B]]]] I. apply in_app_iff in I. destruct I as [I|[<-|I]]; [|apply Qle_refl|auto]. apply Qlt_le_weak. auto.
  Qed.
  Lemma leads_new seen j b i (o : outcome R) : leads seen (j, b) -> (o_rank b < o_rank o)%Q -> leads (seen ++ [(i, o)]) (i, o).
  Proof.
    intros L H. exists seen, []. split; auto. split; [|intros x []]. intros x I. eapply Qle_lt_trans; [eapply leads_max; eauto|exact H].
  Qed.
  Lemma better_ok s seen i (o : outcome R) : inv s seen -> exists j b, better (st_best s) o i = (o_result b, o_rank b, j) /\ leads (seen ++ [(i, o)]) (j, b).
  Proof.
    intros [_ [_ [B _]]]. unfold better. destruct (st_best s) as [[[r q] j]|].
    - destruct B as [b [L [-> ->]]]. destruct (Qle_bool (o_rank o) (o_rank b)) eqn:E.
      + apply Qle_bool_iff in E. exists j, b. split; auto. apply leads_keep; auto.
      + assert (H : (o_rank b < o_rank o)%Q). { apply Qnot_le_lt. intro H. apply Qle_bool_iff in H. congruence. }
        exists i, o. split; auto. eapply leads_new; eauto.
    - subst. exists i, o. split; auto. apply leads_first.
  Qed.
  Lemma say_bool (P : Prop) (b : bool) (m : message R) : (b = true <-> P) -> say_if P m (if b then [ESay m] else []).
  Proof. intro H. destruct b; [left; split; auto; apply H; auto|right; split; auto]. intro X. apply H in X. discriminate. Qed.
  Lemma finish_ok s seen : inv s seen -> exists fin, finish args s = (fin, None) /\ closing args seen (st_total s) fin.
  Proof.
    intros [A [U [B P]]]. unfold finish. destruct (st_best s) as [[[r q] j]|].
    - destruct B as [b [L [-> ->]]]. assert (NE : seen <> []) by (destruct L as [pre [post [-> _]]]; destruct pre; discriminate).
      destruct (ar_print_all args) eqn:PA; cbn [orb].
      + eexists. split; [reflexivity|]. apply cl_silent; auto.
      + destruct (st_printed s).
        * eexists. split; [reflexivity|]. apply cl_silent; auto. right. destruct (proj1 P eq_refl) as [i [o [I J]]]. exists i, o. split; auto. split; auto. apply (U _ I).
        * eexists. split; [reflexivity|]. rewrite A. apply cl_best; auto.
          -- intros i o I J. exfalso. assert (X : false = true) by (apply P; eauto). discriminate.
          -- right. split; auto.
    - subst. eexists. split; [reflexivity|]. apply cl_none. reflexivity.
  Qed.
  Lemma finish_done s seen i (o : outcome R) n : inv s seen -> finished o -> n = Z.of_nat (List.length seen + 1) ->
    exists fin, finish args (mkState i n (Some (o_result o, o_rank o, i)) (st_printed s)) = (fin, None) /\ closing args (seen ++ [(i, o)]) i fin.
  Proof.
    intros [A [U [B P]]] F ->. unfold finish. cbn [st_best st_printed st_audits st_total].
    assert (NE : seen ++ [(i, o)] <> []) by (destruct seen; discriminate).
    destruct (ar_print_all args) eqn:PA; cbn [orb].
    - eexists. split; [reflexivity|]. apply cl_silent; auto.
    - destruct (st_printed s).
      + eexists. split; [reflexivity|]. apply cl_silent; auto. right. destruct (proj1 P eq_refl) as [k [p [I J]]]. exists k, p. split; [apply in_app_iff; auto|]. split; auto. apply (U _ I).
      + eexists. split; [reflexivity|]. assert (E : (List.length seen + 1)%nat = List.length (seen ++ [(i, o)])) by (rewrite app_length; reflexivity). rewrite E. apply cl_best; auto.
        * intros k p I J. apply in_app_iff in I. destruct I as [I|[X|[]]]; [|injection X as <- <-; auto]. exfalso. assert (X : false = true) by (apply P; eauto). discriminate.
        * left. exists seen. auto.
  Qed.
  Lemma chosen_iff i : chosen args i <-> (match ar_print_only args with [] => false | _ => negb (in_only args i) end = false /\ (i mod ar_audit_each args)%Z = 0%Z).
  Proof.
    unfold chosen. rewrite (divides_mod i _ AE). assert (O := only_iff i). destruct (ar_print_only args) as [|x l]; [intuition|].
    rewrite negb_false_iff, O. split; intros [A B]; split; auto. destruct A as [A|A]; [discriminate|exact A].
  Qed.
  Lemma allowed_iff n : (match ar_stop_after args with Some k => (k <=? Z.of_nat n)%Z | None => false end) = true <-> last_allowed args n.
  Proof.
    unfold last_allowed. destruct (ar_stop_after args) as [k|].
    - rewrite Z.leb_le. split; [eauto|]. intros [k' [[= <-] H]]. exact H.
    - split; [discriminate|]. intros [k [H _]]. discriminate.
  Qed.
  Lemma drive_ok (l : list (res (outcome R))) : forall s seen e full, inv s seen -> (st_total s + Z.of_nat (List.length l) = Z.of_nat full)%Z ->
    exists ns ps done b, numbered (st_total s) l ns /\ picks args ns ps /\ worked args ends (List.length seen) ps done b /\ runs args seen e full done b (drive args s l e).
  Proof.
    induction l as [|out l IH]; intros s seen e full IN TO.
    - cbn [drive List.length] in *. exists [], [], [], false. split; [constructor|]. split; [constructor|]. split; [constructor|].
      destruct e as [x|].
      + change (@nil (Z * res (outcome R))) with (map (@went R) []). eapply rn_generator; [constructor|reflexivity].
      + destruct (finish_ok s seen IN) as [fin [-> C]]. change (@nil (Z * res (outcome R))) with (map (@went R) []). change fin with ([] ++ fin).
        eapply rn_ok; [constructor| |auto|rewrite app_nil_r; exact C]. unfold generated. lia.
    - assert (SKIP : forall P : Prop, ~ chosen args (st_total s + 1)%Z ->
        exists ns ps done b, numbered (st_total s) (out :: l) ns /\ picks args ns ps /\ worked args ends (List.length seen) ps done b /\
          runs args seen e full done b (drive args (mkState (st_total s + 1) (st_audits s) (st_best s) (st_printed s)) l e)).
      { intros _ NC. destruct (IH (mkState (st_total s + 1) (st_audits s) (st_best s) (st_printed s)) seen e full IN) as [ns [ps [done [b [N [P [W RU]]]]]]].
        { cbn [st_total List.length] in *. lia. }
        exists ((st_total s + 1, out)%Z :: ns), ps, done, b. split; [constructor; exact N|]. split; [apply pk_skip; auto|]. auto. }
      cbn [drive]. destruct (match ar_print_only args with [] => false | _ => negb (in_only args (st_total s + 1)) end) eqn:ON.
      { apply (SKIP True). intro C. apply chosen_iff in C. rewrite ON in C. destruct C. discriminate. }
      rewrite (zmod_zero _ _ AE). destruct ((st_total s + 1) mod ar_audit_each args)%Z as [|z|z] eqn:MO.
      2,3: apply (SKIP True); intro C; apply chosen_iff in C; destruct C as [_ C]; congruence.
      assert (CH : chosen args (st_total s + 1)%Z) by (apply chosen_iff; auto). clear SKIP.
      assert (REST : exists ns' ps', numbered (st_total s + 1) l ns' /\ picks args ns' ps').
      { destruct (IH (mkState (st_total s + 1) (st_audits s) (st_best s) (st_printed s)) seen e full IN) as [ns [ps [done [b [N [P _]]]]]]; [cbn [st_total List.length] in *; lia|]. exists ns, ps. auto. }
      destruct REST as [ns0 [ps0 [N0 P0]]].
      set (i := (st_total s + 1)%Z) in *. destruct IN as [A [U [B P]]]. assert (IN : inv s seen) by (split; auto).
      assert (NE : (st_audits s + 1)%Z = Z.of_nat (List.length seen + 1)) by lia.
      destruct out as [o|x].
      + destruct (inS (o_status o) WAIVED_AND_DONE) eqn:DN.
        * apply complete_iff in DN. destruct (finish_done s seen i o _ IN DN NE) as [fin [-> C]].
          exists ((i, Ok o) :: ns0), ((i, Ok o) :: ps0), [(i, Ok o)], true. split; [constructor; exact N0|]. split; [constructor; auto|]. split; [apply wk_done; exact DN|].
          change [(i, Ok o)] with (map (@went R) [(i, o)]). unfold also. cbn [fst snd]. eapply rn_ok; [apply tl_done; exact DN| |discriminate|exact C]. exists [], i, o. auto.
        * assert (NF : ~ finished o) by (intro X; apply complete_iff in X; congruence).
          destruct (better_ok s seen i o IN) as [j [b [-> L]]]. rewrite (zmod_zero _ _ PE).
          set (n := (st_audits s + 1)%Z) in *.
          set (s' := mkState i n (Some (o_result b, o_rank b, j)) (st_printed s || in_only args i)).
          assert (IN' : inv s' (seen ++ [(i, o)])).
          { split; [cbn [s' st_audits]; rewrite app_length; exact NE|]. split; [intros y I; apply in_app_iff in I; destruct I as [I|[<-|[]]]; auto|].
            cbn [s' st_best st_printed]. split; [exists b; auto|]. rewrite orb_true_iff, only_iff, P. split.
            - intros [[k [p [I J]]]|J]; [exists k, p; split; auto; apply in_app_iff; auto|]. exists i, o. split; auto. apply in_app_iff. simpl. auto.
            - intros [k [p [I J]]]. apply in_app_iff in I. destruct I as [I|[X|[]]]; [left; eauto|right]. injection X as <- <-. exact J. }
          assert (TELL : forall rest evs, told args (seen ++ [(i, o)]) rest evs ->
             told args seen ((i, o) :: rest) (EAudit i :: (if ((n mod ar_progress_every args) =? 0)%Z then [ESay (MProgress (o_rank b) j n i)] else []) ++
                (if ar_print_all args || in_only args i then [ESay (MResult (o_result o) j n i)] else []) ++ evs)).
          { intros rest evs T. rewrite NE. eapply tl_more; eauto.
            - apply say_bool. rewrite Z.eqb_eq. apply divides_mod. exact PE.
            - apply say_bool. unfold printed. rewrite orb_true_iff, only_iff. reflexivity. }
          assert (EQ : n = Z.of_nat (S (List.length seen))) by (rewrite NE; lia).
          replace (match ar_stop_after args with Some k => (k <=? n)%Z | None => false end) with (match ar_stop_after args with Some k => (k <=? Z.of_nat (S (List.length seen)))%Z | None => false end) by (rewrite EQ; reflexivity).
          destruct (match ar_stop_after args with Some k => (k <=? Z.of_nat (S (List.length seen)))%Z | None => false end) eqn:ST.
          -- apply allowed_iff in ST. destruct (finish_ok s' _ IN') as [fin [EF C]]. rewrite EF.
             exists ((i, Ok o) :: ns0), ((i, Ok o) :: ps0), [(i, Ok o)], true. split; [constructor; exact N0|]. split; [constructor; auto|]. split; [apply wk_stop; auto|].
             change [(i, Ok o)] with (map (@went R) [(i, o)]). unfold also. cbn [fst snd].
             assert (T := TELL [] [] (tl_nil args _)). rewrite app_nil_r in T.
             match goal with |- runs _ _ _ _ _ _ (?x ++ fin, None) => change x with (EAudit (R:=R) i :: (if ((n mod ar_progress_every args) =? 0)%Z then [ESay (MProgress (o_rank b) j n i)] else []) ++ (if ar_print_all args || in_only args i then [ESay (MResult (o_result o) j n i)] else [])) end.
             eapply rn_ok; [exact T| |discriminate|exact C]. exists [], i, o. auto.
          -- assert (NL : ~ last_allowed args (S (List.length seen))) by (intro X; apply allowed_iff in X; congruence).
             destruct (IH s' (seen ++ [(i, o)]) e full IN') as [ns [ps [done [bb [N [PK [W RU]]]]]]]; [cbn [s' st_total List.length] in *; unfold i; lia|].
             exists ((i, Ok o) :: ns), ((i, Ok o) :: ps), ((i, Ok o) :: done), bb. split; [constructor; exact N|]. split; [constructor; auto|].
             split; [apply wk_more; auto; rewrite app_length, Nat.add_1_r in W; exact W|].
             destruct RU as [done b' evs total fin T G NB C|done evs x T E|done evs k x b' T].
             ++ unfold also. cbn [fst snd]. change ((i, Ok o) :: map (@went R) done) with (map (@went R) ((i, o) :: done)).
                match goal with |- runs _ _ _ _ _ _ (?x, None) => replace x with ((EAudit i :: (if ((n mod ar_progress_every args) =? 0)%Z then [ESay (MProgress (o_rank b) j n i)] else []) ++
                (if ar_print_all args || in_only args i then [ESay (MResult (o_result o) j n i)] else []) ++ evs) ++ fin) by (cbn; rewrite <- !app_assoc; reflexivity) end.
                eapply rn_ok; [apply TELL; exact T| |exact NB|rewrite <- app_assoc in C; exact C].
                unfold generated in *. destruct b'; [|exact G]. destruct G as [pre [k [z [-> ->]]]]. exists ((i, o) :: pre), k, z. auto.
             ++ unfold also. cbn [fst snd]. change ((i, Ok o) :: map (@went R) done) with (map (@went R) ((i, o) :: done)). 
                match goal with |- runs _ _ _ _ _ _ (?x, _) => replace x with (EAudit i :: (if ((n mod ar_progress_every args) =? 0)%Z then [ESay (MProgress (o_rank b) j n i)] else []) ++
                (if ar_print_all args || in_only args i then [ESay (MResult (o_result o) j n i)] else []) ++ evs) by (cbn; rewrite <- !app_assoc; reflexivity) end.
                eapply rn_generator; [apply TELL; exact T|exact E].
             ++ unfold also. cbn [fst snd]. change ((i, Ok o) :: map (@went R) done ++ [(k, Err x)]) with (map (@went R) ((i, o) :: done) ++ [(k, Err x)]). 
                match goal with |- runs _ _ _ _ _ _ (?y, _) => replace y with ((EAudit i :: (if ((n mod ar_progress_every args) =? 0)%Z then [ESay (MProgress (o_rank b) j n i)] else []) ++
                (if ar_print_all args || in_only args i then [ESay (MResult (o_result o) j n i)] else []) ++ evs) ++ [EAudit k]) by (cbn; rewrite <- !app_assoc; reflexivity) end.
                eapply rn_audit. apply TELL; exact T.
      + exists ((i, Err x) :: ns0), ((i, Err x) :: ps0), [(i, Err x)], true. split; [constructor; exact N0|]. split; [constructor; auto|]. split; [apply wk_done; exact I|].
        change [(i, Err x)] with (map (@went R) [] ++ [(i, Err x)]). change [EAudit i] with ([] ++ [EAudit (R:=R) i]). eapply rn_audit. constructor.
  Qed.
End Proofs.
