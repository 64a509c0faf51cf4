(** C151: specifications come from the files as they are, whatever is in the table. *)
From Coq Require Import List Bool String Ascii.
From Verif Require Import Prelude AreaCache.
Import ListNotations.
Local Open Scope string_scope.

Section Props.
  Variables (spec : Type) (parse : string -> res spec) (dump : spec -> res string) (undump : string -> spec).
  Local Notation load_one := (load_one spec parse dump undump).
  Local Notation load_each := (load_each spec parse dump undump).
  Local Notation load_areas := (load_areas spec parse dump undump).

  (** tables that loading has made, the files changing in any way between two times *)
  Inductive reachable : list crow -> Prop :=
  | rc_empty : reachable []
  | rc_load k t l : reachable t -> reachable (snd (load_areas k t l)).
  (** the specification in a text; as it was parsed, or written as json and read again *)
  Definition spec_of (content : string) (s : spec) : Prop :=
    parse content = Ok s \/ exists s0 j, parse content = Ok s0 /\ dump s0 = Ok j /\ s = undump j.
  Definition area_key (catalog code : string) : string := catalog ++ "/" ++ code.

  Definition sound_row (r : crow) : Prop :=
    cr_key r = area_key (cr_catalog r) (cr_code r) /\ exists s, parse (cr_content r) = Ok s /\ dump s = Ok (cr_json r).
  Definition sound (t : list crow) : Prop := forall r, In r t -> sound_row r.
  Lemma upsert_sound t new : sound t -> sound_row new -> sound (upsert t new).
  Proof.
    induction t as [|r t IH]; intros S N x; cbn [upsert].
    - intros [<-|[]]. exact N.
    - destruct (cr_path r =? cr_path new).
      + intros [<-|I]; [|apply S; right; exact I]. destruct (S r (or_introl eq_refl)) as [K _]. split; [exact K|apply N].
      + intros [<-|I]; [apply S; left; reflexivity|]. apply IH; [intros y Y; apply S; right; exact Y|exact N|exact I].
  Qed.
  Lemma load_one_sound k t catalog code : sound t -> sound (snd (load_one k t catalog code)) /\
    (forall r, fst (load_one k t catalog code) = Ok r ->
       match k_content k catalog code with
       | None => r = None
       | Some content => exists s, r = Some (area_key catalog code, s) /\ spec_of content s
       end).
  Proof.
    intro S. unfold AreaCache.load_one. destruct (k_content k catalog code) as [content|]; [|split; [exact S|intros r E; injection E as <-; reflexivity]].
    destruct (cached t catalog code content) as [r|] eqn:C.
    - apply find_some in C. destruct C as [I E]. apply andb_prop in E. destruct E as [E E3]. apply andb_prop in E. destruct E as [E1 E2].
      apply String.eqb_eq in E1, E2, E3. destruct (S r I) as (K & s & P & D). split; [exact S|]. intros x X. injection X as <-.
      exists (undump (cr_json r)). split; [rewrite K, E1, E2; reflexivity|]. right. exists s, (cr_json r). rewrite <- E3. auto.
    - destruct (parse content) as [s|e] eqn:P; [|split; [exact S|discriminate]]. destruct (k_path k catalog code) as [p|]; [|split; [exact S|discriminate]].
      destruct (dump s) as [j|e] eqn:D; [|split; [exact S|discriminate]]. split.
      + apply upsert_sound; [exact S|]. split; [reflexivity|]. exists s. auto.
      + intros x X. injection X as <-. exists s. split; [reflexivity|left; exact P].
  Qed.
  Lemma put_iff d key s k v : In (k, v) (put spec d key s) -> k = key /\ v = s \/ In (k, v) d.
  Proof.
    induction d as [|[k' v'] d IH]; cbn [put].
    - intros [E|[]]. injection E as <- <-. auto.
    - destruct (String.eqb_spec k' key) as [->|N].
      + intros [E|I]; [injection E as <- <-; auto|right; right; exact I].
      + intros [E|I]; [right; left; exact E|]. destruct (IH I); [auto|right; right; assumption].
  Qed.
  Lemma put_keys d key s k : In k (map fst (put spec d key s)) <-> k = key \/ In k (map fst d).
  Proof.
    induction d as [|[k' v'] d IH]; cbn [put map fst In]; [intuition|]. destruct (String.eqb_spec k' key) as [->|N]; cbn [map fst In]; [intuition|]. rewrite IH. tauto.
  Qed.
  Lemma load_each_sound k l : forall t d, sound t -> sound (snd (load_each k t d l)) /\
    (forall d', fst (load_each k t d l) = Ok d' ->
       (forall key s, In (key, s) d' -> In (key, s) d \/
          exists catalog code content, In (catalog, code) l /\ key = area_key catalog code /\ k_content k catalog code = Some content /\ spec_of content s) /\
       (forall key, In key (map fst d') <-> In key (map fst d) \/
          exists catalog code, In (catalog, code) l /\ key = area_key catalog code /\ k_content k catalog code <> None)).
  Proof.
    induction l as [|[catalog code] l IH]; intros t d S; cbn [AreaCache.load_each].
    - split; [exact S|]. cbn [fst]. intros d' E. injection E as <-. split; [auto|]. intro key. split; [auto|]. intros [H|(c & o & [] & _)]. exact H.
    - destruct (load_one_sound k t catalog code S) as [S1 R]. destruct (load_one k t catalog code) as [[o|e] t1]; cbn [fst snd] in *; [|split; [exact S1|discriminate]].
      specialize (R o eq_refl). destruct (k_content k catalog code) as [content|] eqn:C.
      + destruct R as (s & -> & P). destruct (IH t1 (put spec d (area_key catalog code) s) S1) as [S2 Q]. split; [exact S2|]. intros d' E. destruct (Q d' E) as [Q1 Q2]. split.
        * intros key v I. destruct (Q1 key v I) as [H|(c & o & x & I1 & K & X & Y)].
          { apply put_iff in H. destruct H as [[-> ->]|H]; [|auto]. right. exists catalog, code, content. split; [left; reflexivity|auto]. }
          right. exists c, o, x. split; [right; exact I1|auto].
        * intro key. rewrite Q2, put_keys. split.
          { intros [[->|H]|(c & o & I1 & K & X)]; [right; exists catalog, code; rewrite C; split; [left; reflexivity|split; [reflexivity|discriminate]]|auto|].
            right. exists c, o. split; [right; exact I1|auto]. }
          { intros [H|(c & o & [I1|I1] & K & X)]; [auto|injection I1 as <- <-; auto|]. right. exists c, o. auto. }
      + subst o. destruct (IH t1 d S1) as [S2 Q]. split; [exact S2|]. intros d' E. destruct (Q d' E) as [Q1 Q2]. split.
        * intros key v I. destruct (Q1 key v I) as [H|(c & o & x & I1 & K & X & Y)]; [auto|]. right. exists c, o, x. split; [right; exact I1|auto].
        * intro key. rewrite Q2. split; (intros [H|(c & o & I1 & K & X)]; [auto|]).
          { right. exists c, o. split; [right; exact I1|auto]. }
          { destruct I1 as [I1|I1]; [injection I1 as <- <-; congruence|]. right. exists c, o. auto. }
  Qed.
  Lemma reachable_sound t : reachable t -> sound t.
  Proof.
    induction 1 as [|k t l _ S]; [intros r []|]. unfold AreaCache.load_areas. destruct (load_each_sound k l t [] S) as [S1 _].
    destruct (load_each k t [] l) as [[d|e] t']; [exact S1|exact S].
  Qed.

  (** ** C151 *)
  (** Whatever was loaded before and however the files have changed since: what is loaded is the
      contents of the file now, for exactly the areas that have one. *)
  Theorem areas_are_loaded_as_they_are :
    forall k t l d, reachable t -> fst (load_areas k t l) = Ok d ->
    (forall key s, In (key, s) d ->
       exists catalog code content, In (catalog, code) l /\ key = area_key catalog code /\ k_content k catalog code = Some content /\ spec_of content s) /\
    (forall key, In key (map fst d) <-> exists catalog code, In (catalog, code) l /\ key = area_key catalog code /\ k_content k catalog code <> None).
  Proof.
    intros k t l d R E. apply reachable_sound in R. destruct (load_each_sound k l t [] R) as [_ Q]. unfold AreaCache.load_areas in E.
    destruct (load_each k t [] l) as [[d'|e] t']; [|discriminate]. cbn [fst] in *. injection E as <-. destruct (Q d' eq_refl) as [Q1 Q2]. split.
    - intros key s I. destruct (Q1 key s I) as [[]|H]. exact H.
    - intro key. rewrite Q2. cbn. tauto.
  Qed.

  (** An area that json keeps is loaded the same from the table and from the file. *)
  Theorem areas_are_loaded_as_parsed :
    (forall content s j, parse content = Ok s -> dump s = Ok j -> undump j = s) ->
    forall k t l d, reachable t -> fst (load_areas k t l) = Ok d ->
    forall key s, In (key, s) d ->
    exists catalog code content, In (catalog, code) l /\ key = area_key catalog code /\ k_content k catalog code = Some content /\ parse content = Ok s.
  Proof.
    intros J k t l d R E key s I. destruct (areas_are_loaded_as_they_are k t l d R E) as [Q _]. destruct (Q key s I) as (c & o & x & A & B & C & [P|(s0 & j & P & D & ->)]).
    - exists c, o, x. auto.
    - exists c, o, x. rewrite (J x s0 j P D). auto.
  Qed.

  (** A failure leaves the table as it was. *)
  Theorem failed_loading_keeps_the_table :
    forall k t l e, fst (load_areas k t l) = Err e -> snd (load_areas k t l) = t.
  Proof. intros k t l e E. unfold AreaCache.load_areas in *. destruct (load_each k t [] l) as [[d|e'] t']; [discriminate|reflexivity]. Qed.
End Props.
Print Assumptions areas_are_loaded_as_they_are.
Print Assumptions areas_are_loaded_as_parsed.
Print Assumptions failed_loading_keeps_the_table.

(** json has text keys only: a number as a key is read back as text. A value with one key. *)
Inductive tiny := NumKey (n : string) | TextKey (s : string).
Definition tiny_parse (s : string) : res tiny :=
  match s with
  | "" => Err ValueErr
  | String c t => if Ascii.eqb c "'" then Ok (TextKey t) else Ok (NumKey s)
  end.
Definition tiny_dump (t : tiny) : res string := match t with NumKey n => Ok n | TextKey s => Ok s end.
Definition tiny_disk (content : string) : disk :=
  mkDisk (fun catalog code => Some (catalog ++ "/" ++ code ++ ".yaml")) (fun catalog code => if code =? "120" then Some content else None).
Theorem loading_twice_is_the_same_refuted :
  exists k l d d', fst (load_areas tiny tiny_parse tiny_dump TextKey k [] l) = Ok d /\
    fst (load_areas tiny tiny_parse tiny_dump TextKey k (snd (load_areas tiny tiny_parse tiny_dump TextKey k [] l)) l) = Ok d' /\ d <> d'.
Proof. exists (tiny_disk "1"), [("2019-20", "120")]. do 2 eexists. split; [vm_compute; reflexivity|]. split; [vm_compute; reflexivity|]. discriminate. Qed.
Print Assumptions loading_twice_is_the_same_refuted.

Example cache_example :
  let load := load_areas tiny tiny_parse tiny_dump TextKey in
  let l := [("2019-20", "120"); ("2019-20", "130")] in
  load (tiny_disk "'a") [] l = (Ok [("2019-20/120", TextKey "a")], [mkCRow "2019-20/120.yaml" "2019-20/120" "2019-20" "120" "'a" "a"]) /\
  load (tiny_disk "'b") (snd (load (tiny_disk "'a") [] l)) l =
    (Ok [("2019-20/120", TextKey "b")], [mkCRow "2019-20/120.yaml" "2019-20/120" "2019-20" "120" "'b" "b"]) /\
  load (tiny_disk "") (snd (load (tiny_disk "'a") [] l)) l = (Err ValueErr, snd (load (tiny_disk "'a") [] l)) /\
  reachable tiny tiny_parse tiny_dump TextKey (snd (load (tiny_disk "'a") [] l)).
Proof. repeat split; try (vm_compute; reflexivity). apply rc_load, rc_empty. Qed.
