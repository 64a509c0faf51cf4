(** What loading does to a tree, as far as the estimates look at it *)
From Coq Require Import List Bool Arith ZArith QArith Ascii String Lia.
From Verif Require Import Prelude StrFacts Dec Status Transcript Course Claims Exceptions Op Context CondExpr Paths Predicate Limit Assertion Query CourseRule Tree Loader.
From Verif Require Import PathsSpec PathsProofs TreeSpec TreeSolSpec LoaderSpec LoaderProofs LoaderTree EstimateSpec.
Import ListNotations.
Local Open Scope string_scope.
Local Open Scope list_scope.

(** ** joined names *)
Lemma digits_split d d' r r' : (forall x, In x (list_ascii_of_string d) -> x <> "]"%char) -> (forall x, In x (list_ascii_of_string d') -> x <> "]"%char) ->
  (d ++ String "]" r)%string = (d' ++ String "]" r')%string -> d = d' /\ r = r'.
Proof.
  revert d'. induction d as [|x d IH]; intros d' A B E; destruct d' as [|y d']; cbn [append] in E.
  - injection E as ->. auto.
  - injection E as <- _. exfalso. apply (B "]"%char); [left; reflexivity|reflexivity].
  - injection E as -> _. exfalso. apply (A "]"%char); [left; reflexivity|reflexivity].
  - injection E as <- E. destruct (IH d') as [-> ->]; auto; intros z I; [apply A|apply B]; right; exact I.
Qed.
Lemma app_assoc_s (a b c : string) : ((a ++ b) ++ c)%string = (a ++ b ++ c)%string.
Proof. induction a as [|x a IH]; cbn; [reflexivity|]. now rewrite IH. Qed.
Lemma app_inv_s (a b c : string) : (a ++ b)%string = (a ++ c)%string -> b = c.
Proof. induction a as [|x a IH]; cbn; [auto|]. intro H. injection H as H. auto. Qed.
Lemma concat_app sep p x t : p <> [] -> String.concat sep (p ++ x :: t) = (String.concat sep p ++ sep ++ String.concat sep (x :: t))%string.
Proof.
  intros NP. induction p as [|a p IH]; [congruence|]. destruct p as [|b p].
  - reflexivity.
  - change (String.concat sep ((a :: b :: p) ++ x :: t)) with (a ++ sep ++ String.concat sep ((b :: p) ++ x :: t))%string.
    rewrite IH by discriminate. change (String.concat sep (a :: b :: p)) with (a ++ sep ++ String.concat sep (b :: p))%string. rewrite !app_assoc_s. reflexivity.
Qed.
Lemma concat_head sep x t : exists r, String.concat sep (x :: t) = (x ++ r)%string.
Proof. destruct t as [|y t]; [exists ""; cbn; induction x as [|c x IH]; cbn; [reflexivity|now rewrite <- IH]|]. eexists. reflexivity. Qed.
Lemma index_head i t : exists r, String.concat " → " (index_comp i :: t) = String "[" (str_of_Z (Z.of_nat i) ++ String "]" r)%string.
Proof.
  destruct (concat_head " → " (index_comp i) t) as [r E]. exists r. rewrite E. unfold index_comp. cbn [append]. rewrite app_assoc_s. reflexivity.
Qed.
Lemma digits_no_bracket s : forall acc v, digits_val s acc = Some v -> forall x, In x (list_ascii_of_string s) -> x <> "]"%char.
Proof.
  induction s as [|c s IH]; intros acc v H x I; [destruct I|]. cbn [digits_val] in H. destruct I as [<-|I].
  - intros ->. discriminate H.
  - destruct (digit_val c) as [d|]; [|discriminate]. eapply IH; eauto.
Qed.
Lemma no_bracket i x : In x (list_ascii_of_string (str_of_Z (Z.of_nat i))) -> x <> "]"%char.
Proof. destruct (str_of_Z_digits (Z.of_nat i)) as [D _]; [lia|]. apply (digits_no_bracket _ _ _ D). Qed.
Lemma index_joined i j t t' : String.concat " → " (index_comp i :: t) = String.concat " → " (index_comp j :: t') -> i = j.
Proof.
  destruct (index_head i t) as [r ->], (index_head j t') as [r' ->]. intro E. injection E as E.
  apply digits_split in E; [|apply no_bracket|apply no_bracket]. destruct E as [E _]. apply index_comp_inj. unfold index_comp. rewrite E. reflexivity.
Qed.

(** ** where the children of a count lie *)
Definition numbered (p : path) (i : nat) (q : path) : Prop := exists j t, (i <= j)%nat /\ q = p ++ index_comp j :: t.
Definition emphasised (p q : path) : Prop := exists k, q = p ++ [".emphasis"; ("%" ++ k)%string].
Lemma kid_told p i a l : p <> [] -> (path_of a = p ++ index_comp i :: skipn (S (List.length p)) (path_of a) \/ emphasised p (path_of a)) ->
  (forall x, In x l -> numbered p (S i) (path_of x) \/ emphasised p (path_of x)) -> told_apart l -> told_apart (a :: l).
Proof.
  intros NP A L T.
  assert (X : forall x, In x l -> String.concat " → " (path_of a) = String.concat " → " (path_of x) -> path_of a = path_of x).
  { intros x I E. destruct A as [A|[k A]]; destruct (L x I) as [[j [t [J B]]]|[k' B]]; rewrite A, B in E.
    - rewrite !concat_app in E by exact NP. apply app_inv_s in E. apply app_inv_s in E. apply index_joined in E. lia.
    - rewrite !concat_app in E by exact NP. apply app_inv_s in E. apply app_inv_s in E. destruct (index_head i (skipn (S (List.length p)) (path_of a))) as [r R]. rewrite R in E. discriminate.
    - rewrite !concat_app in E by exact NP. apply app_inv_s in E. apply app_inv_s in E. destruct (index_head j t) as [r R]. rewrite R in E. discriminate.
    - rewrite !concat_app in E by exact NP. apply app_inv_s in E. apply app_inv_s in E. cbn [String.concat] in E. apply app_inv_s in E. apply app_inv_s in E. rewrite A, B, E. reflexivity. }
  intros c d [<-|Ic] [<-|Id] E; auto. symmetry. apply X; auto.
Qed.

Section Orderly.
  Variables (cx : ctx) (c : constants) (tm : list (string * list template)).
  Lemma query_marked p r x : load_query cx c p r = Ok x -> q_overridden x = waived cx (q_path x).
  Proof.
    unfold load_query. intro H. repeat match type of H with bind ?y _ = _ => destruct y; cbn in H; [|discriminate] end.
    destruct (rq_limits_key r); [discriminate|]. match type of H with bind ?y _ = _ => destruct y as [[|]|]; cbn in H; try discriminate end.
    destruct (rq_assert r), (rq_all r); try discriminate; destruct (rq_bad r); try discriminate; injection H as <-; reflexivity.
  Qed.
  Lemma leaf_orderly n : in_order cx n -> match n with NCount _ _ _ | NReq _ _ (Some _) | NCond _ _ _ _ => False | _ => True end -> orderly cx n.
  Proof. intros F L x H. apply part_inv in H as [->|H]; [exact F|]. destruct n as [| | |? ? [|]| |]; contradiction. Qed.
  Definition begins (p : path) (n : node) : Prop := exists s t, path_of n = p ++ s :: t.
  Lemma orderly_all :
    (forall ems sc d p o, written cx c tm ems sc d p o -> forall n, o = Some n -> orderly cx n /\ begins p n) /\
    (forall sc d p o, written_opt cx c tm sc d p o -> forall n, o = Some n -> orderly cx n) /\
    (forall ems sc p i es ns, kids cx c tm ems sc p i es ns -> p <> [] ->
       told_apart ns /\ forall n, In n ns -> orderly cx n /\ (numbered p i (path_of n) \/ emphasised p (path_of n))) /\
    (forall ems sc e p o, written_entry cx c tm ems sc e p o -> forall n, o = Some n ->
       orderly cx n /\ match e with EEmphasis _ k => path_of n = p ++ [("%" ++ k)%string] | _ => begins p n end) /\
    (forall b name p n, written_body cx c tm b name p n -> orderly cx n /\ path_of n = p ++ [("%" ++ name)%string]).
  Proof.
    apply written_induction.
    - intros ems sc d p name Sh n [=<-]. split; [apply leaf_orderly; exact I|]. eexists _, []. reflexivity.
    - intros ems sc d p name r x Sh L n [=<-]. split; [apply leaf_orderly; exact I|]. eexists _, []. reflexivity.
    - intros ems sc d p r x Sh L n [=<-]. split; [apply leaf_orderly; exact I|]. destruct (course_place _ _ _ L) as (s & E & N). exists s, []. exact E.
    - intros ems sc d p r x Sh L n [=<-]. split; [apply leaf_orderly; [|exact I]; exact (query_marked _ _ _ L)|]. apply query_place in L. exists ".query", []. exact L.
    - intros ems sc d p x cond t nt nf Sh BD L T WT IT WF IF waived o O H n [=<-]. split; [|eexists _, []; reflexivity]. intros y Y.
      apply part_inv in Y as [->|[Y|(z & -> & Y)]]; [exact I|now apply (IT nt eq_refl)|now apply (IF z eq_refl)].
    - intros. discriminate.
    - intros ems sc d p k l es ins audits nodes z Sh L X IN entries K IK AU AK BD Z0 HI n [=<-]. split; [|eexists _, []; reflexivity].
      assert (NP : p ++ [".count"] <> []) by (destruct p; discriminate). destruct (IK NP) as [T F]. intros y Y.
      apply part_inv in Y as [->|(x & X' & Y)]; [exact T|now apply (F x X')].
    - intros ems sc d p name b n Sh W IW n' [=<-]. destruct IW as [A B]. split; [exact A|]. eexists _, []. exact B.
    - intros ems sc d p name b n Sh S W IW n' [=<-]. destruct IW as [A B]. split; [exact A|]. eexists _, []. exact B.
    - intros. discriminate.
    - intros sc d p o W IW n E. now apply IW.
    - intros ems sc p i _. split; [intros ? ? []|intros n []].
    - intros ems sc p i e es n ns W IW K IK NP. destruct (IK NP) as [T F]. destruct (IW n eq_refl) as [O P].
      assert (PL : path_of n = p ++ index_comp i :: skipn (S (List.length p)) (path_of n) \/ emphasised p (path_of n)).
      { assert (SK : forall s t, path_of n = p ++ s :: t -> path_of n = p ++ s :: skipn (S (List.length p)) (path_of n)).
        { intros s t E. rewrite E at 2. replace (S (List.length p)) with (List.length (p ++ [s])) by (rewrite app_length; cbn; lia).
          change (p ++ s :: t) with (p ++ [s] ++ t). rewrite app_assoc, skipn_app, skipn_all, Nat.sub_diag. cbn. exact E. }
        destruct e as [d|r|[|a s] k]; cbn [entry_path] in P.
        - left. destruct P as (s & t & E). rewrite <- app_assoc in E. eapply SK. exact E.
        - left. destruct P as (s & t & E). rewrite <- app_assoc in E. eapply SK. exact E.
        - left. rewrite <- app_assoc in P. eapply SK. exact P.
        - right. exists k. rewrite P, <- app_assoc. reflexivity. }
      split.
      + eapply kid_told; [exact NP|exact PL| |exact T]. intros x Ix. apply F. exact Ix.
      + intros x [<-|Ix].
        * split; [exact O|]. destruct PL as [E|E]; [left; exists i; eexists; split; [lia|exact E]|right; exact E].
        * destruct (F x Ix) as [A [[j [t [J E]]]|B]]; (split; [exact A|]); [left; exists j, t; split; [lia|exact E]|right; exact B].
    - intros ems sc p i e es ns W IW K IK NP. destruct (IK NP) as [T F]. split; [exact T|]. intros x Ix.
      destruct (F x Ix) as [A [[j [t [J E]]]|B]]; (split; [exact A|]); [left; exists j, t; split; [lia|exact E]|right; exact B].
    - intros ems sc d p o W IW n E. now apply IW.
    - intros ems sc r p x L n [=<-]. split; [apply leaf_orderly; exact I|]. destruct (course_place _ _ _ L) as (s & E & N). exists s, []. exact E.
    - intros ems sc s k b p n S W IW n' [=<-]. exact IW.
    - intros b name p d n BD RS NB W IW U. split; [|reflexivity]. intros y Y. apply part_inv in Y as [->|Y]; [exact I|now apply (IW n eq_refl)].
    - intros b name p BD RS AU NB. split; [|reflexivity]. apply leaf_orderly; exact I.
  Qed.
End Orderly.
