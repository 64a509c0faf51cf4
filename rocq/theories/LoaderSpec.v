(** What the rules of a specification are loaded as. *)
From Coq Require Import List ZArith QArith Bool Ascii String.
From Verif Require Import Prelude Dec Status Course Claims Exceptions Op Context CondExpr Predicate Limit Assertion Query CourseRule Tree Loader.
From Verif Require Import PathsSpec TreeSolSpec.
Import ListNotations.
Local Open Scope string_scope.
Local Open Scope list_scope.

(** induction over specifications *)
Section Data.
  Variables (P : rdata -> Prop) (R : rbody -> Prop).
  Definition all_opt (o : option rdata) : Prop := match o with Some d => P d | None => True end.
  Definition all_list (o : option (list rdata)) : Prop := match o with Some l => forall d, In d l -> P d | None => True end.
  Definition all_cond (o : option rcond) : Prop := match o with Some x => all_opt (rn_then x) /\ all_opt (rn_else x) | None => True end.
  Definition all_count (o : option rcount) : Prop :=
    match o with
    | Some k => all_list (rk_all k) /\ all_list (rk_any k) /\ all_list (rk_both k) /\ all_list (rk_either k) /\ all_list (rk_of k)
    | None => True
    end.
  Definition all_name (o : option (string * rbody)) : Prop := match o with Some (_, b) => R b | None => True end.
  Definition all_reqs (o : option (list (string * rbody))) : Prop := match o with Some l => forall s b, In (s, b) l -> R b | None => True end.
  Hypothesis Pdata : forall d, all_cond (rd_cond d) -> all_count (rd_count d) -> all_name (rd_name d) -> P d.
  Hypothesis Rbody : forall b, all_opt (rb_result b) -> all_reqs (rb_reqs b) -> R b.
  Fixpoint data_induction (d : rdata) : P d :=
    let opt (o : option rdata) : all_opt o := match o with Some d => data_induction d | None => I end in
    let many := fix many (l : list rdata) : forall d, In d l -> P d :=
      match l with
      | [] => fun d H => match H with end
      | y :: t => fun d H => match H with
                             | or_introl E => match E in _ = z return P z with eq_refl => data_induction y end
                             | or_intror H' => many t d H'
                             end
      end in
    let lst (o : option (list rdata)) : all_list o := match o with Some l => many l | None => I end in
    match d with
    | mkRd t pr co q cond count name req =>
      Pdata (mkRd t pr co q cond count name req)
        (match cond return all_cond cond with Some (mkRcond _ t f _ _) => conj (opt t) (opt f) | None => I end)
        (match count return all_count count with
         | Some (mkRcount a b o e f _ _ _ _) => conj (lst a) (conj (lst b) (conj (lst o) (conj (lst e) (lst f))))
         | None => I
         end)
        (match name return all_name name with Some (_, b) => body_induction b | None => I end)
    end
  with body_induction (b : rbody) : R b :=
    match b with
    | mkRbody result reqs x1 x2 x3 x4 x5 =>
      Rbody (mkRbody result reqs x1 x2 x3 x4 x5)
        (match result return all_opt result with Some d => data_induction d | None => I end)
        (match reqs return all_reqs reqs with
         | None => I
         | Some l =>
           (fix many (l : list (string * rbody)) : forall s b, In (s, b) l -> R b :=
              match l with
              | [] => fun s b H => match H with end
              | (s', y) :: t => fun s b H => match H with
                  | or_introl E => match E in _ = z return R (snd z) with eq_refl => body_induction y end
                  | or_intror H' => many t s b H'
                  end
              end) l
         end)
    end.
  Lemma spec_induction : (forall d, P d) /\ (forall b, R b).
  Proof. split; [exact data_induction|exact body_induction]. Qed.
End Data.

(** ** Templates *)

(** the course rule a template stands for *)
Definition template_stands (t : template) (r : raw_course) : Prop :=
  let given_as (s : string) (o : option string) := (s = "" /\ o = None) \/ (s <> "" /\ o = Some s) in
  ((tp_subject t = "" /\ rc_course r = None) \/ (tp_subject t <> "" /\ rc_course r = Some (tp_subject t ++ " " ++ tp_num t)%string)) /\
  given_as (tp_name t) (rc_ap r) /\ given_as (tp_clbid t) (rc_clbid r) /\ given_as (tp_institution t) (rc_institution r) /\
  given_as (tp_section t) (rc_section r) /\ given_as (tp_sub_type t) (rc_sub_type r) /\
  rc_year r = tp_year t /\ (tp_year t = None -> rc_term r = None) /\
  (tp_year t <> None -> tp_term t <> "" /\ rc_term r = Some (tp_term t)) /\
  rc_name r = None /\ rc_grade r = None /\ rc_grade_option r = None /\ rc_crsid r = None /\ rc_inserted r = false /\
  rc_from_claimed r = false /\ rc_allow r = false /\ rc_optional r = false /\ rc_bad r = false /\
  ~ (rc_course r = None /\ rc_ap r = None /\ rc_clbid r = None).

(** ** Rules *)

(** the requirements that can be referred to *)
Definition scope := string -> option rbody.
Definition own_scope (b : rbody) : scope := fun k => match rb_reqs b with Some l => dget l k | None => None end.
(** what a count is made of: rules as written, courses from templates or exceptions, and
    the requirements of the emphases *)
Inductive entry := EData (d : rdata) | ECourse (r : raw_course) | EEmphasis (emphasis key : string).
(** a requirement added by an emphasis: the name of the emphasis, the key, the requirement *)
Definition added := (string * string * rbody)%type.
(** the last requirement added under a key comes before what could be referred to already *)
Fixpoint with_added (sc : scope) (ems : list added) : scope :=
  match ems with
  | [] => sc
  | (_, k, b) :: t => with_added (fun s => if s =? k then Some b else sc s) t
  end.

(** the rule to be loaded, in the order in which the classes are tried *)
Inductive shape := ShProf (x : string * option raw_course * bool) | ShCourse (r : raw_course) | ShQuery (q : raw_query)
  | ShCond (x : rcond) | ShCount (k : rcount) | ShNamed (name : string) (b : rbody) | ShRef (name : string).
Definition first_shape (d : rdata) (s : shape) : Prop :=
  match s with
  | ShProf x => rd_prof d = Some x
  | ShCourse r => rd_prof d = None /\ rd_course d = Some r
  | ShQuery q => rd_prof d = None /\ rd_course d = None /\ rd_query d = Some q
  | ShCond x => rd_prof d = None /\ rd_course d = None /\ rd_query d = None /\ rd_cond d = Some x
  | ShCount k => rd_prof d = None /\ rd_course d = None /\ rd_query d = None /\ rd_cond d = None /\ rd_count d = Some k
  | ShNamed n b => rd_prof d = None /\ rd_course d = None /\ rd_query d = None /\ rd_cond d = None /\ rd_count d = None /\ rd_name d = Some (n, b)
  | ShRef n => rd_prof d = None /\ rd_course d = None /\ rd_query d = None /\ rd_cond d = None /\ rd_count d = None /\ rd_name d = None /\ rd_req d = Some n
  end.
(** the list of a count: the first of "all", "any", "both", "either" and "of" *)
Inductive listed (k : rcount) : list rdata -> Prop :=
| li_all l : rk_all k = Some l -> listed k l
| li_any l : rk_all k = None -> rk_any k = Some l -> listed k l
| li_both l : rk_all k = None -> rk_any k = None -> rk_both k = Some l -> listed k l
| li_either l : rk_all k = None -> rk_any k = None -> rk_both k = None -> rk_either k = Some l -> listed k l
| li_of l : rk_all k = None -> rk_any k = None -> rk_both k = None -> rk_either k = None -> rk_of k = Some l -> listed k l.
(** how many of [n] children are asked for *)
Definition wants_all (k : rcount) : Prop := rk_all k <> None \/ rk_count k = Some CvAll.
Definition wants_any (k : rcount) : Prop := rk_any k <> None \/ rk_count k = Some CvAny.
Inductive asks (k : rcount) (inserted : Prop) (n : nat) : Z -> Prop :=
| ak_all : wants_all k -> asks k inserted n (Z.of_nat n)
| ak_any : ~ wants_all k -> wants_any k -> asks k inserted n 1
| ak_both : ~ wants_all k -> ~ wants_any k -> rk_both k <> None -> (inserted \/ n = 2%nat) -> asks k inserted n (Z.of_nat n)
| ak_either : ~ wants_all k -> ~ wants_any k -> rk_both k = None -> rk_either k <> None -> (inserted \/ n = 2%nat) -> asks k inserted n 1
| ak_number z : ~ wants_all k -> ~ wants_any k -> rk_both k = None -> rk_either k = None -> rk_count k = Some (CvInt z) -> asks k inserted n z.
(** the name is more than white space *)
Definition white (a : ascii) : Prop :=
  In (Ascii.nat_of_ascii a) [9; 10; 11; 12; 13; 28; 29; 30; 31; 32]%nat.
Definition not_blank (s : string) : Prop := exists a, ~ white a /\ In a (list_ascii_of_string s).
(** the requirement is referred to by the rule, not looking into requirements and into
    branches that are not in force *)
Inductive refers_to (s : string) : node -> Prop :=
| rt_req k i o : e_name i = s -> refers_to s (NReq k i o)
| rt_count k i items x : In x items -> refers_to s x -> refers_to s (NCount k i items)
| rt_cond k i t f x : TreeSpec.in_force i t f x -> refers_to s x -> refers_to s (NCond k i t f).

Section Written.
  Variables (cx : ctx) (c : constants) (tm : list (string * list template)).

  (** the entries of a list of rules *)
  Inductive expands : list rdata -> list entry -> Prop :=
  | xp_nil : expands [] []
  | xp_rule d l es : rd_template d = None -> expands l es -> expands (d :: l) (EData d :: es)
  | xp_template d l es key ts rs : rd_template d = Some key -> dget tm key = Some ts -> Forall2 template_stands ts rs ->
      expands l es -> expands (d :: l) (map ECourse rs ++ es)
  | xp_unknown d l es key : rd_template d = Some key -> dget tm key = None -> expands l es -> expands (d :: l) es.
  (** the course rule an insertion at a count adds *)
  Definition insertion (e : exc) (r : raw_course) : Prop :=
    exists k f x, ex_act e = AInsert k f /\ forced_by_clbid cx k = Ok x /\
      r = {| rc_course := Some (c_identity x); rc_clbid := Some (c_clbid x); rc_inserted := true; rc_allow := f;
             rc_ap := None; rc_name := None; rc_institution := None; rc_grade := None; rc_grade_option := None;
             rc_crsid := None; rc_section := None; rc_sub_type := None; rc_year := None; rc_term := None;
             rc_from_claimed := false; rc_optional := false; rc_bad := false |}.
  (** the path of the [i]th entry *)
  Definition entry_path (p : path) (i : nat) (e : entry) : path :=
    match e with
    | EEmphasis "" _ => p ++ [index_comp i]
    | EEmphasis _ _ => p ++ [".emphasis"]
    | _ => p ++ [index_comp i]
    end.
  (** the audits of a count *)
  Inductive audits_loaded (p : path) : nat -> list raw_any -> list any_assertion -> Prop :=
  | al_nil i : audits_loaded p i [] []
  | al_cons i r a rs l : load_any cx c DtCourse (p ++ [".audit"; index_comp i]) r = Ok a -> audits_loaded p (S i) rs l ->
      audits_loaded p i (r :: rs) (a :: l).

  Inductive written : list added -> scope -> rdata -> path -> option node -> Prop :=
  | w_prof ems sc d p name : first_shape d (ShProf (name, None, false)) ->
      written ems sc d p (Some (NProf KRule (mkProfInfo (p ++ [".proficiency=" ++ name]%string) false name Empty) None))
  | w_prof_course ems sc d p name r x : first_shape d (ShProf (name, Some r, false)) ->
      load_course (p ++ [".proficiency=" ++ name]%string) r = Ok x ->
      written ems sc d p (Some (NProf KRule (mkProfInfo (p ++ [".proficiency=" ++ name]%string) false name Empty) (Some (KRule, x))))
  | w_course ems sc d p r x : first_shape d (ShCourse r) -> load_course p r = Ok x -> written ems sc d p (Some (NCourse KRule x))
  | w_query ems sc d p r x : first_shape d (ShQuery r) -> load_query cx c p r = Ok x -> written ems sc d p (Some (NQuery KRule x))
  | w_cond ems sc d p x cond t nt nf : first_shape d (ShCond x) -> rn_bad x = false -> load_expr cx (rn_if x) = Ok cond ->
      rn_then x = Some t -> written [] sc t (p ++ [".cond"; "/t"]) (Some nt) ->
      written_opt sc (rn_else x) (p ++ [".cond"; "/f"]) nf ->
      let waived := exists e, get_waive (cx_exc cx) (p ++ [".cond"]) = Some e in
      forall o, (o = true <-> waived) ->
      ~ (e_result cond = Some false /\ rn_hide x = true /\ ~ waived) ->
      written ems sc d p (Some (NCond KRule (mkCond (p ++ [".cond"]) o cond) nt nf))
  | w_hidden ems sc d p x cond t nt nf : first_shape d (ShCond x) -> rn_bad x = false -> load_expr cx (rn_if x) = Ok cond ->
      rn_then x = Some t -> written [] sc t (p ++ [".cond"; "/t"]) (Some nt) ->
      written_opt sc (rn_else x) (p ++ [".cond"; "/f"]) nf ->
      e_result cond = Some false -> rn_hide x = true -> get_waive (cx_exc cx) (p ++ [".cond"]) = None ->
      written ems sc d p None
  | w_count ems sc d p k l es ins audits nodes z : first_shape d (ShCount k) -> listed k l -> expands l es ->
      Forall2 insertion (get_inserts (cx_exc cx) (p ++ [".count"])) ins ->
      let entries := es ++ map (fun a => EEmphasis (fst (fst a)) (snd (fst a))) ems ++ map ECourse ins in
      kids ems sc (p ++ [".count"]) 0 entries nodes ->
      audits_loaded (p ++ [".count"]) 0 (match rk_audit k with Some l => l | None => [] end) audits ->
      asks k (ins <> []) (List.length nodes) z -> rk_bad k = false ->
      (0 <= z)%Z -> (rk_at_most k = true \/ (z <= Z.of_nat (List.length entries))%Z) ->
      written ems sc d p (Some (NCount KRule (mkCount (p ++ [".count"]) false z (rk_at_most k) audits) nodes))
  | w_named ems sc d p name b n : first_shape d (ShNamed name b) -> written_body b name p n -> written ems sc d p (Some n)
  | w_ref ems sc d p name b n : first_shape d (ShRef name) -> sc name = Some b -> written_body b name p n -> written ems sc d p (Some n)
  with written_opt : scope -> option rdata -> path -> option node -> Prop :=
  | wo_none sc p : written_opt sc None p None
  | wo_some sc d p o : written [] sc d p o -> written_opt sc (Some d) p o
  (** the children of a count: hidden rules are left out, but keep their number *)
  with kids : list added -> scope -> path -> nat -> list entry -> list node -> Prop :=
  | kd_nil ems sc p i : kids ems sc p i [] []
  | kd_one ems sc p i e es n ns : written_entry ems sc e (entry_path p i e) (Some n) -> kids ems sc p (S i) es ns -> kids ems sc p i (e :: es) (n :: ns)
  | kd_hidden ems sc p i e es ns : written_entry ems sc e (entry_path p i e) None -> kids ems sc p (S i) es ns -> kids ems sc p i (e :: es) ns
  with written_entry : list added -> scope -> entry -> path -> option node -> Prop :=
  (* a rule below the top can refer to what the emphases add *)
  | we_data ems sc d p o : written [] (with_added sc ems) d p o -> written_entry ems sc (EData d) p o
  | we_course ems sc r p x : load_course p r = Ok x -> written_entry ems sc (ECourse r) p (Some (NCourse KRule x))
  | we_emphasis ems sc s k b p n : with_added sc ems k = Some b -> written_body b k p n -> written_entry ems sc (EEmphasis s k) p (Some n)
  with written_body : rbody -> string -> path -> node -> Prop :=
  | wb_result b name p d n : rb_bad b = false -> rb_result b = Some d -> not_blank name ->
      written [] (own_scope b) d (p ++ ["%" ++ name]%string) (Some n) ->
      (forall s b' l, rb_reqs b = Some l -> In (s, b') l -> refers_to s n) ->
      written_body b name p (NReq KRule (mkReq (p ++ ["%" ++ name]%string) false name (rb_audited b) (rb_contract b) (rb_in_gpa b) (rb_disjoint b)) (Some n))
  | wb_none b name p : rb_bad b = false -> rb_result b = None -> rb_audited b = true -> not_blank name ->
      written_body b name p (NReq KRule (mkReq (p ++ ["%" ++ name]%string) false name (rb_audited b) (rb_contract b) (rb_in_gpa b) (rb_disjoint b)) None).
End Written.

Scheme written_min := Minimality for written Sort Prop
  with written_opt_min := Minimality for written_opt Sort Prop
  with kids_min := Minimality for kids Sort Prop
  with written_entry_min := Minimality for written_entry Sort Prop
  with written_body_min := Minimality for written_body Sort Prop.
Combined Scheme written_induction from written_min, written_opt_min, kids_min, written_entry_min, written_body_min.

(** ** Places *)

(** the paths of all parts of a tree, courses of proficiencies included *)
Fixpoint places (n : node) : list path :=
  match n with
  | NCourse _ r => [r_path r]
  | NQuery _ q => [q_path q]
  | NCount _ i items => n_path i :: flat_map places items
  | NReq _ i o => e_path i :: match o with Some x => places x | None => [] end
  | NCond _ i t f => d_path i :: places t ++ match f with Some x => places x | None => [] end
  | NProf _ i co => f_path i :: match co with Some (_, r) => [r_path r] | None => [] end
  end.
(** [q] lies below [p] *)
Definition below (p q : path) : Prop := exists s, s <> [] /\ wf_path s /\ q = p ++ s.

(** ** Trees as loaded *)

(** a course rule nothing has happened to *)
Definition fresh_course (r : crule) : Prop :=
  r_overridden r = false /\ r_claim r = None /\ r_excluded r = [] /\ r_auto_waived r = false /\ (r_from_claimed r = true -> r_allow r = true).
(** a part of a tree that was just loaded *)
Definition fresh_part (x : node) : Prop :=
  kind_of x = KRule /\
  match x with
  | NCourse _ r => fresh_course r
  | NQuery _ q => q_excluded q = [] /\ q_claims q = [] /\ q_forced q = [] /\ (q_source q = QClaimed -> q_allow q = true)
  | NCount _ i items => n_overridden i = false /\ (0 <= n_count i)%Z
  | NReq _ i o => e_overridden i = false /\ not_blank (e_name i) /\ (o = None -> e_audited i = true)
  | NCond _ i _ _ => True
  | NProf _ i co => f_overridden i = false /\ f_status i = Empty /\ forall k r, co = Some (k, r) -> k = KRule /\ fresh_course r
  end.

(** ** Hidden rules *)

(** the rule [y] is written somewhere in [d] *)
Inductive mentions : rdata -> rdata -> Prop :=
| mt_self d : mentions d d
| mt_then d x t y : rd_cond d = Some x -> rn_then x = Some t -> mentions t y -> mentions d y
| mt_else d x f y : rd_cond d = Some x -> rn_else x = Some f -> mentions f y -> mentions d y
| mt_item d k l x y : rd_count d = Some k -> listed k l -> In x l -> mentions x y -> mentions d y
| mt_named d s b y : rd_name d = Some (s, b) -> mentions_in b y -> mentions d y
with mentions_in : rbody -> rdata -> Prop :=
| mi_result b d y : rb_result b = Some d -> mentions d y -> mentions_in b y
| mi_req b s b' l y : rb_reqs b = Some l -> In (s, b') l -> mentions_in b' y -> mentions_in b y.
(** "$hide-when-false" is not used *)
Definition open_rule (y : rdata) : Prop := forall x, rd_cond y = Some x -> rn_hide x = false.
Definition nothing_hidden (d : rdata) : Prop := forall y, mentions d y -> open_rule y.
Definition nothing_hidden_in (b : rbody) : Prop := forall y, mentions_in b y -> open_rule y.
(** every count asks for no more children than it has *)
Definition enough_children (n : node) : Prop :=
  forall k i items, part_of n (NCount k i items) -> n_at_most i = true \/ (n_count i <= Z.of_nat (List.length items))%Z.

(** ** Inserted courses *)

(** the child an insertion adds to a count *)
Definition inserted_child (k : string) (f : bool) (x : node) : Prop :=
  exists r, x = NCourse KRule r /\ r_clbid r = Some k /\ r_inserted r = true /\ r_allow r = f.
(** all courses to be inserted at a count are among its children, in order and at the end *)
Definition insertions_present (cx : ctx) (n : node) : Prop :=
  forall k i items, part_of n (NCount k i items) ->
    exists before after : list node, items = before ++ after /\ Forall2 (fun e x => exists k f c, ex_act e = AInsert k f /\ forced_by_clbid cx k = Ok c /\ inserted_child (c_clbid c) f x)
        (get_inserts (cx_exc cx) (n_path i)) after.
