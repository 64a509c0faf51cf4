(** What an audit comes to, and what those who listen make of it, said without messages. *)
From Coq Require Import List ZArith QArith Bool String Sorted Permutation.
From Verif Require Import Transcript Prelude Dec Status Course Exceptions Paths Context Predicate Tree Loader Driver Area AreaLoad Label StudentLoad Estimate Run Json Report Claimed Client QuerySpec JsonSpec.
Import ListNotations.
Local Open Scope string_scope.
Local Open Scope list_scope.

(** ** What an audit comes to *)
(** it broke off, there was nothing to audit, or this is the best result after so many audits *)
Inductive verdict := Broke (e : err) | NoWay | Best (v : area_result) (audits : nat).
Definition unfinished (o : outcome area_result) : Prop := ~ complete (o_status o).
(** [l] are the solutions as they come, audited or failing to be, [e] is how their stream ends;
    [u] of the audits were not complete *)
Inductive settles (e : option err) : list (res (outcome area_result)) -> verdict -> nat -> Prop :=
| se_done pre o rest : Forall unfinished pre -> complete (o_status o) ->
    settles e (map Ok pre ++ Ok o :: rest) (Best (o_result o) (List.length pre + 1)) (List.length pre)
| se_fails pre x rest : Forall unfinished pre -> settles e (map Ok pre ++ Err x :: rest) (Broke x) (List.length pre)
| se_ends pre x : Forall unfinished pre -> e = Some x -> settles e (map Ok pre) (Broke x) (List.length pre)
| se_none : e = None -> settles e [] NoWay 0
| se_best pre o post : e = None -> Forall unfinished (pre ++ o :: post) ->
    (forall x, In x pre -> (o_rank x < o_rank o)%Q) -> (forall x, In x post -> (o_rank x <= o_rank o)%Q) ->
    settles e (map Ok (pre ++ o :: post)) (Best (o_result o) (List.length (pre ++ o :: post))) (List.length (pre ++ o :: post)).

Section ComesTo.
  Variable tord : list (string * template) -> list (string * template).
  Variable ord : list course -> list course.
  Variable nord : list node -> list node.
  (** the student is audited against the area: what it comes to, the number that was announced,
      and how many audits were not complete *)
  Definition comes_to (d : sdata) (xs : list raw_entry) (s : spec) (announced : option Z) (vd : verdict) (u : nat) : Prop :=
    match run_student tord d xs s with
    | Err x => announced = None /\ vd = Broke x /\ u = 0%nat
    | Ok (es, st) =>
      match load_area (constants_of st) (templates_as_dict (sl_templates st)) (sl_student st) es false (sp_area s) with
      | Err x => announced = None /\ vd = Broke x /\ u = 0%nat
      | Ok a =>
        match area_estimate ord nord a (sl_student st) es with
        | Err x => announced = None /\ vd = Broke x /\ u = 0%nat
        | Ok n => announced = Some n /\
          settles (g_exn (area_solutions ord nord a (sl_student st) es)) (map (outcome_of ord a) (g_items (area_solutions ord nord a (sl_student st) es))) vd u
        end
      end
    end.
End ComesTo.

(** ** What is stored of the best result *)
(** the columns that both tables have *)
Record columns_tell (v : area_result) (n : nat) (iterations : Z) (rank max_rank gpa ok status : json) : Prop := mkTell {
  ct_iterations : iterations = Z.of_nat n;
  ct_rank : exists q m, area_rank v = Ok (q, m) /\ rank = JNum q /\ max_rank = JNum m;
  ct_gpa : gpa = JStr (str_of_dec (area_gpa v));
  ct_ok : exists b, ok = JBool b /\ (b = true <-> complete (area_status v));
  ct_status : exists t, status_text (area_status v) t /\ status = JStr t;
}.
(** the same value, the entries of dictionaries in any order *)
Inductive same_json : json -> json -> Prop :=
| sj_refl j : same_json j j
| sj_list l l' : Forall2 same_json l l' -> same_json (JList l) (JList l')
| sj_obj d d' p : Forall2 (fun a b => fst a = fst b /\ same_json (snd a) (snd b)) d d' -> Permutation d' p -> same_json (JObj d) (JObj p).
(** every dictionary in it is in the order of its keys *)
Definition not_after (a b : string * json) : Prop := String.compare (fst a) (fst b) <> Gt.
Inductive in_key_order : json -> Prop :=
| ko_list l : Forall in_key_order l -> in_key_order (JList l)
| ko_obj d : StronglySorted not_after d -> Forall (fun kv => in_key_order (snd kv)) d -> in_key_order (JObj d)
| ko_other j : (forall l, j <> JList l) -> (forall d, j <> JObj d) -> in_key_order j.

(** the student's data has all that the server writes *)
Definition known (p : person) : Prop := pn_name p <> None /\ pn_name_sort p <> None /\ pn_classification p <> None /\ pn_class p <> None.
(** an empty text is not a text *)
Definition if_any (o : option string) (x : option string) : Prop := (o = Some "" /\ x = None) \/ (o <> Some "" /\ x = o).
Record server_stores (p : person) (b : job) (v : area_result) (n : nat) (j : json) (r : server_row) : Prop := mkStores {
  ss_columns : columns_tell v n (sv_iterations r) (sv_rank r) (sv_max_rank r) (sv_gpa r) (sv_ok r) (sv_status r);
  ss_result : sv_result r = j;
  ss_version : sv_version r = JInt 3;
  ss_claimed : sv_claimed r = keyed_claims v;
  ss_job : sv_student r = jb_stnum b /\ sv_code r = jb_code b /\ sv_catalog r = jb_catalog b /\ sv_run r = jb_run b /\ sv_expires r = jb_expires b /\ sv_link_only r = jb_link_only b;
  ss_active : sv_active r = true <-> jb_link_only b = false;
  ss_person : pn_classification p = Some (sv_classification r) /\ if_any (pn_name p) (sv_name r) /\ if_any (pn_name_sort p) (sv_name_sort r) /\
    ((pn_class p = Some "None" /\ sv_class r = None) \/ (pn_class p <> Some "None" /\ sv_class r = pn_class p));
}.
Record testbed_stores (run_id stnum catalog code : string) (v : area_result) (n : nat) (j : json) (r : testbed_row) : Prop := mkTbStores {
  ts_columns : columns_tell v n (tb_iterations r) (tb_rank r) (tb_max_rank r) (tb_gpa r) (tb_ok r) (tb_status r);
  ts_result : same_json j (tb_result r) /\ in_key_order (tb_result r);
  ts_version : tb_version r = 3%Z;
  ts_key : tb_run r = run_id /\ tb_stnum r = stnum /\ tb_catalog r = catalog /\ tb_code r = code;
}.
(** when the testbed looks at the clock: after the estimate, after every 1000 audits that were
    not complete, and when there was nothing to audit *)
Definition looks (announced : option Z) (vd : verdict) (u : nat) : nat :=
  match announced with None => 0 | Some _ => 1 + u / 1000 + match vd with NoWay => 1 | _ => 0 end end.
Definition overdue (timeout : option Q) (clock : nat -> Q) (k : nat) : Prop :=
  exists t, timeout = Some t /\ ~ (t == 0)%Q /\ (t <= clock k)%Q.
