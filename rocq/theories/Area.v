(** Auditing an area of study: dp/area.py, from the loaded area on. *)
From Coq Require Import List ZArith QArith Bool String.
From Verif Require Import Prelude Dec Status Course Claims Exceptions Op Context CondExpr Paths Predicate Limit Apply Assertion Query CourseRule Tree Solve Transcript Driver.
Import ListNotations.
Local Open Scope string_scope.
Local Open Scope list_scope.

(** dp/area.py:29-45 AreaOfStudy; [excluded_clbids] and [version] are not looked at *)
Record study := mkStudy {
  u_name : string; u_kind : string; u_degree : option string; u_dept : option string; u_code : string;
  u_limit : list limit; u_result : node; u_multi : multicountable; u_common : list node }.
(** dp/data/student.py:61-79 Student, without the numbers; templates are left out *)
Record student := mkStudent {
  t_courses : list course; t_failed : list course; t_areas : list area_ptr;
  t_perf : list performance; t_slips : list slip; t_prof : proficiencies }.

(** ** Solutions *)

(** dp/area.py:170 [forced_clbids] *)
Definition forced_clbids (es : list exc) : list string :=
  flat_map (fun e => match ex_act e with AInsert k true => [k] | _ => [] end) es.
(** dp/area.py:171 [forced_courses] *)
Definition forced_courses (es : list exc) (cs : list course) : list (string * course) :=
  fold_left (fun d c => if smem (c_clbid c) (forced_clbids es) then dset d (c_clbid c) c else d) cs [].
(** dp/area.py:178-186 *)
Definition base_ctx (u : study) (st : student) (es : list exc) : ctx :=
  mkCtx [] [] [] [] (u_multi u) (group_exceptions es) (t_areas st) (t_perf st) (t_slips st) (t_prof st).
(** dp/area.py:195-200 *)
Definition limited_ctx (u : study) (st : student) (es : list exc) (lt : list course) : ctx :=
  with_transcript (base_ctx u st es) lt (forced_courses es (t_courses st)) (t_courses st) (t_failed st).

(** dp/area.py:257-278 AreaSolution: the solution and its context with the claims recorded
    in it when it is yielded *)
Record area_solution := mkAsol { z_ctx : ctx; z_claims : claims; z_sol : node }.

Section Order.
  (** iteration orders of sets, see Limit and Solve *)
  Variable ord : list course -> list course.
  Variable nord : list node -> list node.
  Variables (u : study) (st : student) (es : list exc).

  (** the limited transcripts (dp/area.py:191) *)
  Definition transcripts : gen (list course) := limited_transcripts ord (u_limit u) (forced_clbids es) (t_courses st).
  (** dp/area.py:191-223, the loop over the transcripts: [t] are the claims of the context at
      hand. Only the first solution of a transcript sees the claims of the children solved
      on their own; the claims are cleared after each solution (line 221). The optimization of
      193-200 is off. *)
  Fixpoint solutions_from (t : claims) (lts : list (list course)) (e : option err) : gen area_solution :=
    match lts with
    | [] => Gen [] e
    | lt :: rest =>
      let cx := limited_ctx u st es lt in
      let '(g, t1) := top_solutions ord nord cx t (u_result u) in
      match g with
      | Gen [] None => solutions_from t1 rest e
      | Gen [] (Some x) => gfail x
      | Gen (s :: ss) x =>
        gapp (Gen (mkAsol cx t1 s :: map (mkAsol cx []) ss) x) (solutions_from [] rest e)
      end
    end.
  (** dp/area.py:167-225 solutions *)
  Definition area_solutions : gen area_solution := solutions_from [] (g_items transcripts) (g_exn transcripts).

  (** *** The same with claim tables as shared objects

      A context refers to a table of claims that audits change in place. [store] holds the
      tables; the generator is suspended after a [yield] and goes on when asked. *)
  Definition store := list claims.
  Definition table (h : store) (i : nat) : claims := nth i h [].
  Fixpoint put (h : store) (i : nat) (t : claims) : store :=
    match h, i with
    | [], _ => []
    | _ :: r, O => t :: r
    | x :: r, S j => x :: put r j t
    end.
  (** a suspended generator: not started yet, after a [yield] (with the context, the rest of
      the solutions for this transcript, the other transcripts), or finished *)
  Inductive suspended :=
  | Fresh (cell : nat) (lts : list (list course))
  | Yielded (cx : ctx) (g : gen node) (lts : list (list course))
  | Over.
  (** what [next] gives: a solution with its context and the cell of its table *)
  Inductive delivery := Delivers (cx : ctx) (cell : nat) (s : node) | Stops | Raises (e : err).
  (** from the head of the loop over transcripts *)
  Fixpoint advance (h : store) (cell : nat) (lts : list (list course)) (e : option err) : delivery * store * suspended :=
    match lts with
    | [] => (match e with Some x => Raises x | None => Stops end, h, Over)
    | lt :: rest =>
      let cx := limited_ctx u st es lt in
      let '(g, t1) := top_solutions ord nord cx (table h cell) (u_result u) in
      let h1 := put h cell t1 in
      match g with
      | Gen [] None => advance h1 cell rest e
      | Gen [] (Some x) => (Raises x, h1, Over)
      | Gen (s :: ss) x => (Delivers cx cell s, h1, Yielded cx (Gen ss x) rest)
      end
    end.
  (** [next(...)]; line 221 makes a new table *)
  Definition next (h : store) (g : suspended) (e : option err) : delivery * store * suspended :=
    match g with
    | Fresh cell lts => advance h cell lts e
    | Yielded cx (Gen l x) lts =>
      let cell := List.length h in
      let h1 := h ++ [[]] in
      match l, x with
      | s :: ss, _ => (Delivers cx cell s, h1, Yielded cx (Gen ss x) lts)
      | [], Some y => (Raises y, h1, Over)
      | [], None => advance h1 cell lts e
      end
    | Over => (Stops, h, Over)
    end.
End Order.

(** ** Audit *)

(** dp/area.py:296-346 audit_common_major_requirements, from the claims of the result. The
    [try] of 321-325 also catches an IndexError of [find_best_solution]. *)
Definition degree_name (d : option string) : string := match d with Some s => s | None => "None" end.
Definition best_or_fail (ord : list course -> list course) (cx : ctx) (n : node) : res node :=
  let! (b, _) := find_best_solution ord cx [] n false in
  match b with Some r => Ok r | None => Err AssertErr end.
Definition nth_rule (l : list node) (i : nat) : res node :=
  match nth_error l i with Some n => Ok n | None => Err IndexErr end.
Definition common_result (degree : option string) (items : list node) : node :=
  NReq KRes (mkReq ["$"; "%Common Requirements"] false ("Common " ++ degree_name degree ++ " Major Requirements")%string false false false None)
    (Some (NCount KRes (mkCount ["$"; "%Common Requirements"; ".count"] false (Z.of_nat (List.length items)) false []) items)).
Definition common_exceptions (cx : ctx) (p : path) : res (list (string * course)) :=
  let! cs := mapr (fun e => forced_by_clbid cx (exc_clbid e)) (get_inserts_beneath (cx_exc cx) p) in
  Ok (fold_left (fun d c => dset d (c_clbid c) c) cs []).
Definition claimed_ctx (ord : list course -> list course) (cx : ctx) (result : node) (forced : list (string * course)) : ctx :=
  with_transcript cx (ord (matched_of (claims_of result))) forced [] [].
Definition whole_ctx (cx : ctx) : ctx := with_transcript cx (cx_excluded cx) [] [] [].
Definition audit_common (ord : list course -> list course) (u : study) (cx : ctx) (result : node) : res node :=
  let! r0 := nth_rule (u_common u) 0 in
  let! forced := common_exceptions cx (path_of r0) in
  let ccx := claimed_ctx ord cx result forced in
  let! a := best_or_fail ord ccx r0 in
  let! r1 := nth_rule (u_common u) 1 in
  let! b := best_or_fail ord ccx r1 in
  let! o := match (let! r2 := nth_rule (u_common u) 2 in best_or_fail ord (whole_ctx cx) r2) with
            | Ok x => Ok [x]
            | Err IndexErr => Ok []
            | Err e => Err e
            end in
  Ok (common_result (u_degree u) (a :: b :: o)).
(** dp/area.py:350-370 AreaResult: the area with a context and a result *)
Record area_result := mkAres { v_area : study; v_ctx : ctx; v_result : node }.
(** dp/area.py:280-294 audit, with the claims the table of the solution holds afterwards *)
Definition area_audit (ord : list course -> list course) (u : study) (z : area_solution) : res (area_result * claims) :=
  let! (r, t') := audit ord (z_ctx z) (z_claims z) (z_sol z) in
  if (u_kind u =? "major") then
    let! common := audit_common ord u (z_ctx z) r in
    match r with
    | NCount k i items =>
      Ok (mkAres u (z_ctx z) (NCount k (mkCount (n_path i) (n_overridden i) (n_count i + 1)%Z (n_at_most i) (n_audits i)) (items ++ [common])), t')
    | _ => Err AssertErr
    end
  else Ok (mkAres u (z_ctx z) r, t').

(** ** Results *)

(** dp/base/bases.py:94-95, dp/result/course.py:49-53 is_waived *)
Definition node_waived (n : node) : bool :=
  match n with NCourse k r => c_waived k r | _ => overridden n end.
(** dp/area.py:383-391 status *)
Definition area_status (v : area_result) : status := if node_waived (v_result v) then Waived else status_of (v_result v).
(** dp/area.py:393-397 rank *)
Definition area_rank (v : area_result) : res (Q * Q) := rank_of (v_result v).
(** dp/area.py:399-400, 418-419 claims, claims_for_gpa *)
Definition area_claims (v : area_result) : list claim := claims_of (v_result v).
Definition area_gpa_claims (v : area_result) : list claim := gpa_claims_of (v_result v).
(** dp/area.py:372-381 gpa; [matched_for_gpa] is dp/base/bases.py:88-89. The average does not
    depend on the order of the courses. *)
Definition area_gpa (v : area_result) : dec :=
  grade_point_average
    (if u_kind (v_area v) =? "degree" then cx_failed (v_ctx v) else matched_of (area_gpa_claims v)).

(** dp/data/course_enums.py:25-34 the values of SubType *)
Definition sub_type_value (s : sub_type) : string :=
  match s with
  | StDiscussion => "discussion" | StEnsemble => "ensemble" | StFlac => "flac" | StLab => "lab"
  | StResearch => "research" | StSeminar => "seminar" | StTopic => "topic" | StNormal => ""
  end.
(** dp/area.py:403-405 sort_claims_by_time *)
Definition claim_cmp (a b : claim) : comparison :=
  let c := cl_course a in
  let d := cl_course b in
  then_cmp (String.compare (c_subject c) (c_subject d))
  (then_cmp (String.compare (c_number c) (c_number d))
  (then_cmp (String.compare (or_empty (c_section c)) (or_empty (c_section d)))
  (then_cmp (String.compare (sub_type_value (c_sub_type c)) (sub_type_value (c_sub_type d)))
  (then_cmp (Z.compare (c_year c) (c_year d))
            (String.compare (c_term c) (c_term d)))))).
Definition claim_leb (a b : claim) : bool := match claim_cmp a b with Gt => false | _ => true end.
(** dp/area.py:402-416 keyed_claims *)
Definition by_clbid (l : list claim) : list (string * list claim) :=
  fold_left (fun d cl => let k := c_clbid (cl_course cl) in
                         dset d k ((match dget d k with Some l => l | None => [] end) ++ [cl])) l [].
Definition keyed_claims (v : area_result) : list (string * list path) :=
  map (fun kv => (fst kv, map cl_by (snd kv)))
      (by_clbid (isort claim_leb (filter (fun cl => negb (cl_failed cl)) (area_claims v)))).

(** ** The driver over an area (dp/audit.py:73-140) *)

(** what the driver sees of an audited solution *)
Definition outcome_of (ord : list course -> list course) (u : study) (z : area_solution) : res (outcome area_result) :=
  let! (v, _) := area_audit ord u z in
  let! (q, _) := area_rank v in
  Ok (mkOut v q (area_status v)).

(** ** Solutions and audits, interleaved in any way *)

(** what a caller may do with the generator of solutions: ask for the next one, or audit one
    it was given before *)
Inductive action := ANext | AAudit (k : nat) (junk : claims).
(** what it gets to see *)
Inductive sight := SawNext (d : option (ctx * node)) (e : option err) | SawAudit (r : res area_result) | SawNothing.
Record world := mkWorld { w_store : store; w_gen : suspended; w_given : list (ctx * nat * node) }.
Section World.
  Variable ord : list course -> list course.
  Variable nord : list node -> list node.
  Variables (u : study) (st : student) (es : list exc).
  (** [junk] is what an audit that raised leaves in the table *)
  Definition act (w : world) (a : action) : world * sight :=
    match a with
    | ANext =>
      let '(d, h, g) := next ord nord u st es (w_store w) (w_gen w) (g_exn (transcripts ord u st es)) in
      match d with
      | Delivers cx cell s => (mkWorld h g (w_given w ++ [(cx, cell, s)]), SawNext (Some (cx, s)) None)
      | Stops => (mkWorld h g (w_given w), SawNext None None)
      | Raises e => (mkWorld h g (w_given w), SawNext None (Some e))
      end
    | AAudit k junk =>
      match nth_error (w_given w) k with
      | None => (w, SawNothing)
      | Some (cx, cell, s) =>
        match area_audit ord u (mkAsol cx (table (w_store w) cell) s) with
        | Ok (v, t') => (mkWorld (put (w_store w) cell t') (w_gen w) (w_given w), SawAudit (Ok v))
        | Err e => (mkWorld (put (w_store w) cell junk) (w_gen w) (w_given w), SawAudit (Err e))
        end
      end
    end.
  (** a new generator has an empty table *)
  Definition start : world := mkWorld [[]] (Fresh 0 (g_items (transcripts ord u st es))) [].
  Definition after (l : list action) : world := fold_left (fun w a => fst (act w a)) l start.
End World.
