(** dp/bin/discover.py: the courses and attributes that areas refer to, and the tables kept of them. *)
From Coq Require Import List ZArith Bool String Ascii.
From Verif Require Import Prelude Dec Course Op Context CondExpr Predicate Limit Assertion Query CourseRule Tree Area.
Import ListNotations.
Local Open Scope string_scope.
Local Open Scope list_scope.

(** ** Attributes *)

(** the texts of a tuple; numbers, which no attribute is equal to, are left out *)
Definition texts_of (l : list scalar) : list string :=
  flat_map (fun x => match x with SStr s => [s] | _ => [] end) l.
(** dp/bin/discover.py:233-254 find_buckets_in_clause. A generator is the list of what it yields;
    every class of clauses is one of the five, so that line 254 is not reached. *)
Fixpoint buckets_in_clause (p : pred) : list string :=
  match p with
  | PAnd l | POr l => flat_map buckets_in_clause l
  | PIf _ t e => buckets_in_clause t ++ match e with Some x => buckets_in_clause x | None => [] end
  | PNot x => buckets_in_clause x
  | PLeaf l =>
    if l_key l =? "attributes" then
      match l_expected l with
      | VS (SStr s) => [s]
      | VS _ => []
      | VT xs => texts_of xs
      end
    else []
  end.
(** [if assertion.where] (dp/bin/discover.py:221-222) *)
Definition buckets_in_single (a : assertion) : list string :=
  match as_where a with Some p => buckets_in_clause p | None => [] end.
(** dp/bin/discover.py:219-230 find_buckets_in_assertion *)
Definition buckets_in_assertion (a : any_assertion) : list string :=
  match a with
  | APlain x => buckets_in_single x
  | AIf _ _ t e => buckets_in_single t ++ match e with Some x => buckets_in_single x | None => [] end
  | AWhen _ _ t => buckets_in_single t
  end.
(** dp/bin/discover.py:197-216 find_buckets_in_rule; the set of limits of a query is a list. Trees
    that are loaded hold rules only, so that kinds are not looked at. *)
Fixpoint buckets_in_rule (n : node) : list string :=
  match n with
  | NQuery _ q =>
    flat_map (fun l => buckets_in_clause (lm_where l)) (q_limit q)
      ++ match q_where q with Some p => buckets_in_clause p | None => [] end
      ++ flat_map buckets_in_assertion (q_asserts q)
  | NCount _ _ items => flat_map buckets_in_rule items
  | NReq _ _ r => match r with Some x => buckets_in_rule x | None => [] end
  | NCourse _ _ | NCond _ _ _ _ | NProf _ _ _ => []
  end.
(** dp/bin/discover.py:66-71 *)
Definition buckets_in_area (u : study) : list string :=
  flat_map (fun l => buckets_in_clause (lm_where l)) (u_limit u) ++ buckets_in_rule (u_result u).

(** ** Courses *)

(** [not x] of an optional text *)
Definition blank (o : option string) : bool := match o with Some s => s =? "" | None => true end.
Section Hidden.
  (** [rule.hidden], which the rest of the model leaves out *)
  Variable hidden : crule -> bool.
  (** dp/bin/discover.py:85-103; [return]s end the generator. [rule.course] is a text that is not
      empty when line 99 is reached. *)
  Definition courses_in_course (r : crule) : list string :=
    if blank (r_course r) && blank (r_crsid r) then []
    else if negb (blank (r_institution r)) || negb (blank (r_clbid r)) || negb (blank (r_ap r)) || negb (blank (r_name r)) then []
    else if hidden r then []
    else match r_crsid r with
         | Some s => if s =? "" then match r_course r with Some c => [c] | None => [] end else [s]
         | None => match r_course r with Some c => [c] | None => [] end
         end.
  (** dp/bin/discover.py:84-119 find_courses_in_rule *)
  Fixpoint courses_in_rule (n : node) : list string :=
    match n with
    | NCourse _ r => courses_in_course r
    | NProf _ _ c => match c with Some (_, r) => courses_in_course r | None => [] end
    | NCount _ _ items => flat_map courses_in_rule items
    | NReq _ _ r => match r with Some x => courses_in_rule x | None => [] end
    | NQuery _ _ | NCond _ _ _ _ => []
    end.
End Hidden.

(** [str.isdigit] of ASCII text *)
Definition digit (c : ascii) : bool := let n := nat_of_ascii c in (Nat.leb 48 n && Nat.leb n 57)%bool.
Fixpoint digits (s : string) : bool :=
  match s with EmptyString => true | String c t => digit c && digits t end.
Definition isdigit (s : string) : bool := negb (s =? "") && digits s.

(** ** The references of all files (dp/bin/discover.py:28-29, 42-71) *)
Record course_ref := mkCref { cr_code : string; cr_course : option string; cr_crsid : option string }.
Record bucket_ref := mkBref { br_code : string; br_catalog : string; br_bucket : string }.
(** the stem of the file, the stem of its folder, and the area it holds; a file whose name does
    not end in .yaml is not in the list (lines 43-44) *)
Record area_file := mkFile { fl_code : string; fl_catalog : string; fl_area : study }.
(** ['-' in code or '.' in code] (line 51) *)
Fixpoint has_mark (s : string) : bool :=
  match s with EmptyString => false | String c t => Ascii.eqb c "-" || Ascii.eqb c "." || has_mark t end.
Definition course_ref_of (code course : string) : course_ref :=
  if isdigit course then mkCref code (Some "") (Some course) else mkCref code (Some course) None.
Definition looked_at (l : list area_file) : list area_file := filter (fun f => negb (has_mark (fl_code f))) l.
Definition all_courses (hidden : crule -> bool) (l : list area_file) : list course_ref :=
  flat_map (fun f => map (course_ref_of (fl_code f)) (courses_in_rule hidden (u_result (fl_area f)))) (looked_at l).
Definition all_buckets (l : list area_file) : list bucket_ref :=
  flat_map (fun f => map (mkBref (fl_code f) (fl_catalog f)) (buckets_in_area (fl_area f))) (looked_at l).

(** ** The tables (dp/bin/discover.py:134-194) *)

(** [a = b] of sql on texts and NULL, as the condition of a statement *)
Definition sql_eq (a b : option string) : bool :=
  match a, b with Some x, Some y => x =? y | _, _ => false end.
Definition opt_eqb (a b : option string) : bool :=
  match a, b with Some x, Some y => x =? y | None, None => true | _, _ => false end.
Definition cref_eqb (a b : course_ref) : bool :=
  (cr_code a =? cr_code b) && opt_eqb (cr_course a) (cr_course b) && opt_eqb (cr_crsid a) (cr_crsid b).
(** INSERT ... ON CONFLICT DO NOTHING. The repository does not hold the definition of the table; it
    is taken to be a set of rows, that is, rows conflict exactly if they are the same. *)
Definition insert_cref (t : list course_ref) (r : course_ref) : list course_ref :=
  if existsb (cref_eqb r) t then t else t ++ [r].
(** dp/bin/discover.py:153-164: the row [x] of the table goes when the stale reference [s] is deleted *)
Definition deletes (s x : course_ref) : bool :=
  match cr_course s with
  | Some _ => (cr_code x =? cr_code s) && sql_eq (cr_course x) (cr_course s)
  | None => match cr_crsid s with
            | Some _ => (cr_code x =? cr_code s) && sql_eq (cr_crsid x) (cr_crsid s)
            | None => false
            end
  end.
(** dp/bin/discover.py:134-166 insert_course_refs: the rows are fetched once, before any is deleted *)
Definition sync_courses (found t : list course_ref) : list course_ref :=
  let t1 := fold_left insert_cref found t in
  fold_left (fun t s => if existsb (cref_eqb s) found then t else filter (fun x => negb (deletes s x)) t) t1 t1.

Definition bref_eqb (a b : bucket_ref) : bool :=
  (br_code a =? br_code b) && (br_catalog a =? br_catalog b) && (br_bucket a =? br_bucket b).
Definition insert_bref (t : list bucket_ref) (r : bucket_ref) : list bucket_ref :=
  if existsb (bref_eqb r) t then t else t ++ [r].
(** dp/bin/discover.py:169-194 insert_bucket_refs *)
Definition sync_buckets (found t : list bucket_ref) : list bucket_ref :=
  let t1 := fold_left insert_bref found t in
  fold_left (fun t s => if existsb (bref_eqb s) found then t else filter (fun x => negb (bref_eqb x s)) t) t1 t1.
