(** What the claim table is supposed to do, stated without the model's helpers. *)
From Coq Require Import List Bool String Ascii.
From Verif Require Import Prelude Course Claims.
Import ListNotations.

(** The recorded claims of a class id. *)
Definition recorded (t : claims) (clbid : string) : list claim :=
  match find (fun kv => String.eqb (fst kv) clbid) t with
  | Some (_, l) => l
  | None => []
  end.

(** A class id has been claimed. *)
Definition claimed (t : claims) (clbid : string) : Prop := recorded t clbid <> [].

(** Names of requirements start with a percent sign in a path. *)
Definition req_name (s : string) : Prop := exists rest, s = String "%"%char rest.

(** [reqs_of p rs]: [rs] are the requirement names on path [p], in order. *)
Inductive reqs_of : path -> path -> Prop :=
| ro_nil : reqs_of [] []
| ro_req s p rs : req_name s -> reqs_of p rs -> reqs_of (s :: p) (s :: rs)
| ro_other s p rs : s <> ""%string -> ~ req_name s -> reqs_of p rs -> reqs_of (s :: p) rs.

(** Path components produced by the loader are never empty. *)
Definition path_ok (p : path) : Prop := Forall (fun s => s <> ""%string) p.

(** The first entry of the multicountable table for a course identity. *)
Definition multi_entry (mc : multicountable) (ident : string) (ps : list path) : Prop :=
  exists pre post, mc = pre ++ (ident, ps) :: post /\ ~ In ident (map fst pre).

Definition is_multicountable (mc : multicountable) (c : course) : Prop :=
  In (c_identity c) (map fst mc).

(** The specification lists requirement path [p] for course [c]. *)
Definition listed (mc : multicountable) (c : course) (p : path) : Prop :=
  exists ps rs, multi_entry mc (c_identity c) ps /\ In rs ps /\ reqs_of p rs /\ rs <> [].

(** Intended outcome of one attempt: it fails exactly when it asks for exclusive use of
    an already claimed course at a path that is not listed for it. *)
Definition must_fail (mc : multicountable) (t : claims) (a : attempt) : Prop :=
  at_shared a = false /\ claimed t (c_clbid (at_course a)) /\
  ~ listed mc (at_course a) (at_path a).

(** No class id has an empty record list (true of every table built by claims). *)
Definition table_ok (t : claims) : Prop :=
  NoDup (map fst t) /\
  Forall (fun kv => snd kv <> []) t /\
  Forall (fun kv => Forall (fun cl => c_clbid (cl_course cl) = fst kv /\
                              cl_failed cl = false /\ path_ok (cl_by cl)) (snd kv)) t.

(** Histories of attempts made at loader-produced paths. *)
Definition good_history (l : list attempt) : Prop := Forall (fun a => path_ok (at_path a)) l.

(** No attempt of the history on class id [k] is for a multicountable course. *)
Definition plain_in (mc : multicountable) (k : string) (l : list attempt) : Prop :=
  forall a, In a l -> c_clbid (at_course a) = k -> ~ is_multicountable mc (at_course a).
