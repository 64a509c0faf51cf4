(** dp/testbed/areas.py: specifications kept in a table beside the files they come from. *)
From Coq Require Import List Bool String.
From Verif Require Import Prelude.
Import ListNotations.
Local Open Scope string_scope.

(** area_cache (dp/testbed/db.py:88-95), [path] is its key *)
Record crow := mkCRow { cr_path : string; cr_key : string; cr_catalog : string; cr_code : string; cr_content : string; cr_json : string }.

Section Cache.
  Variables (spec : Type)
    (** [yaml.load] of the contents of a file *)
    (parse : string -> res spec)
    (** [json.dumps] and [json.loads] *)
    (dump : spec -> res string) (undump : string -> spec).

  (** the files as they are: the path of an area from the root, [filepath.resolve().relative_to(root)],
      [None] if it is not under it, and what the files contain *)
  Record disk := mkDisk { k_path : string -> string -> option string; k_content : string -> string -> option string }.

  (** areas.py:41-47 *)
  Definition cached (t : list crow) (catalog code content : string) : option crow :=
    find (fun r => (cr_catalog r =? catalog) && (cr_code r =? code) && (cr_content r =? content)) t.
  (** areas.py:58-62: a row with the path gets the contents only *)
  Fixpoint upsert (t : list crow) (new : crow) : list crow :=
    match t with
    | [] => [new]
    | r :: t => if cr_path r =? cr_path new
                then mkCRow (cr_path r) (cr_key r) (cr_catalog r) (cr_code r) (cr_content new) (cr_json new) :: t
                else r :: upsert t new
    end.
  (** areas.py:33-72 load_area *)
  Definition load_one (k : disk) (t : list crow) (catalog code : string) : res (option (string * spec)) * list crow :=
    match k_content k catalog code with
    | None => (Ok None, t)
    | Some content =>
      match cached t catalog code content with
      | Some r => (Ok (Some (cr_key r, undump (cr_json r))), t)
      | None =>
        match parse content with
        | Err e => (Err e, t)
        | Ok s =>
          let key := catalog ++ "/" ++ code in
          match k_path k catalog code, dump s with
          | None, _ => (Err ValueErr, t)
          | Some _, Err e => (Err e, t)
          | Some p, Ok j => (Ok (Some (key, s)), upsert t (mkCRow p key catalog code content j))
          end
        end
      end
    end.

  (** [area_specs[key] = spec] *)
  Fixpoint put (d : list (string * spec)) (key : string) (s : spec) : list (string * spec) :=
    match d with
    | [] => [(key, s)]
    | (k, v) :: d => if k =? key then (k, s) :: d else (k, v) :: put d key s
    end.
  Fixpoint load_each (k : disk) (t : list crow) (d : list (string * spec)) (l : list (string * string)) : res (list (string * spec)) * list crow :=
    match l with
    | [] => (Ok d, t)
    | (catalog, code) :: l =>
      match load_one k t catalog code with
      | (Err e, t') => (Err e, t')
      | (Ok None, t') => load_each k t' d l
      | (Ok (Some (key, s)), t') => load_each k t' (put d key s) l
      end
    end.
  (** areas.py:13-30 load_areas: one transaction *)
  Definition load_areas (k : disk) (t : list crow) (l : list (string * string)) : res (list (string * spec)) * list crow :=
    match load_each k t [] l with
    | (Ok d, t') => (Ok d, t')
    | (Err e, _) => (Err e, t)
    end.
End Cache.
