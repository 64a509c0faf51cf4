(** The claim table of dp/context.py and dp/claim.py. *)
From Coq Require Import List ZArith Bool String Ascii.
From Verif Require Import Prelude Dec Course.
Import ListNotations.

(** dp/claim.py:9-12 *)
Record claim := mkClaim { cl_course : course; cl_by : path; cl_failed : bool }.

(** dp/context.py:44 [claims : Dict[str, List[Claim]]]: an insertion-ordered
    dictionary from clbid to the recorded claims. *)
Definition claims := list (string * list claim).

(** dictionary lookup [d.get(k)] *)
Fixpoint dget {V} (d : list (string * V)) (k : string) : option V :=
  match d with
  | [] => None
  | (k', v) :: t => if String.eqb k k' then Some v else dget t k
  end.

(** [d[k] = v]: keeps the position of an existing key, appends a new key *)
Fixpoint dset {V} (d : list (string * V)) (k : string) (v : V) : list (string * V) :=
  match d with
  | [] => [(k, v)]
  | (k', v') :: t => if String.eqb k k' then (k', v) :: t else (k', v') :: dset t k v
  end.

(** [self.claims[clbid].append(claim)] on the defaultdict (dp/context.py:259 etc.) *)
Definition record_claim (t : claims) (cl : claim) : claims :=
  let k := c_clbid (cl_course cl) in
  match dget t k with
  | None => dset t k [cl]
  | Some l => dset t k (l ++ [cl])
  end.

(** dp/context.py:43 [multicountable : Dict[str, List[Tuple[str, ...]]]] *)
Definition multicountable := list (string * list path).

(** [r[0] == '%'] (dp/context.py:304,309): IndexError on an empty component *)
Definition is_req_component (r : string) : res bool :=
  match r with
  | EmptyString => Err IndexErr
  | String ch _ => Ok (Ascii.eqb ch "%"%char)
  end.

(** [tuple(r for r in path if r[0] == '%')] (dp/context.py:304) *)
Fixpoint reqs_only (p : path) : res path :=
  match p with
  | [] => Ok []
  | r :: t =>
    let! b := is_req_component r in
    let! t' := reqs_only t in
    Ok (if b then r :: t' else t')
  end.

(** python equality between a string and a tuple of strings is always False *)
Definition str_eq_tuple (s : string) (t : path) : bool := false.

(** dp/context.py:284-354 _make_multicountable_claim; the claim table is threaded *)
Definition make_multicountable_claim (mc : multicountable) (t : claims)
    (c : course) (p : path) : res (claim * claims) :=
  let! path_reqs_only := reqs_only p in                                     (* 304 *)
  let prior_claims := match dget t (c_clbid c) with Some l => l | None => [] end in (* 306 *)
  let applicable_reqpaths :=                                                (* 307 *)
    match dget mc (course_ident c) with Some l => l | None => [] end in
  let! prior_claimers := mapr (fun cl => reqs_only (cl_by cl)) prior_claims in (* 309 *)
  let ok := mkClaim c p false in
  let failed := mkClaim c p true in
  match find (fun reqpath => path_eqb reqpath path_reqs_only) applicable_reqpaths with (* 315-323 *)
  | None =>                                                                 (* 325-333 *)
    match prior_claims with
    | _ :: _ => Ok (failed, t)
    | [] => Ok (ok, record_claim t ok)
    end
  | Some applicable_reqpath =>
    (* 336-340: the loop variable ranges over the *components* (strings) of the
       applicable path and is looked up in a list of tuples *)
    let available_reqpaths :=
      filter (fun reqpath => negb (existsb (str_eq_tuple reqpath) prior_claimers))
             applicable_reqpath in
    match available_reqpaths with
    | [] =>                                                                 (* 342-349 *)
      match prior_claims with
      | _ :: _ => Ok (failed, t)
      | [] => Ok (ok, record_claim t ok)
      end
    | _ :: _ => Ok (ok, record_claim t ok)                                  (* 351-354 *)
    end
  end.

(** dp/context.py:233-282 make_claim *)
Definition make_claim (mc : multicountable) (t : claims) (c : course) (p : path)
    (allow_claimed : bool) : res (claim * claims) :=
  let ok := mkClaim c p false in
  if allow_claimed then Ok (ok, t)                                          (* 251-253 *)
  else
    match dget t (c_clbid c) with
    | None => Ok (ok, record_claim t ok)                                    (* 256-260 *)
    | Some prior_claims =>
      match dget mc (course_ident c) with                                   (* 269 *)
      | Some _ => make_multicountable_claim mc t c p
      | None =>
        match prior_claims with
        | _ :: _ => Ok (mkClaim c p true, t)                                (* 274-276 *)
        | [] => Ok (ok, record_claim t ok)                                  (* 279-282 *)
        end
      end
    end.

(** dp/context.py:85-86 has_claim *)
Definition has_claim (t : claims) (clbid : string) : bool :=
  match dget t clbid with
  | Some (_ :: _) => true
  | _ => false
  end.

(** A claim attempt: the arguments of one make_claim call. *)
Record attempt := mkAttempt { at_course : course; at_path : path; at_shared : bool }.

(** A whole history of make_claim calls on one context. *)
Fixpoint run_claims (mc : multicountable) (t : claims) (l : list attempt)
  : res (list claim * claims) :=
  match l with
  | [] => Ok ([], t)
  | a :: l' =>
    let! (cl, t1) := make_claim mc t (at_course a) (at_path a) (at_shared a) in
    let! (cls, t2) := run_claims mc t1 l' in
    Ok (cl :: cls, t2)
  end.
