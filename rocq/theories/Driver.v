(** The audit driver: dp/audit.py:67-166. The solutions come from a generator; for each of
    them the outcome of [sol.audit()], [rank()] and [status()] is given. Times are left out. *)
From Coq Require Import List ZArith QArith Bool String.
From Verif Require Import Prelude Status.
Import ListNotations.
Local Open Scope list_scope.

(** dp/audit.py:14-25 Arguments; the transcript_only and gpa_only switches are looked at in
    dp/run.py only *)
Record arguments := mkArgs {
  ar_estimate_only : bool;
  ar_print_all : bool;
  ar_print_only : list Z;
  ar_stop_after : option Z;
  ar_progress_every : Z;
  ar_audit_each : Z;
}.
Definition default_args : arguments := mkArgs false false [] None 1000 1.

Section Driver.
  (** the result of an audit *)
  Context {R : Type}.
  Record outcome := mkOut { o_result : R; o_rank : Q; o_status : status }.

  (** dp/audit.py:28-65 the messages, without their times and the transcript *)
  Inductive message :=
  | MEstimate (n : Z)
  | MNoAudits
  | MProgress (best_rank : Q) (best_i : Z) (iters total : Z)
  | MResult (r : R) (best_i : Z) (iters total : Z).
  (** what the driver does, in order: audits of solutions (by index) and messages *)
  Inductive event :=
  | EAudit (i : Z)
  | ESay (m : message).

  (** the local variables of the loop *)
  Record state := mkState {
    st_total : Z; st_audits : Z;
    st_best : option (R * Q * Z);                       (* best_sol, best_rank, best_i *)
    st_printed : bool;
  }.
  Definition in_only (args : arguments) (i : Z) : bool := existsb (Z.eqb i) (ar_print_only args).
  (** [a % b] *)
  Definition zmod (a b : Z) : res Z := if (b =? 0)%Z then Err ZeroDivErr else Ok (a mod b)%Z.
  (** dp/audit.py:106-115 *)
  Definition better (best : option (R * Q * Z)) (o : outcome) (i : Z) : R * Q * Z :=
    let this := (o_result o, o_rank o, i) in
    match best with
    | None => this
    | Some (b, q, j) => if Qle_bool (o_rank o) q then (b, q, j) else this
    end.
  (** a trace, and the exception that ended it *)
  Definition trace : Type := list event * option err.
  Definition also (l : list event) (t : trace) : trace := (l ++ fst t, snd t).
  (** dp/audit.py:147-166 *)
  Definition finish (args : arguments) (s : state) : trace :=
    match st_best s with
    | None => ([ESay MNoAudits], None)
    | Some (b, _, i) =>
      if ar_print_all args || st_printed s then ([], None)
      else ([ESay (MResult b i (st_audits s) (st_total s))], None)
    end.
  (** dp/audit.py:86-145: [l] and [e] are what is left of the generator *)
  Fixpoint drive (args : arguments) (s : state) (l : list (res outcome)) (e : option err) : trace :=
    match l with
    | [] => match e with Some x => ([], Some x) | None => finish args s end
    | out :: rest =>
      let i := (st_total s + 1)%Z in                                               (* 91 *)
      let skip := drive args (mkState i (st_audits s) (st_best s) (st_printed s)) rest e in
      if match ar_print_only args with [] => false | _ => negb (in_only args i) end then skip   (* 93-94 *)
      else match zmod i (ar_audit_each args) with                                  (* 96-97 *)
      | Err x => ([], Some x)
      | Ok (Zpos _ | Zneg _) => skip
      | Ok Z0 =>
        let n := (st_audits s + 1)%Z in                                            (* 99 *)
        match out with
        | Err x => ([EAudit i], Some x)                                            (* 101-103 *)
        | Ok o =>
          if inS (o_status o) WAIVED_AND_DONE then                                 (* 114-116 *)
            also [EAudit i] (finish args (mkState i n (Some (o_result o, o_rank o, i)) (st_printed s)))
          else
            let '(b, q, j) := better (st_best s) o i in
            let best := (b, q, j) in
            match zmod n (ar_progress_every args) with                             (* 118-127 *)
            | Err x => ([EAudit i], Some x)
            | Ok m =>
              let progress := if (m =? 0)%Z then [ESay (MProgress q j n i)] else [] in
              let printed := st_printed s || in_only args i in                     (* 129-130 *)
              let result := if ar_print_all args || in_only args i
                            then [ESay (MResult (o_result o) j n i)] else [] in    (* 132-143 *)
              let s' := mkState i n (Some best) printed in
              also (EAudit i :: progress ++ result)
                (if match ar_stop_after args with Some k => (k <=? n)%Z | None => false end
                 then finish args s' else drive args s' rest e)                    (* 145-146 *)
            end
        end
      end
    end.
  (** dp/audit.py:67-166 audit *)
  Definition audit_driver (args : arguments) (estimate : res Z) (l : list (res outcome)) (e : option err) : trace :=
    match estimate with
    | Err x => ([], Some x)
    | Ok n => also [ESay (MEstimate n)]
        (if ar_estimate_only args then ([], None) else drive args (mkState 0 0 None false) l e)
    end.
End Driver.
Arguments outcome : clear implicits.
Arguments message : clear implicits.
Arguments event : clear implicits.
Arguments state : clear implicits.
Arguments trace : clear implicits.
