(** What the audit driver does, independently of how. *)
From Coq Require Import List ZArith QArith Bool String.
From Verif Require Import Prelude Status QuerySpec Driver.
Import ListNotations.
Local Open Scope list_scope.

Section Spec.
  Context {R : Type} (args : arguments).
  (** the solution with this index is to be audited *)
  Definition chosen (i : Z) : Prop :=
    (ar_print_only args = [] \/ In i (ar_print_only args)) /\ (ar_audit_each args | i)%Z.
  Definition finished (o : outcome R) : Prop := complete (o_status o).
  (** the solutions of a stream, numbered from [from + 1] *)
  Inductive numbered {A} : Z -> list A -> list (Z * A) -> Prop :=
  | nu_nil from : numbered from [] []
  | nu_cons from x l ns : numbered (from + 1)%Z l ns -> numbered from (x :: l) ((from + 1, x)%Z :: ns).
  (** the chosen ones among numbered solutions, in order *)
  Inductive picks {A} : list (Z * A) -> list (Z * A) -> Prop :=
  | pk_nil : picks [] []
  | pk_take i x l ps : chosen i -> picks l ps -> picks ((i, x) :: l) ((i, x) :: ps)
  | pk_skip i x l ps : ~ chosen i -> picks l ps -> picks ((i, x) :: l) ps.
  (** the [n]th audit is the last one allowed *)
  Definition last_allowed (n : nat) : Prop := exists k, ar_stop_after args = Some k /\ (k <= Z.of_nat n)%Z.
  (** [done], audited after [n] others, is where the audits of the chosen ones stop:
      everything before its last element is unfinished and allows more; the third argument
      tells whether they stopped before the chosen ones were used up *)
  Inductive worked {A} (fin : A -> Prop) : nat -> list A -> list A -> bool -> Prop :=
  | wk_end n : worked fin n [] [] false
  | wk_done n x rest : fin x -> worked fin n (x :: rest) [x] true
  | wk_stop n x rest : ~ fin x -> last_allowed (S n) -> worked fin n (x :: rest) [x] true
  | wk_more n x rest done b : ~ fin x -> ~ last_allowed (S n) -> worked fin (S n) rest done b -> worked fin n (x :: rest) (x :: done) b.

  Definition rank_at (p : Z * outcome R) : Q := o_rank (snd p).
  (** the best of the audits so far: the first of the largest rank *)
  Definition leads (l : list (Z * outcome R)) (p : Z * outcome R) : Prop :=
    exists pre post, l = pre ++ p :: post /\
      (forall x, In x pre -> (rank_at x < rank_at p)%Q) /\ (forall x, In x post -> (rank_at x <= rank_at p)%Q).
  Definition wins (l : list (Z * outcome R)) (p : Z * outcome R) : Prop :=
    (exists pre, l = pre ++ [p] /\ finished (snd p)) \/
    ((forall x, In x l -> ~ finished (snd x)) /\ leads l p).
  Definition printed (i : Z) : Prop := ar_print_all args = true \/ In i (ar_print_only args).
  Definition say_if (P : Prop) (m : message R) (l : list (event R)) : Prop := (P /\ l = [ESay m]) \/ (~ P /\ l = []).
  (** the audits [l], made after those of [seen], and what is said meanwhile *)
  Inductive told : list (Z * outcome R) -> list (Z * outcome R) -> list (event R) -> Prop :=
  | tl_nil seen : told seen [] []
  | tl_done seen i o : finished o -> told seen [(i, o)] [EAudit i]
  | tl_more seen i o rest evs j b progress result : ~ finished o -> leads (seen ++ [(i, o)]) (j, b) ->
      let n := Z.of_nat (List.length seen + 1) in
      say_if (ar_progress_every args | n)%Z (MProgress (o_rank b) j n i) progress ->
      say_if (printed i) (MResult (o_result o) j n i) result ->
      told (seen ++ [(i, o)]) rest evs ->
      told seen ((i, o) :: rest) (EAudit i :: progress ++ result ++ evs).
  (** what is said last; [total] solutions have been generated *)
  Inductive closing (l : list (Z * outcome R)) (total : Z) : list (event R) -> Prop :=
  | cl_none : l = [] -> closing l total [ESay MNoAudits]
  | cl_silent : l <> [] -> ar_print_all args = true \/ (exists i o, In (i, o) l /\ ~ finished o /\ In i (ar_print_only args)) -> closing l total []
  | cl_best i o : ar_print_all args = false -> (forall i o, In (i, o) l -> In i (ar_print_only args) -> finished o) ->
      wins l (i, o) -> closing l total [ESay (MResult (o_result o) i (Z.of_nat (List.length l)) total)].
  (** the number of solutions generated when [l] have been audited *)
  Definition generated {A} (l : list (Z * A)) (stopped : bool) (len : nat) (total : Z) : Prop :=
    match stopped with
    | true => exists pre i x, l = pre ++ [(i, x)] /\ total = i
    | false => total = Z.of_nat len
    end.
  (** the audit of a solution ends the loop *)
  Definition ends (p : Z * res (outcome R)) : Prop :=
    match snd p with Ok o => finished o | Err _ => True end.
  Definition went (p : Z * outcome R) : Z * res (outcome R) := (fst p, Ok (snd p)).
  (** the trace of a loop over a generator that ends with [e] after [full] solutions, when
      the audits [done] are made after those of [seen] *)
  Inductive runs (seen : list (Z * outcome R)) (e : option err) (full : nat) : list (Z * res (outcome R)) -> bool -> trace R -> Prop :=
  | rn_ok done b evs total fin : told seen done evs -> generated done b full total -> (b = false -> e = None) ->
      closing (seen ++ done) total fin -> runs seen e full (map went done) b (evs ++ fin, None)
  | rn_generator done evs x : told seen done evs -> e = Some x -> runs seen e full (map went done) false (evs, Some x)
  | rn_audit done evs i x b : told seen done evs -> runs seen e full (map went done ++ [(i, Err x)]) b (evs ++ [EAudit i], Some x).
End Spec.
