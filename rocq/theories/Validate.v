(** dp/bin/validate.py: checking specifications. *)
From Coq Require Import List ZArith QArith Bool String.
From Verif Require Import Transcript Prelude Dec Status Course Claims Exceptions Op Context CondExpr Predicate Limit Assertion Query CourseRule Tree Driver Area Loader LimitLoad AreaLoad.
Import ListNotations.
Local Open Scope string_scope.
Local Open Scope list_scope.

(** dp/data/student.py:60-79 Student(), dp/data/music.py:144-150 MusicProficiencies() *)
Definition default_student : student := mkStudent [] [] [] [] [] (mkProf PrNo PrNo PrNo PrNo PrNo).
(** validate.py:35, dp/constants.py:20-25 Constants(matriculation_year=200) *)
Definition validation_constants : constants := mkConst 200 0 (inl "") "".
(** validate.py:31-36 what is done with one file. [f] is what opening and reading it as YAML
    comes to: an error, or a specification. *)
Definition validate_file (f : res aspec) : res study :=
  let! s := f in load_area validation_constants [] default_student [] false s.
(** validate.py:22-43 the loop over the files: the tracebacks printed, each with its file *)
Fixpoint complaints (break_on_err : bool) (files : list (string * res aspec)) : list (string * err) :=
  match files with
  | [] => []
  | (name, f) :: t =>
    match validate_file f with
    | Ok _ => complaints break_on_err t
    | Err e => (name, e) :: if break_on_err then [] else complaints break_on_err t
    end
  end.
(** validate.py:14-47 main: the complaints and the exit code. Left out: the names printed as
    progress. *)
Definition validate_main (break_on_err : bool) (files : list (string * res aspec)) : list (string * err) * Z :=
  (complaints break_on_err files, 0%Z).
