(** The list of claimed courses of the option --claimed: dp/__main__.py:132-134. *)
From Coq Require Import List ZArith Bool String.
From Verif Require Import Prelude Dec Course Claims Tree Area Report.
Import ListNotations.
Local Open Scope string_scope.

(** [x < y] of the keys [[c.subject, c.number, c.year, c.term, c.section]] (dp/__main__.py:133):
    python compares lists at the first position where they differ, and None cannot be compared
    with text *)
Definition key_lt (a b : course) : res bool :=
  match String.compare (c_subject a) (c_subject b) with
  | Lt => Ok true | Gt => Ok false
  | Eq =>
    match String.compare (c_number a) (c_number b) with
    | Lt => Ok true | Gt => Ok false
    | Eq =>
      match Z.compare (c_year a) (c_year b) with
      | Lt => Ok true | Gt => Ok false
      | Eq =>
        match String.compare (c_term a) (c_term b) with
        | Lt => Ok true | Gt => Ok false
        | Eq =>
          match c_section a, c_section b with
          | None, None => Ok false
          | Some x, Some y => Ok (match String.compare x y with Lt => true | _ => false end)
          | _, _ => Err TypeErr
          end
        end
      end
    end
  end.
(** [sorted]: stable. Which pairs are compared depends on the algorithm; here elements are
    inserted one after the other. An algorithm that does not compare two neighbours of its result
    cannot know their order, so that a failing comparison is met by all of them
    (ClaimedProps.claimed_list_fails_exactly_when). *)
Fixpoint insert_course (x : course) (l : list course) : res (list course) :=
  match l with
  | [] => Ok [x]
  | y :: t => let! b := key_lt x y in
              if (b : bool) then Ok (x :: l) else let! r := insert_course x t in Ok (y :: r)
  end.
Fixpoint sort_onto (s l : list course) : res (list course) :=
  match l with [] => Ok s | x :: t => let! s := insert_course x s in sort_onto s t end.
Definition sort_courses (l : list course) : res (list course) := sort_onto [] l.
(** dp/data/course.py:128-132 pretty *)
Definition pretty (c : course) : string :=
  if c_institution c =? "STOLAF" then with_term c ++ " """ ++ c_name c ++ """"
  else "[" ++ c_institution c ++ "] " ++ with_term c ++ " """ ++ c_name c ++ """".
(** dp/__main__.py:132-134 *)
Definition claimed_list (v : area_result) : res string :=
  let! l := sort_courses (map cl_course (area_claims v)) in
  Ok (String.concat "," (map pretty l)).
