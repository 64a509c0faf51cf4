(** dp/bin/index.py: the areas of a folder of students, kept in a table. *)
From Coq Require Import List ZArith Bool String Ascii.
From Verif Require Import Prelude Dec Paths ListFacts Catalog.
Import ListNotations.
Local Open Scope string_scope.

(** ** Files *)
(** a value for [catalog]: text, something without [split], or no such key *)
Inductive cat_value := CatText (s : string) | CatOther | CatMissing.
(** an area of a student's file; [None] where the key is missing. Values are texts. *)
Record farea := mkFArea { fa_name : option string; fa_kind : option string; fa_code : option string; fa_dept : option string;
                          fa_status : option string; fa_degree : option string; fa_catalog : cat_value }.
(** a student's file: [str] of the number, the areas, the catalog *)
Record fdata := mkFData { fd_stnum : option string; fd_areas : option (list farea); fd_catalog : cat_value }.
(** the name without [.json], and the contents unless they are not json *)
Definition file := (string * option fdata)%type.

(** ** The table (index.py:44-55) *)
Record irow := mkIRow { i_stnum : string; i_name : string; i_type : string; i_catalog : string; i_code : string;
                        i_dept : string; i_status : string; i_degree : string }.

Definition need (o : option string) : res string := match o with Some s => Ok s | None => Err KeyErr end.
(** [s.split('-')[0]] *)
Fixpoint before_dash (s : string) : string :=
  match s with "" => "" | String c t => if Ascii.eqb c "-" then "" else String c (before_dash t) end.
(** index.py:75 [area.get('catalog', data['catalog']).split('-')[0]]; the default is looked up first *)
Definition area_year (own data : cat_value) : res string :=
  match data with
  | CatMissing => Err KeyErr
  | _ =>
    match (match own with CatMissing => data | _ => own end) with
    | CatText s => Ok (before_dash s)
    | _ => Err OtherErr
    end
  end.
(** index.py:72-75 *)
Definition row_of (d : fdata) (a : farea) : res irow :=
  let! n := need (fd_stnum d) in
  let! name := need (fa_name a) in
  let! kind := need (fa_kind a) in
  let! code := need (fa_code a) in
  let dept := match fa_dept a with Some s => s | None => "" end in
  let! status := need (fa_status a) in
  let! degree := need (fa_degree a) in
  let! cat := area_year (fa_catalog a) (fd_catalog d) in
  Ok (mkIRow n name kind cat code dept status degree).
(** index.py:68-75 *)
Definition rows_of (f : file) : res (list irow) :=
  match snd f with
  | None => Err ValueErr
  | Some d => match fd_areas d with None => Err KeyErr | Some l => mapr (row_of d) l end
  end.
(** index.py:57-62 *)
Definition known (table : list irow) (name : string) : bool := existsb (fun r => i_stnum r =? name) table.
Definition to_index (table : list irow) (files : list file) : list file := filter (fun f => negb (known table (fst f))) files.

(** ** The listing (index.py:80-92) *)
Fixpoint leading_digits (s : string) (z : Z) : Z :=
  match s with
  | "" => z
  | String c t => match digit_val c with Some d => leading_digits t (10 * z + d)%Z | None => z end
  end.
(** [catalog || '-' || substr(catalog + 1, 3, 2)]: text that is added to is a number as far as it
    begins with digits (no blanks, signs, points or exponents) *)
Definition folder_text (catalog : string) : string :=
  catalog ++ "-" ++ substring 2 2 (str_of_Z (leading_digits catalog 0 + 1)).
Definition listed := (string * string * string)%type.
Definition line_of (r : irow) : listed := (i_stnum r, folder_text (i_catalog r), i_code r).
Definition stnum_le (a b : irow) : bool := str_le (i_stnum a) (i_stnum b).

(** index.py:42-94. [order] is the order of a set of names; [query] the condition, if it is one. The
    inserts are undone when anything fails, [create table] is not. *)
Section Run.
  Variables (order : list file -> list file) (query : option (irow -> bool)).
  Definition run_index (table : list irow) (files : list file) : res (list listed) * list irow :=
    match mapr rows_of (order (to_index table files)) with
    | Err e => (Err e, table)
    | Ok l =>
      let table' := table ++ List.concat l in
      match query with
      | None => (Err OtherErr, table)
      | Some q => (Ok (map line_of (isort stnum_le (filter q table'))), table')
      end
    end%list.
End Run.
