(** dp/data/course_enums.py: points per grade. The order is [Op.grade_rank]. *)
From Coq Require Import ZArith.
From Verif Require Import Prelude Dec Course.
Local Open Scope Z_scope.

(** dp/data/course_enums.py:178-192 grade_code_to_points (None: no entry) *)
Definition grade_points (g : grade_code) : option dec :=
  match g with
  | GAplus => Some (mkDec 400 (-2)) | GA => Some (mkDec 400 (-2)) | GAminus => Some (mkDec 370 (-2))
  | GBplus => Some (mkDec 330 (-2)) | GB => Some (mkDec 300 (-2)) | GBminus => Some (mkDec 270 (-2))
  | GCplus => Some (mkDec 230 (-2)) | GC => Some (mkDec 200 (-2)) | GCminus => Some (mkDec 170 (-2))
  | GDplus => Some (mkDec 130 (-2)) | GD => Some (mkDec 100 (-2)) | GDminus => Some (mkDec 70 (-2))
  | GF => Some (mkDec 0 (-2))
  | _ => None
  end.
