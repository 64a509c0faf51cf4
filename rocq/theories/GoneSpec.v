(** Exceptions for requirements that an area does not have. *)
From Coq Require Import List Bool String.
From Verif Require Import Transcript Prelude Status Course Claims Exceptions Loader AreaLoad LoaderSpec.
Import ListNotations.
Local Open Scope string_scope.

(** the rule, or a rule in it, is or declares a requirement of the name *)
Inductive defines : rdata -> string -> Prop :=
| df_then d x t n : rd_cond d = Some x -> rn_then x = Some t -> defines t n -> defines d n
| df_else d x f n : rd_cond d = Some x -> rn_else x = Some f -> defines f n -> defines d n
| df_item d k l x n : rd_count d = Some k -> listed k l -> In x l -> defines x n -> defines d n
| df_name d n b : rd_name d = Some (n, b) -> defines d n
| df_body d s b n : rd_name d = Some (s, b) -> defines_in b n -> defines d n
with defines_in : rbody -> string -> Prop :=
| di_result b d n : rb_result b = Some d -> defines d n -> defines_in b n
| di_req b n b' l : rb_reqs b = Some l -> In (n, b') l -> defines_in b n
| di_body b s b' l n : rb_reqs b = Some l -> In (s, b') l -> defines_in b' n -> defines_in b n.
(** the area has a requirement of the name *)
Inductive has_requirement (s : aspec) (n : string) : Prop :=
| hr_result d : ar_result s = Some d -> defines d n -> has_requirement s n
| hr_req b : In (n, b) (reqs_of (ar_reqs s)) -> has_requirement s n
| hr_in k b : In (k, b) (reqs_of (ar_reqs s)) -> defines_in b n -> has_requirement s n
| hr_emphasis e : In e (ar_emphases s) -> defines_in (em_body e) n -> has_requirement s n
| hr_prefix t : n = "Emphasis: " ++ t -> has_requirement s n
| hr_common : n = "Common Requirements" -> has_requirement s n.
(** the exception is at or beneath a requirement that would be the rule of the area, or one of the
    rules that the area counts, if the area had it *)
Definition for_gone_requirement (s : aspec) (x : exc) : Prop :=
  exists n post, ~ has_requirement s n /\
    (ex_path x = "$" :: ("%" ++ n) :: post \/ exists c, ex_path x = "$" :: ".count" :: c :: ("%" ++ n) :: post).
