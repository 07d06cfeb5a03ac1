(** Model of stdx::saturate_cast (include/stdx/numeric.hpp:36-61) for integer types other
    than bool (floating point is not modelled). sizeof is width/8, so comparing widths is
    comparing sizes. *)
From Verif Require Import Base Ints.
Open Scope Z_scope.

(** std::clamp<From>(v, lo, hi): undefined if hi < lo. *)
Definition clamp (v lo hi : Z) : option Z :=
  if hi <? lo then None else Some (if v <? lo then lo else if hi <? v then hi else v).

Definition saturate_cast (From To : ity) (from : Z) : option Z :=
  if width To <? width From then
    (* :41-44; to_min/to_max are converted to From *)
    option_map (cast To) (clamp from (cast From (tmin To)) (cast From (tmax To)))
  else if width From =? width To then
    (* :46-58 *)
    if negb (signed From) && signed To && (tmax To <? from) then Some (tmax To)
    else if signed From && negb (signed To) && (from <? 0) then Some 0
    else Some (cast To from)
  else Some (cast To from) (* :60 *).
