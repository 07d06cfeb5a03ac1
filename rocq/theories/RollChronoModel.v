(** std::chrono durations that count with rollover_t: the conversions of the standard library
    ([time.duration.cast], [time.duration.cons]) through std::common_type (rollover.hpp:144-153) and the
    operators of rollover.hpp:16-20, 46-69, 110-127.  [None]: undefined behaviour. *)
From Verif Require Import Base Ints RolloverModel.
Open Scope Z_scope.
Open Scope ub_scope.

Section Chrono.
(** The width of int; that of std::intmax_t. *)
Variable iw mw : Z.
(** rollover.hpp:144-153: the common type of rollover_t of [w] and of [v] bits and std::intmax_t. *)
Definition common_width (w v : Z) : Z := Z.max (Z.max w v) mw.
(** std::chrono::duration_cast from a count of [w] bits to one of [v] bits, where the ratio of the
    periods is num / den: the four cases of [time.duration.cast]. *)
Definition duration_cast (w v num den : Z) (count : Z) : option Z :=
  let c := common_width w v in
  if num =? 1 then
    if den =? 1 then Some (r_make v count)
    else q <- r_div c iw (r_make c count) (r_make c den);; Some (r_make v q)
  else
    p <- r_mul c iw (r_make c count) (r_make c num);;
    if den =? 1 then Some (r_make v p) else q <- r_div c iw p (r_make c den);; Some (r_make v q).
(** The difference and the equality of a duration of [k] units and a duration of one unit: in the unit
    they have in common ([time.duration.nonmember], [time.duration.comparisons]). *)
Definition difference (w k : Z) (coarse fine : Z) : option Z :=
  a <- duration_cast w w k 1 coarse;; b <- duration_cast w w 1 1 fine;; r_sub w iw a b.
Definition equal (w k : Z) (coarse fine : Z) : option bool :=
  a <- duration_cast w w k 1 coarse;; b <- duration_cast w w 1 1 fine;; Some (r_eq a b).
End Chrono.
