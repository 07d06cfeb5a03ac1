(** Model of counting_iterator, include/stdx/iterator.hpp:37-118.

    The value type is an integral type of [w] bits, signed or not; int has [iw] bits.  Types
    narrower than int are promoted to int in arithmetic and converted back on assignment
    (modulo 2^w); overflow of a signed result is undefined ([None]); unsigned arithmetic wraps. *)
From Verif Require Import Base.
Open Scope ub_scope.
Open Scope Z_scope.

Record ity := Ity { bits : Z; is_signed : bool }.
Definition lo (t : ity) : Z := if is_signed t then - 2 ^ (bits t - 1) else 0.
Definition hi (t : ity) : Z := if is_signed t then 2 ^ (bits t - 1) - 1 else 2 ^ bits t - 1.
(** Conversion to [t]. *)
Definition conv (t : ity) (z : Z) : Z := (z - lo t) mod 2 ^ bits t + lo t.
(** The result of an arithmetic operation carried out in [t]. *)
Definition arith (t : ity) (z : Z) : option Z :=
  if is_signed t then (if (lo t <=? z) && (z <=? hi t) then Some z else None) else Some (conv t z).

Section Counting.
Variable iw : Z.
Variable t : ity.
Definition promoted : ity := if bits t <? iw then Ity iw true else t.
(** iterator.hpp:39: decltype(T - T). *)
Definition difference_type : ity := promoted.
(** iterator.hpp:50-58, 59-67: ++i and --i, computed in the promoted type. *)
Definition inc (i : Z) : option Z := r <- arith promoted (i + 1);; Some (conv t r).
Definition dec (i : Z) : option Z := r <- arith promoted (i - 1);; Some (conv t r).
(** iterator.hpp:69-99: i += d and i -= d; d is converted to difference_type. *)
Definition plus (i d : Z) : option Z := r <- arith promoted (i + conv difference_type d);; Some (conv t r).
Definition minus (i d : Z) : option Z := r <- arith promoted (i - conv difference_type d);; Some (conv t r).
(** iterator.hpp:100-104. *)
Definition diff (x y : Z) : option Z := arith promoted (x - y).
(** iterator.hpp:106-115. *)
Definition eq_it (x y : Z) : bool := x =? y.
Definition less (x y : Z) : bool := x <? y.

(** ++ applied [n] times; the values seen on the way by a loop from [i] to [last]. *)
Fixpoint incs (n : nat) (i : Z) : option Z := match n with O => Some i | S n' => j <- inc i;; incs n' j end.
Fixpoint decs (n : nat) (i : Z) : option Z := match n with O => Some i | S n' => j <- dec i;; decs n' j end.
Fixpoint visit (k : nat) (i last : Z) : option (list Z) :=
  if eq_it i last then Some []
  else match k with O => None | S k' => j <- inc i;; r <- visit k' j last;; Some (i :: r) end.
End Counting.
