(** Times that do not roll over, and what a counter of [w] bits shows of them. *)
From Coq Require Import ZArith.
Open Scope Z_scope.
Definition shows (w t : Z) : Z := t mod 2 ^ w.
(** int, std::intmax_t and the counters as on every platform: 64-bit std::intmax_t, no wider counter. *)
Definition platform (iw w : Z) : Prop := 0 < iw <= 64 /\ 0 < w <= 64 /\ (iw <= w \/ w + 2 <= iw).
(** The ratio of two periods. *)
Definition ratio (k : Z) : Prop := 0 < k < 2 ^ 63.
