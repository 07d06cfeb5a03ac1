(** What make_array, template_for_each and priority_t are to do. *)
From Verif Require Export Base Ints TupleSpec.

(** The first [n] numbers. *)
Definition counts (n : Z) (l : list Z) : Prop :=
  Z.of_nat (length l) = n /\ forall i x, nth_error l i = Some x -> x = Z.of_nat i.
(** All values of type [s] are values of type [t]. *)
Definition holds (t s : ity) : Prop := forall x, in_range s x -> in_range t x.
(** Overload number [i] is viable for a call with priority<N>, with priority [k]. *)
Definition candidate (N : nat) (os : list (nat * bool)) (i k : nat) : Prop := nth_error os i = Some (k, true) /\ (k <= N)%nat.
