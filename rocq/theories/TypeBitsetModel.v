(** Model of type_bitset (include/stdx/bitset.hpp:535-696).  Types are numbers; [ts] is the
    argument list Ts...; [w] the word width of the underlying bitset<N>.  A call that does
    not compile (failed static_assert) is [None]. *)
From Verif Require Import Base BitModel BitsetModel.
Open Scope ub_scope.
Open Scope N_scope.

(** boost::mp11::mp_find: the index of the first occurrence, or the length.
    bitset.hpp:525-529. *)
Fixpoint index_of (t : N) (l : list N) : N :=
  match l with [] => 0 | x :: r => if x =? t then 0 else 1 + index_of t r end.

(** boost::mp11::mp_unique: the first occurrences, in order. *)
Fixpoint unique_from (seen l : list N) : list N :=
  match l with
  | [] => []
  | x :: r => if existsb (N.eqb x) seen then unique_from seen r else x :: unique_from (x :: seen) r
  end.
Definition mp_unique (l : list N) : list N := unique_from [] l.

Section TypeBitset.
Variable pl : platform.
Variable ts : list N.
Variable w : N.

(** bitset.hpp:536-537. *)
Definition list_t : list N := mp_unique ts.
Definition tb_N : N := len list_t.

(** bitset.hpp:586-591. *)
Definition tb_of_types (us : list N) : option storage :=
  if forallb (fun u => index_of u list_t <? tb_N) us
  then place tb_N w (map (fun u => index_of u list_t) us) else None.

(** bitset.hpp:600-606. *)
Definition tb_get (s : storage) (t : N) : option bool :=
  if index_of t list_t <? len ts then get w s (index_of t list_t) else None.

(** bitset.hpp:608-618: set<Us...>(value); set<>() sets every bit. *)
Fixpoint tb_set_loop (s : storage) (us : list N) (v : bool) : option storage :=
  match us with [] => Some s | u :: r => s' <- set_one w s (index_of u ts) v;; tb_set_loop s' r v end.
Definition tb_set (s : storage) (us : list N) (v : bool) : option storage :=
  if forallb (fun u => index_of u ts <? tb_N) us then
    match us with [] => Some (set_all w s) | _ => tb_set_loop s us v end
  else None.
(** bitset.hpp:620-630 (clear is the same, :632-635). *)
Fixpoint tb_reset_loop (s : storage) (us : list N) : option storage :=
  match us with [] => Some s | u :: r => s' <- reset_one w s (index_of u ts);; tb_reset_loop s' r end.
Definition tb_reset (s : storage) (us : list N) : option storage :=
  if forallb (fun u => index_of u ts <? tb_N) us then
    match us with [] => Some (reset_all s) | _ => tb_reset_loop s us end
  else None.
(** bitset.hpp:637-647. *)
Fixpoint tb_flip_loop (s : storage) (us : list N) : option storage :=
  match us with [] => Some s | u :: r => s' <- flip_one w s (index_of u ts);; tb_flip_loop s' r end.
Definition tb_flip (s : storage) (us : list N) : option storage :=
  if forallb (fun u => index_of u ts <? tb_N) us then
    match us with [] => Some (flip_all w s) | _ => tb_flip_loop s us end
  else None.

(** make_callers, bitset.hpp:571-577, and the closure of :693: the types f is called with for the indices [l]. *)
Definition call_types (l : list N) : option (list N) :=
  fold_right (fun i acc => a <- acc;; t <- rd list_t i;; Some (t :: a)) (Some []) l.
(** bitset.hpp:690-695 with the default spec set_bit. *)
Definition tb_for_each_set (s : storage) : option (list N) :=
  l <- for_each_set pl tb_N w s;; call_types l.
(** With any spec (:24-61): the closure of :693 takes one argument, while the spec bit passes two. *)
Inductive tb_spec := TSet | TUnset | TBit.
Definition tb_for_each (spec : tb_spec) (s : storage) : option (list N) :=
  match spec with
  | TSet => tb_for_each_set s
  | TUnset => l <- for_each_unset pl tb_N w s;; call_types l
  | TBit => None
  end.

(** bitset.hpp:582-583. *)
Definition tb_default : storage := make tb_N w.
Definition tb_all_bits : option storage := all_ones tb_N w.
(** bitset.hpp:541-545. *)
Definition tb_eq (a b : storage) : option bool := eq tb_N w a b.
(** bitset.hpp:547-563 with :672-688, :565-569, :668-670. *)
Definition tb_or (a b : storage) : storage := or_assign a b.
Definition tb_and (a b : storage) : storage := and_assign a b.
Definition tb_xor (a b : storage) : storage := xor_assign a b.
Definition tb_minus (a b : storage) : storage := tb_and a (flip_all w b).
Definition tb_not (a : storage) : storage := complement w a.
(** bitset.hpp:649-666. *)
Definition tb_count (s : storage) : option N := count pl tb_N w s.
Definition tb_empty (s : storage) : option bool := c <- tb_count s;; Some (c =? 0).
Definition tb_all (s : storage) : option bool := c <- tb_count s;; Some (c =? tb_N).
Definition tb_any (s : storage) : option bool := c <- tb_count s;; Some (negb (c =? 0)).
Definition tb_none (s : storage) : option bool := tb_empty s.

(** bitset.hpp:586-591 given a type_bitset<us...> whose storage is [from]: it is an L<us...>, of which only
    the types are used. *)
Definition tb_convert (us : list N) (from : storage) : option storage := tb_of_types us.
End TypeBitset.
