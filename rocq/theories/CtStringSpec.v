(** Strings as lists of characters. *)
From Verif Require Import Base CtStringModel.
(** An array a ct_string<N> can hold: N is at least 1. *)
Definition good (s : cts) : Prop := s <> [].
