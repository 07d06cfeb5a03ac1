(** Model of include/stdx/udls.hpp: parse_literal and the unit literals.  Characters are codes.
    [None] is a literal that does not compile. *)
From Verif Require Import Base.
Open Scope N_scope.

(** udls.hpp:11-17. *)
Definition is_digit_sep (c : N) : bool := c =? 39.
Definition is_decimal_digit (c : N) : bool := (48 <=? c) && (c <=? 57).
Definition is_octal_digit (c : N) : bool := (48 <=? c) && (c <=? 55).
Definition is_binary_digit (c : N) : bool := (48 <=? c) && (c <=? 49).
(** udls.hpp:19-20 (character codes below 256). *)
Definition force_lower_case (c : N) : N := N.lor c 32.
(** udls.hpp:21-24. *)
Definition is_hex_digit (c : N) : bool :=
  ((48 <=? c) && (c <=? 57)) || ((97 <=? force_lower_case c) && (force_lower_case c <=? 102)).
(** udls.hpp:26-28. *)
Definition integral_value (c : N) : N := if is_decimal_digit c then c - 48 else force_lower_case c - 97 + 10.
(** udls.hpp:30-37, for a result type of [w] bits (unsigned): each step wraps. *)
Definition maybe_add_digit (w base c s : N) : N :=
  if is_digit_sep c then s else ((s * base) mod 2 ^ w + integral_value c) mod 2 ^ w.
(** udls.hpp:39-45. *)
Definition raw_parse (w base : N) (cs : list N) : N := fold_left (fun s c => maybe_add_digit w base c s) cs 0.
Definition parse_base (w base : N) (ok : N -> bool) (cs : list N) : option N :=
  if forallb (fun c => ok c || is_digit_sep c) cs then Some (raw_parse w base cs) else None.
(** udls.hpp:47-71: the most specialised parser is chosen. *)
Definition parse_literal (w : N) (cs : list N) : option N :=
  match cs with
  | 48 :: x :: r =>
      if (x =? 120) || (x =? 88) then parse_base w 16 is_hex_digit r
      else if (x =? 98) || (x =? 66) then parse_base w 2 is_binary_digit r
      else parse_base w 8 is_octal_digit (x :: r)
  | [48] => parse_base w 8 is_octal_digit []
  | _ => parse_base w 10 is_decimal_digit cs
  end.
(** udls.hpp:88-96: conversion of unsigned long long to a 32-bit enumeration. *)
Definition lsb_literal (n : N) : N := n mod 2 ^ 32.
(** udls.hpp:109-134. *)
Definition k_literal (n : N) : N := n * 1000 mod 2 ^ 64.
Definition M_literal (n : N) : N := n * 1000000 mod 2 ^ 64.
Definition G_literal (n : N) : N := n * 1000000000 mod 2 ^ 64.
Definition ki_literal (n : N) : N := n * 1024 mod 2 ^ 64.
Definition Mi_literal (n : N) : N := (n * 1024 mod 2 ^ 64) * 1024 mod 2 ^ 64.
Definition Gi_literal (n : N) : N := ((n * 1024 mod 2 ^ 64) * 1024 mod 2 ^ 64) * 1024 mod 2 ^ 64.
