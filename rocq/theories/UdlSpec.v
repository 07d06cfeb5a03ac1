(** Integer literals and what they denote. *)
From Verif Require Import Base.
Open Scope N_scope.

(** The characters after the base prefix: digits, in upper or lower case, and separators. *)
Inductive item := Dig (d : N) (upper : bool) | Sep.
Definition item_char (i : item) : N :=
  match i with
  | Sep => 39
  | Dig d upper => if d <? 10 then 48 + d else (if upper then 65 else 97) + (d - 10)
  end.
Definition digits (l : list item) : list N := flat_map (fun i => match i with Dig d _ => [d] | Sep => [] end) l.
Definition below (base : N) (l : list item) : Prop := Forall (fun d => d < base) (digits l).
(** The digit with [k] digits after it counts base^k. *)
Fixpoint positional (base : N) (ds : list N) : N :=
  match ds with [] => 0 | d :: r => d * base ^ len r + positional base r end.

Inductive literal_base := Decimal | Octal | Hex (upper : bool) | Binary (upper : bool).
Definition radix (b : literal_base) : N := match b with Decimal => 10 | Octal => 8 | Hex _ => 16 | Binary _ => 2 end.
Definition prefix (b : literal_base) : list N :=
  match b with
  | Decimal => []
  | Octal => [48]
  | Hex u => [48; if u then 88 else 120]
  | Binary u => [48; if u then 66 else 98]
  end.
(** A decimal literal does not start with 0 or a separator. *)
Definition well_formed (b : literal_base) (l : list item) : Prop :=
  below (radix b) l /\
  match b with Decimal => exists d u r, l = Dig d u :: r /\ d <> 0 | _ => True end.
Definition text (b : literal_base) (l : list item) : list N := prefix b ++ map item_char l.
(** Characters that may stand in a literal of the base. *)
Definition allowed (b : literal_base) (c : N) : Prop := exists i, item_char i = c /\ below (radix b) [i].
(** What follows the prefix belongs to this base and not to another one. *)
Definition own_prefix (b : literal_base) (cs : list N) : Prop :=
  match b, cs with
  | Decimal, c :: _ => c <> 48
  | Octal, c :: _ => ~ In c [120; 88; 98; 66]
  | _, _ => True
  end.
