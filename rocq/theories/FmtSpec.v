(** What a formatted value must look like. *)
From Verif Require Import Base UdlSpec FmtModel.
Open Scope N_scope.

(** A numeral of [z]: a minus sign for a negative number, then digits 0-9a-f below the base whose
    positional value is |z|, without leading zeros. *)
Definition numeral (base : N) (z : Z) (s : list N) : Prop :=
  exists ds, s = (if (z <? 0)%Z then [45] else []) ++ map (fun d => item_char (Dig d false)) ds /\
    Forall (fun d => d < base) ds /\ positional base ds = Z.abs_N z /\
    (ds = [0] \/ exists d r, ds = d :: r /\ d <> 0).
Definition has_width (t : ity) (z : Z) : Prop :=
  match t with
  | IBool => z = 0%Z
  | IInt true w => 8 <= w /\ (- 2 ^ (Z.of_N w - 1) <= z < 2 ^ (Z.of_N w - 1))%Z
  | IInt false w => 8 <= w /\ (0 <= z < 2 ^ Z.of_N w)%Z
  end.
(** [text base v s]: [s] is how [v] is written. *)
Definition text (base : N) (v : value) (s : list N) : Prop :=
  match v with
  | VRange cs => s = cs
  | VPtr mem => exists r, mem = s ++ 0 :: r /\ ~ In 0 s
  | VChar c => s = [c]
  | VInt t z => has_width t z /\ numeral base z s
  end.
(** The two specifiers it supports. *)
Definition spec_text (hex : bool) : list N := if hex then [123; 58; 120; 125] else [123; 125].
Definition spec_base (hex : bool) : N := if hex then 16 else 10.
