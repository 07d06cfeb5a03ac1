(** Which types have a tombstone, and which values are one. *)
From Verif Require Import Base TombModel.

Inductive typed : val -> ty -> Prop :=
| typed_num x : typed (Num x) Floating
| typed_address a : typed (Address a) Pointer
| typed_own z s : typed (Own z) (User s)
| typed_made l vs ts : Forall2 typed vs ts -> typed (Made vs) (Parts l ts).

(** Floating-point types, pointers, types whose author says so, and pairs and tuples of at least one such
    part. *)
Inductive marked : ty -> Prop :=
| marked_floating : marked Floating
| marked_pointer : marked Pointer
| marked_user z : marked (User (Some z))
| marked_parts l t ts : l <> StdxTuple -> Forall marked (t :: ts) -> marked (Parts l (t :: ts)).

(** Plus infinity, the null pointer, what the author says; for a pair or tuple, if every part is one. *)
Inductive dead : val -> ty -> Prop :=
| dead_infinity : dead (Num PosInf) Floating
| dead_null : dead (Address 0) Pointer
| dead_user z : dead (Own z) (User (Some z))
| dead_parts l vs ts : Forall2 dead vs ts -> dead (Made vs) (Parts l ts).
