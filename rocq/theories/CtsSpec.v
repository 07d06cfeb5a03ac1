(** What a user expects of expressions over ct_string and cts_t. *)
From Verif Require Import Base CtStringModel CtsModel.
Open Scope N_scope.

(** The characters of an operand, without what ends the array. *)
Definition array_of (o : operand) : list N := match o with Value s => s | Typed s => s end.
Definition text (o : operand) : list N := removelast (array_of o).
Definition is_typed (o : operand) : bool := match o with Typed _ => true | Value _ => false end.
(** The array of a ct_string holds at least what ends it; of a literal, that is a zero. *)
Definition ended (o : operand) : Prop := array_of o <> [].
Definition terminated (o : operand) : Prop := exists cs, array_of o = cs ++ [0].

(** What the expression spells: its constants from left to right. *)
Fixpoint leaves (e : expr) : list operand :=
  match e with Leaf o => [o] | Plus a b => leaves a ++ leaves b | Unwrap a | Called a | Stringed a | Wrapped a => leaves a end.
Definition spells (e : expr) : list N := List.concat (map text (leaves e)).
(** Whether it is a type ([Some true]) or a string ([Some false]): a sum is a type if both summands are;
    only types can be unwrapped. *)
Fixpoint kind (e : expr) : option bool :=
  match e with
  | Leaf o => Some (is_typed o)
  | Plus a b => match kind a, kind b with Some x, Some y => Some (x && y) | _, _ => None end
  | Unwrap a | Called a => match kind a with Some true => Some false | _ => None end
  | Stringed a => match kind a with Some _ => Some false | None => None end
  | Wrapped a => match kind a with Some _ => Some true | None => None end
  end.
