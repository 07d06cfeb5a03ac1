(** Texts whose brackets match. *)
From Verif Require Import Base StaticAssertModel.

(** Brackets match, with commas and [>] outside them only if allowed.  Inside parentheses both are;
    between template brackets [>] is not. *)
Inductive nested {Sym : Type} : bool -> bool -> list (token Sym) -> Prop :=
| nested_nil c g : nested c g []
| nested_other c g s l : nested c g l -> nested c g (Other s :: l)
| nested_comma g l : nested true g l -> nested true g (Comma :: l)
| nested_greater c l : nested c true l -> nested c true (Greater :: l)
| nested_paren c g a l : nested true true a -> nested c g l -> nested c g (LParen :: a ++ RParen :: l)
| nested_template c g a l : nested c false a -> nested c g l -> nested c g (Less :: a ++ Greater :: l).
(** A condition without commas and [>] of its own. *)
Definition plain {Sym} (l : list (token Sym)) : Prop := nested false false l.
(** The whole text between the parentheses of the macro: the condition, then further arguments. *)
Definition invocation {Sym} (cond : list (token Sym)) (rest : list (list (token Sym))) : list (token Sym) :=
  cond ++ flat_map (fun a => Comma :: a) rest.
