(** What the compilers put in __PRETTY_FUNCTION__, and what a name looks like.  This is the only
    assumption about the compiler: some text, "= ", the name, and a fixed ending. *)
From Coq Require Import String.
From Verif Require Import Base CtConvModel.
Open Scope nat_scope.

(** The ending after the name of a type (GCC names the alias in the return type). *)
Definition ending (c : compiler) : list N :=
  match c with
  | Clang => codes "]"
  | Gcc => codes "; std::string_view = std::basic_string_view<char>]"
  end.
(** __PRETTY_FUNCTION__ of type_as_string<T> for a type the compiler calls [name]. *)
Definition pretty_type (c : compiler) (before name : list N) : list N :=
  before ++ codes "= " ++ name ++ ending c.
(** __PRETTY_FUNCTION__ of enum_as_string<V> for a value the compiler writes as [value]. *)
Definition pretty_value (before value : list N) : list N := before ++ codes "= " ++ value ++ codes "]".

(** An identifier has none of the characters the header looks for. *)
Definition ident (s : list N) : Prop := ~ In 58%N s /\ ~ In 41%N s /\ ~ In 61%N s.
(** A qualifier "a::b::": empty or ending in a colon, without '=', where the last ')' (if any, as
    in "(anonymous namespace)::" or "f(int)::") is followed by a colon. *)
Definition qualifier (q : list N) : Prop :=
  ~ In 61%N q /\ (q = [] \/ exists p, q = p ++ [58%N]) /\
  (~ In 41%N q \/ exists p r, q = p ++ [41%N; 58%N] ++ r /\ ~ In 41%N r).
(** A value with no enumerator, as compilers write it: "(E)17". *)
Definition cast_value (v : list N) : Prop :=
  ~ In 61%N v /\ exists p x r, v = p ++ [41%N; x] ++ r /\ x <> 58%N /\ x <> 41%N /\ ~ In 41%N r.
