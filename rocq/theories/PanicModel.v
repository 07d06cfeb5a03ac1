(** Model of include/stdx/panic.hpp: the functions stdx::panic and the macro STDX_PANIC, over the
    expression language of WrapModel.v.  Arguments are evaluated from left to right (C++ leaves
    the order open); the conversion of types by the handler's parameters is not modelled. *)
From Coq Require Import List ZArith String.
From Verif Require Import WrapModel.
Import ListNotations.

(** A call of the panic function of a handler: the types that select the handler, the
    compile-time string if there is one, and the arguments. *)
Record panicked := { tags : list nat; message : option string; arguments : list Z }.
(** The handlers a program installs by specializing stdx::panic_handler<Ts...>; the others are
    default_panic_handler (panic.hpp:9-17), which does nothing.  A handler returns. *)
Definition handlers := list nat -> bool.
(** The calls a handler of the program sees. *)
Definition handle (hs : handlers) (h : list panicked) (q : panicked) : list panicked :=
  if hs (tags q) then h ++ [q] else h.

Section Panic.
Variable p : program.
Variable hs : handlers.
(** panic.hpp:19-21 *)
Definition panic (ts : list nat) (es : exprs) (s : state) (h : list panicked) : state * list panicked :=
  let (zs, s') := runs p es s in (s', handle hs h {| tags := ts; message := None; arguments := zs |}).
(** panic.hpp:23-26 *)
Definition panic_ct (m : string) (ts : list nat) (es : exprs) (s : state) (h : list panicked) : state * list panicked :=
  let (zs, s') := runs p es s in (s', handle hs h {| tags := ts; message := Some m; arguments := zs |}).

(** The local variables the call in the lambda would have to capture: as in WrapModel.v, and
    an argument that is just a name is bound to a reference, which always is an odr-use. *)
Definition argument_captures (e : expr) : list nat :=
  match e with
  | Var i => if local (var_of p i) then [i] else []
  | _ => captures p e
  end.
Fixpoint arguments_captures (es : exprs) : list nat :=
  match es with Nil => [] | Cons e es => argument_captures e ++ arguments_captures es end.
(** panic.hpp:32-36: a lambda without capture-default, called on the spot; with captures it does
    not compile. *)
Definition STDX_PANIC (m : string) (es : exprs) (s : state) (h : list panicked) : option (state * list panicked) :=
  match arguments_captures es with
  | [] => Some (panic_ct m [] es s h)
  | _ => None
  end.
End Panic.
