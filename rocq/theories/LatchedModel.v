(** Model of include/stdx/latched.hpp and include/stdx/cached.hpp.

    [call] calls the function: it may change the world, and returns a value or throws
    ([None]).  The function does not use the object it is called from. *)
From Verif Require Import Base.
Open Scope ub_scope.

Section Latched.
Context {W V : Type}.
Variable call : W -> W * option V.

(** The std::optional (latched.hpp:55); it starts empty (16-17).  The world is beside it. *)
Definition state := (option V * W)%type.
Inductive result := Got (v : V) | Threw | Says (b : bool) | Done.
(** latched.hpp:48-52: emplace calls the function while the optional is still empty, so a
    throw leaves it empty.  The boolean: did not throw. *)
Definition populate (s : state) : state * bool :=
  match fst s with
  | Some _ => (s, true)
  | None => let (w, r) := call (snd s) in
            match r with Some v => ((Some v, w), true) | None => ((None, w), false) end
  end.
(** *opt on an optional: undefined when empty. *)
Definition deref (s : state) : option result := v <- fst s;; Some (Got v).
Inductive op :=
| Access                                     (* value(), *, ->: latched.hpp:26-45 *)
| HasValue                                   (* has_value(), bool: latched.hpp:19-24 *)
| Reset                                      (* cached.hpp:11 *)
| Refresh.                                   (* cached.hpp:12-16 *)
Definition step (o : op) (s : state) : option (result * state) :=
  match o with
  | Access => let (s', ok) := populate s in if ok then r <- deref s';; Some (r, s') else Some (Threw, s')
  | HasValue => Some (Says (match fst s with Some _ => true | None => false end), s)
  | Reset => Some (Done, (None, snd s))
  | Refresh => let (s', ok) := populate (None, snd s) in if ok then r <- deref s';; Some (r, s') else Some (Threw, s')
  end.
Fixpoint history (ops : list op) (s : state) : option (list result * state) :=
  match ops with
  | [] => Some ([], s)
  | o :: r => x <- step o s;; y <- history r (snd x);; Some (fst x :: fst y, snd y)
  end.
End Latched.
Arguments result : clear implicits.
