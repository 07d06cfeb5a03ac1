(** Copying, moving and assigning latched and cached values (include/stdx/latched.hpp, include/stdx/cached.hpp).
    Neither class declares a copy or move operation: the implicit ones do it member by member. *)
From Verif Require Import Base.
Open Scope ub_scope.

Section Objects.
(** The world, the values, and the function objects of one type. *)
Context {W V F : Type}.
(** A call of the function (const, latched.hpp:48-51): it may change the world, and gives a value or throws ([None]). *)
Variable call : F -> W -> W * option V.
(** What moving from a value or a function object leaves. *)
Variables (left_v : V -> V) (left_f : F -> F).
(** Whether the type of the values can be copied, and whether the function objects can be assigned to (a lambda with
    captures can not). Copies, moves and assignments of values and functions do not throw. *)
Variables (copyable assignable : bool).

(** latched.hpp:54-55. *)
Record object := Object { lazy : F; opt : option V }.
(** All objects ever made, by number; the world; the calls of functions so far. *)
Record state := State { objects : list object; world : W; made : list F }.

(** latched.hpp:48-52: emplace calls the function while the optional is empty. The boolean: did not throw. *)
Definition populate (w : W) (o : object) : object * W * list F * bool :=
  match opt o with
  | Some _ => (o, w, [], true)
  | None => let (w', r) := call (lazy o) w in
            (Object (lazy o) r, w', [lazy o], match r with Some _ => true | None => false end)
  end.

Inductive op :=
| Make (f : F)                (* latched.hpp:16-17 *)
| Copy (i : N)                (* a new object, a copy of object i: implicit copy constructor *)
| Move (i : N)                (* ... moved from object i: implicit move constructor *)
| CopyAssign (i j : N)        (* object i = object j *)
| MoveAssign (i j : N)        (* object i = std::move(object j) *)
| Access (i : N)              (* value(), *, ->: latched.hpp:26-45 *)
| Take (i : N)                (* V x = std::move(object i).value(), or * : latched.hpp:30-33, 43-45 *)
| HasValue (i : N)            (* latched.hpp:19-24 *)
| Reset (i : N)               (* cached.hpp:11 *)
| Refresh (i : N)             (* cached.hpp:12-16 *)
| Write (i : N) (x : V).      (* an assignment to what the reference from refresh() refers to *)
Inductive result := Got (v : V) | Threw | Says (b : bool) | Nothing.

Definition replace (s : state) (i : N) (o : object) : option state :=
  os <- wr (objects s) i o;; Some (State os (world s) (made s)).
Definition extend (s : state) (o : object) : state := State (objects s ++ [o]) (world s) (made s).
(** The implicit move operations move both members; a std::optional that was moved from is not empty. *)
Definition moved_from (o : object) : object := Object (left_f (lazy o)) (option_map left_v (opt o)).
(** [populate], then [*opt]; a const rvalue for [Take], from which a value can only be copied. *)
Definition access (s : state) (i : N) (o : object) : option (result * state) :=
  let '(o', w, fs, ok) := populate (world s) o in
  s' <- replace (State (objects s) w (made s ++ fs)) i o';;
  if ok then v <- opt o';; Some (Got v, s') else Some (Threw, s').

(** [None]: does not compile, or there is no such object, or undefined. *)
Definition step (s : state) (op : op) : option (result * state) :=
  match op with
  | Make f => Some (Nothing, extend s (Object f None))
  | Copy i => o <- rd (objects s) i;; if copyable then Some (Nothing, extend s o) else None
  | Move i => o <- rd (objects s) i;; s' <- replace s i (moved_from o);; Some (Nothing, extend s' o)
  | CopyAssign i j =>
      _ <- rd (objects s) i;; o <- rd (objects s) j;;
      if copyable && assignable then s' <- replace s i o;; Some (Nothing, s') else None
  | MoveAssign i j =>
      (* assigning an object to itself: what that leaves is not specified *)
      if (i =? j)%N then None else
      _ <- rd (objects s) i;; o <- rd (objects s) j;;
      if assignable then s' <- replace s j (moved_from o);; s'' <- replace s' i o;; Some (Nothing, s'') else None
  | Access i => o <- rd (objects s) i;; access s i o
  | Take i => o <- rd (objects s) i;; if copyable then access s i o else None
  | HasValue i => o <- rd (objects s) i;; Some (Says (match opt o with Some _ => true | None => false end), s)
  | Reset i => o <- rd (objects s) i;; s' <- replace s i (Object (lazy o) None);; Some (Nothing, s')
  | Refresh i => o <- rd (objects s) i;; access s i (Object (lazy o) None)
  | Write i x => o <- rd (objects s) i;; _ <- opt o;; s' <- replace s i (Object (lazy o) (Some x));; Some (Nothing, s')
  end.
Fixpoint history (s : state) (ops : list op) : option (list result * state) :=
  match ops with
  | [] => Some ([], s)
  | op :: ops' => x <- step s op;; y <- history (snd x) ops';; Some (fst x :: fst y, snd y)
  end.
Definition start (w : W) : state := State [] w [].
End Objects.
Arguments op : clear implicits.
Arguments result : clear implicits.
Arguments state : clear implicits.
