(** What apply gives back, and what join does with the elements: include/stdx/tuple.hpp and
    tuple_algorithms.hpp, on the references of MoveModel. *)
From Verif Require Import Base TupleModel MoveModel.
Open Scope ub_scope.

Section Apply.
Context {V T W : Type}.
Notation store := (store V).
Notation ref := (ref T).
Variable copies : T -> bool.   (* the type has a copy constructor; all have a move constructor *)

(** What a function returns: an object, or a reference (to one of its arguments, or to anything else
    that lives on). *)
Inductive result := Object (x : cell V) | Refer (r : ref).

(** A function that may return one of the references it is given. *)
Definition callable := list ref -> user V W result.
Definition invoke (f : callable) (s : W * store) (rs : list ref) : (W * store) * result := call (f rs) s rs.

(** tuple.hpp:292-302, 497-500: [-> decltype(auto)]. *)
Definition apply_tuple (f : callable) (s : W * store) (t : list ref) : option ((W * store) * result) := apply1 (invoke f s) t.
(** A function declared [auto] that returns what [f] returned: the object itself, or a new one
    initialized from the reference. *)
Definition return_auto (x : (W * store) * result) : option ((W * store) * result) :=
  match snd x with
  | Object _ => Some x
  | Refer r =>
      match cat r with
      | Rvalue => let (m, y) := initialize (snd (fst x)) r in Some ((fst (fst x), m), Object y)
      | _ => if copies (of_type r) then let (m, y) := initialize (snd (fst x)) r in Some ((fst (fst x), m), Object y) else None
      end
  end.
(** tuple_algorithms.hpp:40-63: [constexpr auto apply(F &&f, Ts &&...ts)], with an inner function that
    returns by value too (the result of which is not moved again). *)
Definition apply_tuples (f : callable) (s : W * store) (ts : list (list ref)) : option ((W * store) * result) :=
  x <- TupleModel.apply (invoke f s) ts;; return_auto x.
(** stdx::apply(f, ts...): for one stdx::tuple the overload of tuple.hpp:497-500 is more constrained
    ([tuplelike] is [has_tuple_protocol] and more); a std::array or std::pair is no [tuplelike]. *)
Inductive source := StdxTuple (t : list ref) | StdTuple (t : list ref).
Definition elements_of (s : source) : list ref := match s with StdxTuple t | StdTuple t => t end.
Definition apply_any (f : callable) (s : W * store) (ts : list source) : option ((W * store) * result) :=
  match ts with
  | [StdxTuple t] => apply_tuple f s t
  | _ => apply_tuples f s (map elements_of ts)
  end.

(** ** join *)
Variable order : nat -> list nat.
(** The operation is given two rvalues: [std::move(lhs).value] and [std::move(rhs).value]. *)
Definition operation := W -> category * cell V -> category * cell V -> W * cell V.
Definition may_keep (r : ref) : bool := match cat r with Rvalue => true | _ => copies (of_type r) end.
(** tuple.hpp:140-155, 304-317: each element initializes the [value] of a join_helper, and then the
    helpers are folded.  (The helpers may also be made between the calls; no call can tell, as a call
    sees only the helpers.)  0 elements: [requires (sizeof...(Ts) > 0)]. *)
Definition join_m (op : operation) (s : W * store) (t : list ref) : option ((W * store) * cell V) :=
  if forallb may_keep t then
    x <- unordered order initialize (snd s) t;;
    r <- TupleModel.join (fun w a b => op w (Rvalue, a) (Rvalue, b)) (fst s) (snd x);;
    Some ((fst r, fst x), snd r)
  else None.
(** tuple.hpp:319-334: [init] is copied or moved into the result only if there are no elements. *)
Definition join_init_m (op : operation) (s : W * store) (t : list ref) (init : cell V) : option ((W * store) * cell V) :=
  if tuple_size t =? 0 then Some (s, init) else join_m op s t.
End Apply.
Arguments result : clear implicits.
Arguments callable : clear implicits.
Arguments operation : clear implicits.
Arguments source : clear implicits.
