(** Model of is_complete_v (include/stdx/type_traits.hpp:319-321) and of the concept complete
    (include/stdx/concepts.hpp:136-137), in a translation unit that declares classes, defines them and asks.

    A specialization of a variable template is made once, where it is first needed; later uses are of the
    same variable.  The standard calls a program whose answers would differ ill-formed without requiring a
    diagnostic; the model says what compilers do. *)
From Verif Require Import Base.

Inductive type :=
| Object (k : nat)                            (* scalars *)
| Class (c : nat)
| Pointer (t : type)
| Ref (t : type)
| Array (t : type) (bound : option nat)
| Void
| Function.

Definition type_eq (a b : type) : {a = b} + {a <> b}.
Proof. decide equality; decide equality; apply Nat.eq_dec. Defined.

(** sizeof(T) is well-formed [expr.sizeof], when the classes [defined] are: not for a function, an
    incomplete type; of a reference, the size of what it refers to. *)
Fixpoint has_size (defined : list nat) (t : type) : bool :=
  match t with
  | Object _ | Pointer _ => true
  | Class c => existsb (Nat.eqb c) defined
  | Ref t => has_size defined t
  | Array t (Some _) => has_size defined t
  | Array _ None | Void | Function => false
  end.

(** The classes defined so far, and the specializations made so far. *)
Record unit_state := { defined : list nat; made : list (type * bool) }.
Inductive event := Define (c : nat) | Ask (t : type).
Definition lookup (t : type) (l : list (type * bool)) : option bool :=
  match find (fun p => if type_eq t (fst p) then true else false) l with Some p => Some (snd p) | None => None end.
(** type_traits.hpp:319-321: the partial specialization matches if sizeof(T) is well-formed. *)
Definition ask (s : unit_state) (t : type) : unit_state * bool :=
  match lookup t (made s) with
  | Some b => (s, b)
  | None => let b := has_size (defined s) t in ({| defined := defined s; made := (t, b) :: made s |}, b)
  end.
(** The answers, in order; [events] in the order of the text. *)
Fixpoint compile (s : unit_state) (events : list event) : list (type * bool) :=
  match events with
  | [] => []
  | Define c :: r => compile {| defined := c :: defined s; made := made s |} r
  | Ask t :: r => let (s', b) := ask s t in (t, b) :: compile s' r
  end.
Definition translation_unit (events : list event) : list (type * bool) := compile {| defined := []; made := [] |} events.
