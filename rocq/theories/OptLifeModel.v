(** The object inside a stdx::optional through calls that may throw: its lifetime, and how
    often it is made and destroyed (include/stdx/optional.hpp).

    What the element type's operations do is part of the history: a constructor, an assignment,
    a comparison or a user's function returns or throws. *)
From Verif Require Import Base.

Section OptLife.
Context {V : Type} (eqb : V -> V -> bool) (tomb : V). (* ==, and the value of traits() *)

(** [val] (optional.hpp:99): an object, or storage whose object was destroyed. *)
Inductive obj := Alive (v : V) | Over.
Record opt := { val : obj; made : nat; destroyed : nat }.
Inductive ends (A : Type) := Returns (a : A) | Throws.
Arguments Returns {A}. Arguments Throws {A}.

(** The default constructor (104) and the ones from a value (107-115) that return. *)
Definition make (v : V) : opt := {| val := Alive v; made := 1; destroyed := 0 |}.

Inductive op :=
| Emplace (own : bool) (c : ends V)   (* 186-191; [own]: an argument refers to the value itself *)
| Reset (c : ends unit)               (* 193-196, and = nullopt (117-120) *)
| Assign (c : ends V) (rest : V)      (* 122-131, and = optional: what it is left with if it throws *)
| HasValue (c : ends unit)            (* 133-136: whether the comparison throws *)
| Value                               (* 138-174 *)
(* The following ask has_value first; [q]: whether the comparison throws. *)
| ValueOr (q c : ends unit) (d : ends V)(* 176-184: [c] the copy of the value, [d] the default *)
| AndThen (q : ends unit) (f : V -> ends V) (* 236-258, transform (198-227), | (289-304): the result of the function *)
| OrElse (q c : ends unit) (f : ends V) (* 229-234: [c] the copy of the optional *)
| Less (q c : ends unit) (b : bool) (u : option V) (* 268-287, with another optional that has [u]: [c] and [b] are < of the values *)
| Destroy.                            (* the optional's destructor *)
(** What the caller gets: a value, a boolean, nothing or an exception. *)
Inductive out := Unit | Bool (b : bool) | Val (v : V) | Nothing | Threw.
Definition answer (c : ends V) : out := match c with Returns v => Val v | Throws => Threw end.

(** Anything that reads or destroys [val] after its lifetime is undefined. *)
Definition alive (s : opt) : option V := match val s with Alive v => Some v | Over => None end.
(** val.~value_type(). *)
Definition destroy (s : opt) : option opt :=
  match val s with Alive _ => Some {| val := Over; made := made s; destroyed := S (destroyed s) |} | Over => None end.
(** new (std::addressof(val)) value_type(...). *)
Definition construct (s : opt) (v : V) : opt := {| val := Alive v; made := S (made s); destroyed := destroyed s |}.
Definition store (s : opt) (v : V) : opt := {| val := Alive v; made := made s; destroyed := destroyed s |}.

(** [Stopped]: std::terminate, as has_value is noexcept (133). *)
Definition step (s : opt) (o : op) : outcome unit opt out :=
  match alive s with
  | None => Undef
  | Some v =>
      match o with
      | Emplace own c =>
          match destroy s with
          | None => Undef
          | Some s' => if own then Undef else
              match c with Returns u => Done (construct s' u) (Val u) [] | Throws => Done s' Threw [] end
          end
      | Reset c =>
          match destroy s with
          | None => Undef
          | Some s' => match c with Returns _ => Done (construct s' tomb) Unit [] | Throws => Done s' Threw [] end
          end
      | Assign (Returns u) _ => Done (store s u) Unit []
      | Assign Throws r => Done (store s r) Threw []
      | HasValue (Returns _) => Done s (Bool (negb (eqb v tomb))) []
      | HasValue Throws => Stopped s tt
      | Value => Done s (Val v) []
      | ValueOr Throws _ _ | AndThen Throws _ | OrElse Throws _ _ | Less Throws _ _ _ => Stopped s tt
      | ValueOr _ c d => Done s (if negb (eqb v tomb) then match c with Returns _ => Val v | Throws => Threw end else answer d) []
      | AndThen _ f => Done s (if negb (eqb v tomb) then answer (f v) else Nothing) []
      | OrElse _ c f => Done s (if negb (eqb v tomb) then match c with Returns _ => Val v | Throws => Threw end else answer f) []
      | Less _ c b u => Done s (match negb (eqb v tomb), u with
                                | true, Some _ => match c with Returns _ => Bool b | Throws => Threw end
                                | h, _ => Bool (negb h && match u with Some _ => true | None => false end)
                                end) []
      | Destroy => match destroy s with Some s' => Done s' Unit [] | None => Undef end
      end
  end.
End OptLife.
Arguments obj : clear implicits. Arguments opt : clear implicits. Arguments ends : clear implicits.
Arguments Returns {A}. Arguments Throws {A}.
Arguments op : clear implicits. Arguments out : clear implicits.
