(** Model of the concepts single_linkable and double_linkable (include/stdx/detail/list_common.hpp)
    and of what the compiler checks in the list classes' operations
    (include/stdx/intrusive_list.hpp, include/stdx/intrusive_forward_list.hpp).

    Classes are numbered in the order of their definitions; a class has at most one (public) base
    class, which is defined before it.  Simplifications: members next and prev are accessible data
    members, not mutable and not references; pointer types are raw pointers, to classes or to
    something else; the list's node type is a non-const class; const_iterator is not modelled. *)
From Coq Require Import List Bool PeanoNat.
Import ListNotations.

Inductive ty :=
| Ptr (to_const : bool) (c : nat)      (* c *, or c const * *)
| OtherPtr                             (* a pointer to something else *)
| NotPtr.
Inductive member_name := Next | Prev.
Record member := { mtype : ty; mconst : bool }.
Record class := { base : option nat; own : member_name -> option member }.

Section Classes.
Variable E : list class.

(** The class, its base class, the base class of that, and so on. *)
Fixpoint chain (fuel c : nat) : list nat :=
  match fuel with
  | O => []
  | S f =>
      match nth_error E c with
      | None => []
      | Some k => c :: match base k with Some b => if b <? c then chain f b else [] | None => [] end
      end
  end.
Definition bases (c : nat) : list nat := chain (S c) c.
Definition derives (d b : nat) : bool := existsb (Nat.eqb b) (bases d).
Fixpoint first_member (l : list nat) (m : member_name) : option member :=
  match l with
  | [] => None
  | c :: r =>
      match nth_error E c with
      | Some k => match own k m with Some x => Some x | None => first_member r m end
      | None => None
      end
  end.
Definition member_of (c : nat) (m : member_name) : option member := first_member (bases c) m.

(** The type of p->m, and whether it is const. *)
Definition arrow (t : ty) (m : member_name) : option (ty * bool) :=
  match t with
  | Ptr k c => match member_of c m with Some x => Some (mtype x, mconst x || k) | None => None end
  | _ => None
  end.
Definition ty_eqb (a b : ty) : bool :=
  match a, b with
  | Ptr k c, Ptr k' c' => Bool.eqb k k' && Nat.eqb c c'
  | OtherPtr, OtherPtr | NotPtr, NotPtr => true
  | _, _ => false
  end.

(** list_common.hpp:15-17. { node->next } -> same_as<T &>. *)
Definition arrow_is (t : ty) (m : member_name) : bool :=
  match arrow t m with Some (u, k) => ty_eqb u t && negb k | None => false end.
Definition base_single_linkable (t : ty) : bool := arrow_is t Next.
(** list_common.hpp:19-22. *)
Definition base_double_linkable (t : ty) : bool := base_single_linkable t && arrow_is t Prev.
(** list_common.hpp:25-29. *)
Definition single_linkable (c : nat) : bool :=
  match arrow (Ptr false c) Next with Some (u, _) => base_single_linkable u | None => false end.
(** list_common.hpp:31-37. *)
Definition double_linkable (c : nat) : bool :=
  match arrow (Ptr false c) Next with Some (u, _) => base_double_linkable u | None => false end &&
  match arrow (Ptr false c) Prev with Some (u, _) => base_double_linkable u | None => false end.
(** list_common.hpp:39-44. *)
Definition has_prev_pointer (c : nat) : bool := match member_of c Prev with Some _ => true | None => false end.

(** The statements of the operations.  A variable holds a pointer to the node type; a path is a
    variable followed by members. *)
Definition path := list member_name.
Inductive stmt :=
| NeedSingle | NeedDouble                 (* static_assert *)
| SetNull (p : path)                      (* p = nullptr *)
| Set_ (p q : path)                       (* p = q *)
| IsNull (p : path)                       (* p == nullptr *)
| Test (p : path).                        (* if (p) *)

Section NodeType.
Variable T : nat.

Fixpoint path_ty (t : ty * bool) (p : path) : option (ty * bool) :=
  match p with
  | [] => Some t
  | m :: r => match arrow (fst t) m with Some u => path_ty u r | None => None end
  end.
Definition type_of (p : path) : option (ty * bool) := path_ty (Ptr false T, false) p.
Definition is_pointer (t : ty) : bool := match t with NotPtr => false | _ => true end.
(** Implicit conversion. *)
Definition converts (from to : ty) : bool :=
  match from, to with
  | Ptr k d, Ptr k' b => derives d b && implb k k'
  | OtherPtr, OtherPtr | NotPtr, NotPtr => true
  | _, _ => false
  end.
Definition compiles_stmt (s : stmt) : bool :=
  match s with
  | NeedSingle => single_linkable T
  | NeedDouble => double_linkable T
  | SetNull p => match type_of p with Some (t, k) => negb k && is_pointer t | None => false end
  | Set_ p q => match type_of p, type_of q with Some (t, k), Some (u, _) => negb k && converts u t | _, _ => false end
  | IsNull p => match type_of p with Some (t, _) => is_pointer t | None => false end
  | Test p => match type_of p with Some _ => true | None => false end
  end.
Definition compiles (l : list stmt) : bool := forallb compiles_stmt l.

Definition v : path := [].                (* head, tail, n, p, a local pointer *)
Definition next_ : path := [Next].
Definition prev_ : path := [Prev].
Definition if_prev (s : list stmt) : list stmt := if has_prev_pointer T then s else [].

(** list_common.hpp:48-55, 82-88, 90-98; :101-116. *)
Definition on_push (checked : bool) : list stmt :=
  if checked then NeedSingle :: if_prev [IsNull prev_] ++ [IsNull next_] else [].
Definition on_pop (checked : bool) : list stmt :=
  if checked then NeedSingle :: if_prev [SetNull prev_] ++ [SetNull next_] else [].
Definition on_clear (checked : bool) : list stmt :=
  if checked then NeedSingle :: IsNull v :: if_prev [SetNull prev_] ++ [SetNull next_; Set_ v next_] else [].

Inductive op := PushFront | PushBack | Insert | PopFront | PopBack | Remove | Clear | Iterate.

(** intrusive_forward_list.hpp:60-79, 102-123 and :28-31; no insert, pop_back and remove. *)
Definition forward_code (checked : bool) (o : op) : option (list stmt) :=
  match o with
  | PushFront => Some (on_push checked ++ [NeedSingle; Set_ next_ v; Set_ v v; IsNull v; Set_ v v])
  | PushBack => Some (on_push checked ++ [NeedSingle; IsNull v; Set_ next_ v; Set_ v v; SetNull next_; IsNull v; Set_ v v])
  | PopFront => Some ([NeedSingle; Set_ v v; Set_ v next_; IsNull v; SetNull v] ++ on_pop checked)
  | Clear => Some (on_clear checked ++ [SetNull v; SetNull v])
  | Iterate => Some [Set_ v next_]
  | Insert | PopBack | Remove => None
  end.
(** intrusive_list.hpp:60-102, 119-190 and :28-31. *)
Definition push_back_code (checked : bool) : list stmt :=
  on_push checked ++ [NeedDouble; IsNull v; Set_ next_ v; Set_ prev_ v; Set_ v v; SetNull next_; IsNull v; Set_ v v].
Definition list_code (checked : bool) (o : op) : list stmt :=
  match o with
  | PushFront => on_push checked ++ [NeedDouble; IsNull v; Set_ prev_ v; Set_ next_ v; Set_ v v; SetNull prev_; IsNull v; Set_ v v]
  | PushBack => push_back_code checked
  | Insert => push_back_code checked ++ on_push checked ++
      [NeedDouble; Set_ next_ v; Set_ prev_ prev_; Set_ prev_ v; Set_ prev_ v; Set_ v v; Test prev_; Set_ [Prev; Next] v; Set_ v v]
  | PopFront => [NeedDouble; Set_ v v; Set_ v next_; IsNull v; SetNull v; SetNull prev_] ++ on_pop checked
  | PopBack => [NeedDouble; Set_ v v; Set_ v prev_; IsNull v; SetNull v; SetNull next_] ++ on_pop checked
  | Remove => [NeedDouble; Set_ v next_; Set_ v prev_; IsNull v; Set_ v v; Set_ next_ v; IsNull v; Set_ v v; Set_ prev_ v] ++ on_pop checked
  | Clear => on_clear checked ++ [SetNull v; SetNull v]
  | Iterate => [Set_ v next_]
  end.
Definition forward_compiles (checked : bool) (o : op) : bool :=
  match forward_code checked o with Some l => compiles l | None => false end.
Definition list_compiles (checked : bool) (o : op) : bool := compiles (list_code checked o).
End NodeType.
End Classes.
