(** The tuple protocol in words: a type with a number of elements and, if it has any, get. *)
From Coq Require Import Bool NArith List.
From Verif Require Import ProtocolModel.
Import ListNotations.
Open Scope N_scope.

(** The type without const and reference. *)
Inductive is_bare : ty -> ty -> Prop :=
| bare_plain t : (forall u, t <> Const u) -> (forall u, t <> Ref u) -> (forall u n, t <> CArray u n) -> is_bare t t
| bare_const t : is_bare (Const t) t
| bare_array t u n : is_bare t u -> is_bare (CArray t n) (CArray u n)
| bare_ref t u : is_bare t u -> is_bare (Ref t) u.
(** Types are well formed if const is not applied to const, references or arrays (it goes to their
    elements), and there are no references to references and no arrays of references. *)
Fixpoint well_formed (t : ty) : Prop :=
  match t with
  | Const u => well_formed u /\ match u with Const _ | Ref _ | CArray _ _ => False | _ => True end
  | Ref u => well_formed u /\ match u with Ref _ => False | _ => True end
  | CArray u _ => well_formed u /\ match u with Ref _ => False | _ => True end
  | User _ g e _ => match g with Some u => well_formed u | None => True end /\ match e with Some u => well_formed u | None => True end
  | _ => True
  end.

(** [elements tg t n]: [t] has [n] elements that can be asked for with get. *)
Inductive elements (tg : target) : ty -> N -> Prop :=
| elements_array t n : elements tg (StdArray t n) n
| elements_pair a b : elements tg (Pair a b) 2
| elements_std_tuple ts : elements tg (StdTuple ts) (N.of_nat (length ts))
| elements_tuple ts : elements tg (Tuple ts) (N.of_nat (length ts))
| elements_sequence n : elements tg (Sequence n) n
| elements_span t n : elements tg (Span t (Some n)) n
| elements_none k g e v : k = SizeT \/ k = UnsignedInt /\ size_t_is_unsigned_int tg = true -> elements tg (User (Some (k, 0)) g e v) 0
| elements_user k n g e u v : k = SizeT \/ k = UnsignedInt /\ size_t_is_unsigned_int tg = true -> n <> 0 ->
    is_bare g u -> is_bare e u -> elements tg (User (Some (k, n)) (Some g) (Some e) v) n.
(** Possibly const or a reference. *)
Definition has_elements (tg : target) (t : ty) (n : N) : Prop := exists u, is_bare t u /\ elements tg u n.
(** Nothing says how many elements it has. *)
Definition sizeless (t : ty) : Prop :=
  match t with
  | Named _ | Constant _ | Span _ None | StdSpan _ _ | Cx _ _ | CArray _ _ | User None _ _ _ => True
  | _ => False
  end.
(** It has a size, not zero, but no get. *)
Definition getless (tg : target) (t : ty) : Prop :=
  exists k n e v, t = User (Some (k, n)) None e v /\ n <> 0 /\ (k = SizeT \/ k = UnsignedInt /\ size_t_is_unsigned_int tg = true).
(** It names the type of its elements, as containers do. *)
Definition array_like (t : ty) : Prop :=
  exists u, is_bare t u /\
  match u with
  | StdArray _ _ | Sequence _ | Span _ _ | StdSpan _ _ | Cx _ _ | Constant _ => True
  | User _ _ _ v => v = true
  | _ => False
  end.
(** The smallest of some numbers, 0 if there are none. *)
Definition smallest (ns : list N) (m : N) : Prop :=
  match ns with [] => m = 0 | _ => In m ns /\ forall n, In n ns -> m <= n end.

(** [room t n]: an object of the type has room for [n] elements. *)
Inductive room : ty -> N -> Prop :=
| room_std_array t n : room (StdArray t n) n
| room_array t n : room (CArray t n) n
| room_span t n : room (Span t (Some n)) n
| room_std_span t n : room (StdSpan t (Some n)) n
| room_cx t n : room (Cx t n) n.
