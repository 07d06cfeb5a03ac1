(** Spans made from ranges of other element types, and from ranges that are not contiguous: which
    constructions compile, and where the elements of the span are. Models the conversions in the
    constructors of include/stdx/span.hpp:85-138 and element access (:140-179). Which constructor is
    selected for an array and whether extents are checked is the subject of C112; here extents are dynamic. *)
From Coq Require Import List ZArith Bool.
Import ListNotations.
Open Scope Z_scope.

(** What the compiler knows of object types, named by numbers: sizeof, and where an object of type d has
    its base of type b, if it has one that a pointer converts to. *)
Record layout := Layout { size_of : nat -> Z; base_at : nat -> nat -> option Z }.
Definition subobject (L : layout) (d b : nat) : option Z := if Nat.eqb d b then Some 0 else base_at L d b.

(** What a span is made from. [PointerCount]: pointer and count, or two pointers; [CArray]; [StdArray];
    [OtherSpan]; [Range arrow]: any other range, such as std::vector, std::deque or std::list, where
    arrow tells whether its iterators have operator-> (or are pointers), which std::to_address needs. *)
Inductive kind := PointerCount | CArray | StdArray | OtherSpan | Range (arrow : bool).
(** The type of the elements, whether they are const, and their addresses. *)
Record source := Source { of_kind : kind; elem : nat; elem_const : bool; addresses : list Z }.

(** The constructors take std::to_address of the first iterator, or the data(), and initialize the member
    [T *ptr] with it, so that the pointer conversions of the language apply. *)
Definition pointer_converts (L : layout) (u : nat) (uc : bool) (t : nat) (tc : bool) : option Z :=
  if implb uc tc then subobject L u t else None.
(** [implicit]: explicit constructors are not considered. *)
Definition constructor_found (implicit : bool) (t : nat) (tc : bool) (s : source) : bool :=
  match of_kind s with
  | PointerCount => true                                           (* span.hpp:90-93 *)
  | CArray => Nat.eqb (elem s) t && implb (elem_const s) tc || negb implicit  (* span.hpp:111-118, 125-130 *)
  | StdArray => true                                               (* span.hpp:95-108 *)
  | OtherSpan => true                                              (* span.hpp:135-138 *)
  | Range arrow => arrow && negb implicit                          (* span.hpp:125-130 *)
  end.
(** A span: its element type, the address in [ptr], the size. *)
Record span := Span { span_elem : nat; ptr : Z; size : nat }.
(** [None]: does not compile. A range without elements is left out: what std::to_address gives for its end is
    not an address of an element. *)
Definition construct (L : layout) (implicit : bool) (t : nat) (tc : bool) (s : source) : option span :=
  match constructor_found implicit t tc s, pointer_converts L (elem s) (elem_const s) t tc, addresses s with
  | true, Some o, a :: _ => Some (Span t (a + o) (length (addresses s)))
  | _, _, _ => None
  end.
(** span.hpp:177-179: data()[idx]. *)
Definition at_index (L : layout) (s : span) (i : nat) : Z := ptr s + Z.of_nat i * size_of L (span_elem s).
(** span.hpp:46-48: size_bytes(), for as_bytes. *)
Definition size_bytes (L : layout) (s : span) : Z := Z.of_nat (size s) * size_of L (span_elem s).
