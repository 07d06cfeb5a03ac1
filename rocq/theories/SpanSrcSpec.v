(** Specification for C134: the elements of a span are the elements of what it was made from. *)
From Coq Require Import List ZArith.
From Verif Require Import SpanSrcModel.
Import ListNotations.
Open Scope Z_scope.

(** Each element lies right behind the one before. *)
Definition contiguous (L : layout) (s : source) : Prop :=
  forall i a b, nth_error (addresses s) i = Some a -> nth_error (addresses s) (S i) = Some b -> b = a + size_of L (elem s).
(** The span has as many elements as the source, and the i-th is the i-th of the source, or its base of the
    span's element type. *)
Definition same_elements (L : layout) (s : source) (p : span) : Prop :=
  size p = length (addresses s) /\
  exists o, subobject L (elem s) (span_elem p) = Some o /\
  forall i a, nth_error (addresses s) i = Some a -> at_index L p i = a + o.
(** Sources that are not ranges of other classes. *)
Definition built_in (k : kind) : Prop := forall b, k <> Range b.
