(** What a user expects of spans over arrays. *)
From Coq Require Import NArith Bool.
From Verif Require Import SpanCtorModel.

(** The elements of the array may not be changed through it. *)
Definition const_elements (s : src) : bool := match s with CArr k _ => k | StdArr ek k _ => ek || k end.
(** The span would have more elements than the array. *)
Definition too_long (t : span_type) (s : src) : Prop := exists e, extent t = Some e /\ (count s < e)%N.
(** The size that the span has by its type, or that of the array. *)
Definition its_size (t : span_type) (s : src) : N := match extent t with Some e => e | None => count s end.
(** A span over non-const elements from const ones. *)
Definition drops_const (t : span_type) (s : src) : Prop := const_elements s = true /\ tc t = false.
