(** Model of include/stdx/optional.hpp.

    [T] is the value type, [ts] its tombstone, [veq] and [vlt] its == and <.  The state is the
    member [val]: [Some v] when an object lives there, [None] after its lifetime has ended.
    Any use of a dead object is undefined ([None]).  The overloads for lvalues, constants and
    rvalues differ only in copying or moving, which the model does not distinguish.
    Functions work on a world.  A value that unpacks itself (unwrap_invoke, 63-90) reaches the
    function element by element: a function on [T] all the same. *)
From Verif Require Import Base.
Open Scope ub_scope.

Section Optional.
Context {T : Type}.
Variable ts : T.
Variable veq vlt : T -> T -> bool.
Definition opt := option T.

(** optional.hpp:99, 104-105. *)
Definition construct_default : opt := Some ts.
(** optional.hpp:107-115. *)
Definition construct (v : T) : opt := Some v.
(** optional.hpp:193-196. *)
Definition reset (o : opt) : option opt := _ <- o;; Some (Some ts).
(** optional.hpp:117-120. *)
Definition assign_nullopt (o : opt) : option opt := reset o.
(** optional.hpp:122-131. *)
Definition assign (v : T) (o : opt) : option opt := _ <- o;; Some (Some v).
(** optional.hpp:186-191: destroys, then constructs.  [None] for a constructor that throws:
    the object stays destroyed. *)
Definition emplace (made : option T) (o : opt) : option opt := _ <- o;; Some made.

Inductive op := AssignNullopt | Assign (v : T) | Emplace (made : option T) | Reset.
Definition step (p : op) (o : opt) : option opt :=
  match p with AssignNullopt => assign_nullopt o | Assign v => assign v o | Emplace m => emplace m o | Reset => reset o end.
Fixpoint history (ps : list op) (o : opt) : option opt :=
  match ps with [] => Some o | p :: r => o' <- step p o;; history r o' end.

(** optional.hpp:133-136. *)
Definition has_value (o : opt) : option bool := v <- o;; Some (negb (veq v ts)).
(** optional.hpp:138-174. *)
Definition value (o : opt) : option T := o.
(** optional.hpp:176-184. *)
Definition value_or (o : opt) (d : T) : option T := b <- has_value o;; v <- o;; Some (if b then v else d).
(** optional.hpp:229-234. *)
Definition or_else {W} (w : W) (o : opt) (f : W -> W * opt) : option (W * opt) :=
  b <- has_value o;; Some (if b then (w, o) else f w).

(** optional.hpp:262-287. *)
Definition equal (a b : opt) : option bool := x <- a;; y <- b;; Some (veq x y).
Definition less (a b : opt) : option bool :=
  ha <- has_value a;; hb <- has_value b;; x <- a;; y <- b;; Some (if ha && hb then vlt x y else negb ha && hb).
Definition less_equal (a b : opt) : option bool := r <- less b a;; Some (negb r).
Definition greater (a b : opt) : option bool := less b a.
Definition greater_equal (a b : opt) : option bool := r <- less a b;; Some (negb r).

(** optional.hpp:198-227: the result uses the tombstone [tu] of its own type. *)
Definition transform {W U} (tu : U) (w : W) (o : opt) (f : W -> T -> W * U) : option (W * option U) :=
  b <- has_value o;; v <- o;;
  Some (if b then let (w1, u) := f w v in (w1, Some u) else (w, Some tu)).
(** optional.hpp:236-259 and operator| (289-304); [O] is the optional the function returns,
    [empty] its default. *)
Definition and_then {W O} (empty : O) (w : W) (o : opt) (f : W -> T -> W * O) : option (W * O) :=
  b <- has_value o;; v <- o;; Some (if b then f w v else (w, empty)).
(** optional.hpp:327-340: [(... and ts.has_value())] stops at the first empty one. *)
Fixpoint all_have (os : list opt) : option bool :=
  match os with [] => Some true | o :: r => b <- has_value o;; if b then all_have r else Some false end.
Fixpoint values (os : list opt) : option (list T) :=
  match os with [] => Some [] | o :: r => v <- value o;; vs <- values r;; Some (v :: vs) end.
Definition transform_all {W U} (tu : U) (w : W) (os : list opt) (f : W -> list T -> W * U) : option (W * option U) :=
  b <- all_have os;;
  if b then vs <- values os;; let (w1, u) := f w vs in Some (w1, Some u) else Some (w, Some tu).
End Optional.
Arguments op : clear implicits.
