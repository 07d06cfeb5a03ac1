(** Model of include/stdx/latched.hpp for functions that use latched objects, the one they are
    called from included: a family of objects whose functions are scripts.

    A script reads and changes the world, asks objects for their value or whether they have
    one, and returns a value.  Not modelled here: exceptions (LatchedModel.v), and functions
    that build the result in place while they use the object. *)
From Coq Require Import List Arith.
Import ListNotations.

Section Depend.
Context {W V : Type}.
Inductive script :=
| Ret (v : V)
| World (f : W -> W) (k : W -> script)       (* the new world is seen by the rest *)
| Value (j : nat) (k : V -> script)          (* value(), *, -> of object j *)
| HasValue (j : nat) (k : bool -> script).   (* has_value() of object j *)
Variable body : nat -> script.

(** The std::optional of each object (latched.hpp:55), the world, the calls of the functions in
    the order they began, and the objects whose value was overwritten without being
    destroyed. *)
Record state := { memo : nat -> option V; world : W; calls : list nat; lost : list nat }.
Definition set (m : nat -> option V) (i : nat) (v : V) : nat -> option V := fun j => if Nat.eqb j i then Some v else m j.
Definition called (i : nat) (s : state) : state := {| memo := memo s; world := world s; calls := calls s ++ [i]; lost := lost s |}.
Definition with_world (w : W) (s : state) : state := {| memo := memo s; world := w; calls := calls s; lost := lost s |}.
(** std::optional::emplace: resets, constructs the value in the storage (the function runs
    here) and then counts as engaged.  If the function has put a value there meanwhile, the
    new one is constructed on top of it. *)
Definition construct (i : nat) (v : V) (s : state) : state :=
  {| memo := set (memo s) i v; world := world s; calls := calls s;
     lost := match memo s i with Some _ => lost s ++ [i] | None => lost s end |}.

(** [run n b s]: the script b with at most n nested calls; [None] if that is not enough.
    latched.hpp:26-29, 35-38, 48-52: value() calls the function if there is no value. *)
Fixpoint run (n : nat) (b : script) (s : state) : option (V * state) :=
  let fix go (b : script) (s : state) : option (V * state) :=
    match b with
    | Ret v => Some (v, s)
    | World f k => go (k (f (world s))) (with_world (f (world s)) s)
    | HasValue j k => go (k (match memo s j with Some _ => true | None => false end)) s
    | Value j k =>
        match memo s j with
        | Some v => go (k v) s
        | None =>
            match n with
            | O => None
            | S n' => match run n' (body j) (called j s) with
                      | Some (v, s') => go (k v) (construct j v s')
                      | None => None
                      end
            end
        end
    end in
  go b s.
(** A use of the objects from outside: a script as well. *)
End Depend.
Arguments script : clear implicits.
Arguments state : clear implicits.
