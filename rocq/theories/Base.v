(** Shared vocabulary of the model: fixed-capacity arrays with bounds, size_t
    arithmetic, and outcomes that keep panics and undefined behaviour apart from
    normal results.  No proofs about the code here, only generic lemmas. *)
From Coq Require Export List NArith ZArith Lia Bool Arith.
From Coq Require Export ZifyBool ZifyN ZifyNat.
Export ListNotations.

(** ** std::size_t (64 bit) *)
Definition size_mod : N := (2 ^ 64)%N.
(** [++x] and [--x] on a std::size_t: unsigned, wraps. *)
Definition sz_inc (x : N) : N := ((x + 1) mod size_mod)%N.
Definition sz_dec (x : N) : N := ((x + (size_mod - 1)) mod size_mod)%N.

(** ** std::array<T, N>: a list of fixed length; indexing past the end is undefined
    behaviour ([None]). *)
Definition len {A} (l : list A) : N := N.of_nat (length l).

Definition rd {A} (l : list A) (i : N) : option A :=
  if (i <? len l)%N then nth_error l (N.to_nat i) else None.

Fixpoint set_nth {A} (n : nat) (v : A) (l : list A) : list A :=
  match l, n with
  | [], _ => []
  | _ :: t, O => v :: t
  | x :: t, S m => x :: set_nth m v t
  end.

Definition wr {A} (l : list A) (i : N) (v : A) : option (list A) :=
  if (i <? len l)%N then Some (set_nth (N.to_nat i) v l) else None.

(** ** Outcomes of one call on an object of type [S] returning an [O].
    [Done s o ps]: returned normally, leaving the object in state [s]; [ps] are the
      panics raised on the way by a handler that returned (the default handler does).
    [Stopped s p]: panic [p] was raised and the handler did not return (terminated or
      threw), leaving the object in state [s].
    [Undef]: undefined behaviour. *)
Inductive outcome (P S O : Type) : Type :=
| Done (s : S) (o : O) (ps : list P)
| Stopped (s : S) (p : P)
| Undef.
Arguments Done {P S O}.
Arguments Stopped {P S O}.
Arguments Undef {P S O}.

(** What the installed panic handler does when called (panic.hpp:9-15 and the
    documented customisation: it may terminate). *)
Inductive handler := Returns | DoesNotReturn.

(** Running a list of operations, collecting outputs and panics in order. *)
Fixpoint run {P S Op O} (step : S -> Op -> outcome P S O) (s : S) (ops : list Op)
  : outcome P S (list O) :=
  match ops with
  | [] => Done s [] []
  | op :: rest =>
      match step s op with
      | Done s1 o ps1 =>
          match run step s1 rest with
          | Done s2 os ps2 => Done s2 (o :: os) (ps1 ++ ps2)
          | Stopped s2 p => Stopped s2 p
          | Undef => Undef
          end
      | Stopped s1 p => Stopped s1 p
      | Undef => Undef
      end
  end.

(** Running a specification: [None] means the operation's precondition is violated. *)
Fixpoint spec_run {S Op O} (step : S -> Op -> option (S * O)) (s : S) (ops : list Op)
  : option (S * list O) :=
  match ops with
  | [] => Some (s, [])
  | op :: rest =>
      match step s op with
      | Some (s1, o) =>
          match spec_run step s1 rest with
          | Some (s2, os) => Some (s2, o :: os)
          | None => None
          end
      | None => None
      end
  end.

(** Conformance of a model to a (possibly nondeterministic) specification over a whole
    history: as long as the precondition [pre] of the next operation holds in the abstract
    state [m], the model completes the operation normally (no undefined behaviour, no
    panic), its output is one the specification allows, and the rest of the history
    conforms from the resulting states. *)
Fixpoint conforms {P S M Op O} (step : S -> Op -> outcome P S O)
  (pre : M -> Op -> Prop) (spec : M -> Op -> O -> M -> Prop)
  (s : S) (m : M) (ops : list Op) : Prop :=
  match ops with
  | [] => True
  | op :: rest =>
      pre m op ->
      exists s' o m', step s op = Done s' o [] /\ spec m op o m' /\
                      conforms step pre spec s' m' rest
  end.

(** Sequencing of computations that may hit undefined behaviour ([None]). *)
Declare Scope ub_scope.
Notation "x <- a ;; b" := (match a with Some x => b | None => None end)
  (at level 100, a at next level, right associativity) : ub_scope.
