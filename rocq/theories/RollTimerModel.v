(** A list of timers kept in order with cmp_less, as docs/rollover.adoc suggests: the operations of
    rollover.hpp:16-20, 46-52, 98-109 as in RolloverModel.v, used by a program that is written here.
    [None]: undefined behaviour. *)
From Verif Require Import Base Ints RolloverModel.
Open Scope Z_scope.
Open Scope ub_scope.

(** The program: the time goes on; a timer is set to go off after a delay; the timers that are due go
    off. *)
Inductive op := Tick (d : Z) | Add (id : nat) (delay : Z) | Expire.

Section Timers.
Variable w iw : Z.
(** A timer is inserted before the first one that is later (rollover.hpp:98-102). *)
Fixpoint insert (x : nat * Z) (l : list (nat * Z)) : option (list (nat * Z)) :=
  match l with
  | [] => Some [x]
  | e :: r => lt <- r_cmp_less w iw (snd x) (snd e);;
              if lt : bool then Some (x :: l) else r' <- insert x r;; Some (e :: r')
  end.
(** Timers are taken from the front up to the first one that is later than now. *)
Fixpoint expire (now : Z) (l : list (nat * Z)) : option (list nat * list (nat * Z)) :=
  match l with
  | [] => Some ([], [])
  | e :: r => lt <- r_cmp_less w iw now (snd e);;
              if lt : bool then Some ([], l) else p <- expire now r;; Some (fst e :: fst p, snd p)
  end.
(** The run of a program from a time and a list: the timers that go off at each [Expire].
    rollover.hpp:46-49, 104-109: the sum of two rollover_t. *)
Fixpoint run (now : Z) (l : list (nat * Z)) (ops : list op) : option (list (list nat)) :=
  match ops with
  | [] => Some []
  | Tick d :: r => now' <- r_add w iw now (r_make w d);; run now' l r
  | Add id d :: r => t <- r_add w iw now (r_make w d);; l' <- insert (id, t) l;; run now l' r
  | Expire :: r => p <- expire now l;; outs <- run now (snd p) r;; Some (fst p :: outs)
  end.
End Timers.
