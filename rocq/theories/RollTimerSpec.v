(** The same program with times that do not roll over. *)
From Coq Require Import List ZArith Sorting.Sorted Permutation.
From Verif Require Import RollTimerModel.
Import ListNotations.
Open Scope Z_scope.

(** [q] is [p] in the order of the times, timers of the same time in the order in which they are in [p]. *)
Definition in_order (p q : list (nat * Z)) : Prop :=
  StronglySorted (fun a b => snd a <= snd b) q /\
  forall t, filter (fun e => snd e =? t) q = filter (fun e => snd e =? t) p.
(** The timers that go off at each [Expire]: those whose time has come, in order.  [p]: the timers that
    wait, as they were set. *)
Inductive goes : Z -> list (nat * Z) -> list op -> list (list nat) -> Prop :=
| g_end now p : goes now p [] []
| g_tick now p d r o : goes (now + d) p r o -> goes now p (Tick d :: r) o
| g_add now p id d r o : goes now (p ++ [(id, now + d)]) r o -> goes now p (Add id d :: r) o
| g_expire now p due r o :
    in_order (filter (fun e => snd e <=? now) p) due ->
    goes now (filter (fun e => now <? snd e) p) r o -> goes now p (Expire :: r) (map fst due :: o).
(** All of these times are in one half of the range. *)
Definition within (w : Z) (ts : list Z) : Prop := exists m, forall t, In t ts -> m <= t < m + 2 ^ (w - 1).
(** Whenever a timer is set, it and those that wait are within half the range; whenever the timers that
    are due are taken, those that wait and the present time are. *)
Fixpoint served (w now : Z) (p : list (nat * Z)) (ops : list op) : Prop :=
  match ops with
  | [] => True
  | Tick d :: r => served w (now + d) p r
  | Add id d :: r => within w (now + d :: map snd p) /\ served w now (p ++ [(id, now + d)]) r
  | Expire :: r => within w (now :: map snd p) /\ served w now (filter (fun e => now <? snd e) p) r
  end.
(** Every delay is less than half the range. *)
Definition delays_below (b : Z) (ops : list op) : Prop := forall id d, In (Add id d) ops -> 0 <= d < b.
