(** What a user expects of relaxed calls that do not race. *)
From Verif Require Import Base BitModel BitsetModel BitsetSpec ConcModel RelaxedModel AtomicModel AtomicSpec AtomicBitsetModel AtomicBitsetSpec AtomicProps.
From Verif Require Import MultiModel MultiSpec.
Open Scope nat_scope.

Section Race.
Variables (objs : nat -> object_type) (st : nat -> obj_state) (evss : list (list mevent)) (rs : nat -> list (call * reply)).
(** The objects in question. *)
Variable P : nat -> bool.

(** Of any two calls that different threads make on one of these objects, unless both only read it, one
    happens before the other. *)
Definition no_races : Prop :=
  forall ta ja ca oa tb jb cb ob, nth_error (rs ta) ja = Some (ca, oa) -> nth_error (rs tb) jb = Some (cb, ob) -> ta <> tb ->
    target ca = target cb -> P (target ca) = true -> access_of (asked ca) <> Reads \/ access_of (asked cb) <> Reads ->
    happens_before evss (ta, ja) (tb, jb) \/ happens_before evss (tb, jb) (ta, ja).

(** [l] lists the calls on these objects, each by its thread and its number there, in an order that
    agrees with that of each thread; made one after the other in this order, they give the same replies
    and end with [st']. *)
Record one_after_the_other (l : list (nat * nat)) (st' : nat -> obj_state) : Prop := {
  listed : forall t k, In (t, k) l <-> exists co, nth_error (rs t) k = Some co /\ P (target (fst co)) = true;
  once : NoDup l;
  thread_order : ForallOrdPairs (fun a b => fst a = fst b -> snd a < snd b) l;
  outcome : exists calls, Forall2 (fun a co => nth_error (rs (fst a)) (snd a) = Some co) l calls /\ in_turn objs st calls st' }.

Section Lock.
Variables (f : nat) (w i : N).
(** These objects are used only while holding the lock. *)
Definition only_locked : Prop := forall t k co, nth_error (rs t) k = Some co -> P (target (fst co)) = true -> exists l, holding f w i (rs t) l k.
(** Calls made while holding the lock that the same call took. *)
Definition same_section (a b : nat * nat) : Prop :=
  fst a = fst b /\ exists l, holding f w i (rs (fst a)) l (snd a) /\ holding f w i (rs (fst b)) l (snd b).
(** Between two calls of one critical section there are none of other threads. *)
Definition sections_whole (l : list (nat * nat)) : Prop :=
  forall l1 a m b l2, l = l1 ++ a :: m ++ b :: l2 -> same_section a b -> Forall (fun c => fst c = fst a) m.

(** ** A counter without read-modify-write calls *)
Definition loads (x : nat) (co : call * reply) (r : N) : Prop := exists mo, fst co = Call x (IntCall (ICall ALoad mo)) /\ snd co = IntReply (Some r).
Definition stores_value (x : nat) (co : call * reply) (v : N) : Prop := exists mo, fst co = Call x (IntCall (ICall (AStore v) mo)).
(** All that is done to [x] is: load it and, in the same critical section, store one more, modulo
    [2 ^ wx]; or only load it. *)
Definition counts (x : nat) (wx : N) : Prop :=
  (forall t k co, nth_error (rs t) k = Some co -> target (fst co) = x -> (exists r, loads x co r) \/ (exists v, stores_value x co v)) /\
  forall t k co v, nth_error (rs t) k = Some co -> stores_value x co v ->
    exists j cj r, j < k /\ nth_error (rs t) j = Some cj /\ loads x cj r /\ v = ((r + 1) mod 2 ^ wx)%N /\ same_section (t, j) (t, k) /\
      forall m cm, j < m < k -> nth_error (rs t) m = Some cm -> target (fst cm) <> x.
End Lock.
End Race.
