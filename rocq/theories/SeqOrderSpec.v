(** What a user expects of a sequence lock: one thread writes versions of a number of objects, the words, and
    counts with [seq] how often it has begun or finished a version.  Other threads load [seq], then words, then
    [seq] again; if they find the same even number both times, the words belong to one version. *)
From Verif Require Import Base ConcModel AtomicModel MultiModel MultiSpec PetersonSpec RingSpec.
Open Scope nat_scope.

Section Seqlock.
(** The counter, which has [w] bits, and the words. *)
Variables (seq : nat) (w : N) (word : nat -> bool).

(** Thread [p] increases the counter by one each time, and modifies words only while it is odd; other threads
    only read.  The words may be atomics or atomic_bitsets, and are used with any calls. *)
Record seqlock (objs : nat -> object_type) (st : nat -> obj_state) (rs : nat -> list (call * reply)) (p : nat) : Prop := {
  sl_counter : word seq = false /\ exists iw ew sg esg, objs seq = Int iw w ew sg esg;
  sl_start : st seq = IntState 0;
  sl_count : forall k co, nth_error (rs p) k = Some co -> target (fst co) = seq ->
    access_of (asked (fst co)) = Reads \/ increases seq (rolled w (changed seq (rs p) k + 1)) (fst co);
  sl_write : forall k co, nth_error (rs p) k = Some co -> word (target (fst co)) = true ->
    access_of (asked (fst co)) = Reads \/ Nat.odd (changed seq (rs p) k) = true;
  sl_others : forall t k co, t <> p -> nth_error (rs t) k = Some co -> target (fst co) = seq \/ word (target (fst co)) = true ->
    access_of (asked (fst co)) = Reads }.

(** The writer releases when it finishes a version, and when it modifies a word. *)
Definition finishes_with_release (rs : list (call * reply)) : Prop :=
  forall k co, nth_error rs k = Some co -> target (fst co) = seq -> access_of (asked (fst co)) <> Reads ->
    Nat.odd (changed seq rs k) = true -> is_release (wanted (asked (fst co))) = true.
Definition writes_with_release (rs : list (call * reply)) : Prop :=
  forall k co, nth_error rs k = Some co -> word (target (fst co)) = true -> access_of (asked (fst co)) <> Reads ->
    is_release (wanted (asked (fst co))) = true.

(** A reader finds the even number [v] with call number [l] and again with call number [l']. *)
Definition finds_twice (rs : list (call * reply)) (l l' : nat) (v : N) : Prop :=
  l < l' /\ N.even v = true /\
  exists co co', nth_error rs l = Some co /\ finds seq v co /\ nth_error rs l' = Some co' /\ finds seq v co'.
(** It acquires with the first of these calls, and when it reads the words. *)
Definition begins_with_acquire (rs : list (call * reply)) (l : nat) : Prop :=
  forall co, nth_error rs l = Some co -> is_acquire (wanted (asked (fst co))) = true.
Definition reads_with_acquire (rs : list (call * reply)) (l l' : nat) : Prop :=
  forall k co, l < k < l' -> nth_error rs k = Some co -> word (target (fst co)) = true -> is_acquire (wanted (asked (fst co))) = true.

(** Between the calls number [l] and [l'] of a reader, the words are what the writer has left when it had
    finished the version with the number [v]: if its calls on the words up to then, number [q], are made one
    after the other, then the calls of the reader have these replies in the state [st'] that is reached. *)
Definition one_version (objs : nat -> object_type) (st : nat -> obj_state) (rsp rst : list (call * reply)) (l l' : nat) (v : N) : Prop :=
  exists q st', Nat.even (changed seq rsp q) = true /\ v = rolled w (changed seq rsp q) /\
    in_turn objs st (filter (fun co => word (target (fst co))) (firstn q rsp)) st' /\
    forall k co, l < k < l' -> nth_error rst k = Some co -> word (target (fst co)) = true ->
      effect (objs (target (fst co))) (st' (target (fst co))) (asked (fst co)) (snd co) (st' (target (fst co))).
(** The counter has come round to the number [v] after it was there before. *)
Definition came_round (rsp : list (call * reply)) (v : N) : Prop :=
  exists h, v = rolled w h /\ (Z.of_nat h + range w <= Z.of_nat (changed seq rsp (length rsp)))%Z.
End Seqlock.
