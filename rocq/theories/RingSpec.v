(** What a user expects of a queue that one thread writes and one thread reads, made from two atomic
    counters and an array of slots (a ring buffer).  The producer counts what it has put in with [tail],
    the consumer counts what it has taken out with [head]; the counters roll over. *)
From Verif Require Import Base ConcModel AtomicModel MultiModel MultiSpec PetersonSpec.
Open Scope nat_scope.

(** How often the calls before number [k] have modified [x]. *)
Definition modifying (x : nat) (co : call * reply) : bool :=
  (target (fst co) =? x) && match access_of (asked (fst co)) with Reads => false | _ => true end.
Definition changed (x : nat) (rs : list (call * reply)) (k : nat) : nat := length (filter (modifying x) (firstn k rs)).

(** A call that makes [v] the value of [x], or that adds one to it: ++x, x++, x += 1, x.fetch_add(1). *)
Definition increases (x : nat) (v : N) (c : call) : Prop :=
  puts x v c \/ target c = x /\ exists i, asked c = IntCall i /\ (int_op i = APreInc \/ int_op i = APostInc \/ int_op i = AAddEq 1 \/ int_op i = AFetchAdd 1).

Section Ring.
(** The counters, which have [w] bits, and the [size] slots. *)
Variables (head tail : nat) (w : N) (slot : nat -> nat) (size : nat).
Definition is_slot (x : nat) : Prop := exists m, m < size /\ x = slot m.
Definition range : Z := (2 ^ Z.of_N w)%Z.
(** The value of a counter that has been increased [i] times. *)
Definition rolled (i : nat) : N := (N.of_nat i mod 2 ^ w)%N.

Section Producer.
Variable rs : list (call * reply).
(** Before call number [k] the producer has found [head] such that there is room for one more.  It need
    not look again every time, but before what it found is too old to be compared. *)
Definition room (k : nat) : Prop :=
  exists l cl r, l < k /\ nth_error rs l = Some cl /\ finds head r cl /\
    (Z.of_nat (changed tail rs k - changed tail rs l + size) < range)%Z /\
    ((Z.of_nat (changed tail rs k) - Z.of_N r) mod range < Z.of_nat size)%Z.
(** It uses the slot that is next, and increases [tail] by one, when there is room; it does not change
    [head]. *)
Record produces : Prop := {
  p_tail : forall k co, nth_error rs k = Some co -> target (fst co) = tail ->
    access_of (asked (fst co)) = Reads \/ increases tail (rolled (changed tail rs k + 1)) (fst co) /\ room k;
  p_head : forall k co, nth_error rs k = Some co -> target (fst co) = head -> access_of (asked (fst co)) = Reads;
  p_slots : forall k co, nth_error rs k = Some co -> is_slot (target (fst co)) -> target (fst co) = slot (changed tail rs k mod size) /\ room k }.
End Producer.

Section Consumer.
Variable rs : list (call * reply).
(** The consumer has found [tail] such that there is something in the queue. *)
Definition filled (k : nat) : Prop :=
  exists l cl r, l < k /\ nth_error rs l = Some cl /\ finds tail r cl /\
    (Z.of_nat (changed head rs k - changed head rs l + size) < range)%Z /\
    (1 <= (Z.of_N r - Z.of_nat (changed head rs k)) mod range <= Z.of_nat size)%Z.
Record consumes : Prop := {
  c_head : forall k co, nth_error rs k = Some co -> target (fst co) = head ->
    access_of (asked (fst co)) = Reads \/ increases head (rolled (changed head rs k + 1)) (fst co) /\ filled k;
  c_tail : forall k co, nth_error rs k = Some co -> target (fst co) = tail -> access_of (asked (fst co)) = Reads;
  c_slots : forall k co, nth_error rs k = Some co -> is_slot (target (fst co)) -> target (fst co) = slot (changed head rs k mod size) /\ filled k }.
End Consumer.

(** Thread [p] produces, thread [c] consumes, other threads only read the counters.  The slots are
    objects of their own, and there are fewer than the counters can count. *)
Record ring (objs : nat -> object_type) (st : nat -> obj_state) (rs : nat -> list (call * reply)) (p c : nat) : Prop := {
  r_threads : p <> c;
  r_size : 0 < size;
  r_width : (Z.of_nat size < range)%Z;
  r_counters : head <> tail /\ forall m, m < size -> slot m <> head /\ slot m <> tail;
  r_slots : forall m m', m < size -> m' < size -> slot m = slot m' -> m = m';
  r_types : forall x, x = head \/ x = tail -> exists iw ew sg esg, objs x = Int iw w ew sg esg;
  r_start : st head = IntState 0 /\ st tail = IntState 0;
  r_producer : produces (rs p);
  r_consumer : consumes (rs c);
  r_others : forall t k co, t <> p -> t <> c -> nth_error (rs t) k = Some co ->
    (target (fst co) = head \/ target (fst co) = tail -> access_of (asked (fst co)) = Reads) /\ ~ is_slot (target (fst co)) }.

(** Calls that modify the counters release, loads of the counters acquire. *)
Definition counters_release_acquire (programs : list (list call)) : Prop :=
  forall x, In x (concat programs) -> target x = head \/ target x = tail ->
    (access_of (asked x) <> Reads -> is_release (wanted (asked x)) = true) /\ (access_of (asked x) = Reads -> is_acquire (wanted (asked x)) = true).

(** Call number [k] of the producer is part of its push number [i], from 0; call number [k] of the consumer
    is part of its pop number [i]. *)
Definition in_push (rs : list (call * reply)) (i k : nat) : Prop := exists co, nth_error rs k = Some co /\ is_slot (target (fst co)) /\ changed tail rs k = i.
Definition in_pop (rs : list (call * reply)) (i k : nat) : Prop := exists co, nth_error rs k = Some co /\ is_slot (target (fst co)) /\ changed head rs k = i.
(** What push number [i] leaves in the slot is [v]; pop number [i] finds [v] there. *)
Definition pushed (rs : list (call * reply)) (i : nat) (v : N) : Prop :=
  exists k co x, in_push rs i k /\ nth_error rs k = Some co /\ puts x v (fst co) /\
    forall k' co', k < k' -> in_push rs i k' -> nth_error rs k' = Some co' -> access_of (asked (fst co')) = Reads.
Definition popped (rs : list (call * reply)) (i : nat) (v : N) : Prop :=
  exists k co x, in_pop rs i k /\ nth_error rs k = Some co /\ finds x v co /\
    forall k' co', k' < k -> in_pop rs i k' -> nth_error rs k' = Some co' -> access_of (asked (fst co')) = Reads.
End Ring.
