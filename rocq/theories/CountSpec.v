(** What a user expects of an atomic integer that threads count with: ticket numbers and references. *)
From Verif Require Import Base ConcModel RelaxedModel AtomicModel AtomicSpec MultiModel MultiSpec.
Open Scope nat_scope.

(** ** Calls that count *)
Definition looks (op : aop) : bool := match op with ALoad => true | _ => false end.
Definition adds_one (op : aop) : bool := match op with AFetchAdd v | AAddEq v => (v =? 1)%N | APreInc | APostInc => true | _ => false end.
Definition takes_one (op : aop) : bool := match op with AFetchSub v | ASubEq v => (v =? 1)%N | APreDec | APostDec => true | _ => false end.
(** What reply [r] of [op] tells of the count [c] before the call, in a type of [w] bits: fetch_add, fetch_sub,
    the postfix operators and load return it; the prefix operators and += -= return the next one. *)
Definition told (w : N) (op : aop) (r c : N) : Prop :=
  (c < 2 ^ w)%N /\
  match op with
  | AAddEq _ | APreInc => Z.of_N r = ((Z.of_N c + 1) mod 2 ^ Z.of_N w)%Z
  | ASubEq _ | APreDec => Z.of_N r = ((Z.of_N c - 1) mod 2 ^ Z.of_N w)%Z
  | _ => r = c
  end.

Section Count.
(** The calls of each thread that have taken effect, with their replies, the number of threads and the
    object they count with, which has [w] bits. *)
Variables (rs : nat -> list (call * reply)) (threads x : nat) (w : N).
Definition is_call (f : aop -> bool) (c : call) : bool :=
  (target c =? x) && match asked c with IntCall i => f (int_op i) | BitsCall _ => false end.
(** How many such calls these are; how many were made. *)
Definition number (f : aop -> bool) (l : list (call * reply)) : nat := length (filter (fun co => is_call f (fst co)) l).
Definition made (f : aop -> bool) : nat := list_sum (map (fun t => number f (rs t)) (seq 0 threads)).
(** All calls on the object are such calls. *)
Definition only (f : aop -> bool) : Prop := forall t k co, nth_error (rs t) k = Some co -> target (fst co) = x -> is_call f (fst co) = true.
(** Call number [k] of thread [t] is such a call, and its reply says that the count was [c] before. *)
Definition counted (f : aop -> bool) (t k : nat) (c : N) : Prop :=
  exists i r, nth_error (rs t) k = Some (Call x (IntCall i), IntReply (Some r)) /\ f (int_op i) = true /\ told w (int_op i) r c.

(** ** References *)
(** How many references each thread starts with. *)
Variable start : nat -> nat.
(** The number of references that thread [t] has before its call number [k]: it gets one with each call
    that adds one and gives one up with each that takes one away. *)
Definition has (t k : nat) : Z :=
  (Z.of_nat (start t) + Z.of_nat (number adds_one (firstn k (rs t))) - Z.of_nat (number takes_one (firstn k (rs t))))%Z.
Record reference_count (v0 : N) : Prop := {
  just_counts : only (fun op => looks op || adds_one op || takes_one op);
  (** at the start, the object holds the number of references *)
  all_counted : v0 = N.of_nat (list_sum (map start (seq 0 threads)));
  (** only one who has a reference makes another or gives one up *)
  rightful : forall t k co, nth_error (rs t) k = Some co -> is_call (fun op => adds_one op || takes_one op) (fst co) = true -> (1 <= has t k)%Z;
  (** no more references than the type can count *)
  enough_bits : (v0 + N.of_nat (made adds_one) < 2 ^ w)%N }.
End Count.
