(** What a user expects of several atomics and atomic_bitsets shared by threads. *)
From Verif Require Import Base BitModel BitsetModel BitsetSpec ConcModel RelaxedModel AtomicModel AtomicSpec AtomicBitsetModel AtomicBitsetSpec AtomicProps.
From Verif Require Import MultiModel.
Open Scope nat_scope.

(** Orders with which a call releases what its thread did before, and acquires what was released. *)
Definition is_release (mo : memory_order) : bool := match mo with Release | AcqRel | SeqCst => true | _ => false end.
Definition is_acquire (mo : memory_order) : bool := match mo with Acquire | AcqRel | SeqCst => true | _ => false end.
(** The memory order a call asks for: memory_order_seq_cst unless it says otherwise. *)
Definition wanted (r : request) : memory_order :=
  match r with
  | BitsCall (BCall _ (Some mo)) | IntCall (ICall _ (Some mo)) => mo
  | _ => SeqCst
  end.
(** Calls that only read the object, that replace it without reading it, and that do both. *)
Inductive access := Reads | Replaces | Changes.
Definition bits_access (op : abop) : access :=
  match op with
  | OLoad | OGet _ | OTo _ | OToNatural | OAll | OAny | ONone | OCount => Reads
  | OSetAll | OResetAll | OStore _ => Replaces
  | _ => Changes
  end.
Definition int_access (op : aop) : access :=
  match op with ALoad => Reads | AStore _ | AAssign _ => Replaces | _ => Changes end.
Definition access_of (r : request) : access :=
  match r with BitsCall b => bits_access (bits_op b) | IntCall i => int_access (int_op i) end.
(** Only loads and stores restrict the order; the operators have no argument for it. *)
Definition order_ok (r : request) : Prop :=
  match access_of r with
  | Reads => wanted r <> Release /\ wanted r <> AcqRel
  | Replaces => wanted r <> Consume /\ wanted r <> Acquire /\ wanted r <> AcqRel
  | Changes => True
  end /\
  match r with
  | BitsCall (BCall (OGet _) (Some _)) => False
  | IntCall (ICall (AAssign _ | AAddEq _ | ASubEq _ | APreInc | APostInc | APreDec | APostDec | AAndEq _ | AOrEq _ | AXorEq _) (Some _)) => False
  | _ => True
  end.

(** The abstract state of an object, and the effect of a call on it: those of C20 and C21. *)
Inductive obj_state := BitsState (m : list bool) | IntState (m : N).
Definition type_ok (t : object_type) : Prop :=
  match t with
  | Bits pl n w _ same64 => ab_sizes pl n w same64
  | Int _ w ew _ _ => (0 < w <= ew)%N
  end.
Definition represents (t : object_type) (mem : N) (s : obj_state) : Prop :=
  match t, s with
  | Bits _ n _ _ _, BitsState m => stores n mem m
  | Int _ w ew _ _, IntState m => word_holds w ew mem m
  | _, _ => False
  end.
Definition request_ok (t : object_type) (r : request) : Prop :=
  order_ok r /\
  match t, r with
  | Bits _ n w sw _, BitsCall b => abpre n w sw (bits_op b)
  | Int int_w w ew sg esg, IntCall i => call_ok int_w w ew sg esg (int_op i)
  | _, _ => False
  end.
Definition effect (t : object_type) (s : obj_state) (r : request) (o : reply) (s' : obj_state) : Prop :=
  match t, s, r, o, s' with
  | Bits _ n w _ _, BitsState m, BitsCall b, BitsReply o, BitsState m' => abspec n w m (bits_op b) o m'
  | Int _ w _ _ _, IntState m, IntCall i, IntReply o, IntState m' => aspec w m (int_op i) o m'
  | _, _, _, _, _ => False
  end.

Section Objects.
Variable objs : nat -> object_type.
Definition good_call (c : call) : Prop := request_ok (objs (target c)) (asked c).
Definition update {A} (st : nat -> A) (x : nat) (a : A) : nat -> A := fun y => if y =? x then a else st y.
(** These calls, one after the other, with these replies. *)
Fixpoint in_turn (st : nat -> obj_state) (calls : list (call * reply)) (st' : nat -> obj_state) : Prop :=
  match calls with
  | [] => forall x, st x = st' x
  | (c, o) :: rest => exists s, effect (objs (target c)) (st (target c)) (asked c) o s /\ in_turn (update st (target c) s) rest st'
  end.
End Objects.

(** The call a thread is in, if it has taken effect already. *)
Definition pending {Op Out} (t : mthread Op Out) : list (Op * Out) :=
  match mcur t with Some (op, MRet o) => [(op, o)] | _ => [] end.
Definition gone_wrong {Op Out} (t : mthread Op Out) : Prop := exists op, mcur t = Some (op, MBad).
(** The calls of thread [i] that have taken effect, with their replies. *)
Definition replies {Op Out} (ts : list (mthread Op Out)) (outss : list (list (Op * Out))) (i : nat) : list (Op * Out) :=
  nth i outss [] ++ match nth_error ts i with Some t => pending t | None => [] end.

(** Threads run their [programs], or part of them, on objects that start with the values [st]: the calls
    of thread [i] that have taken effect and their replies are [replies ts outss i], and its events, one
    for each of these calls, are [nth i evss []]. *)
Record shared_run (objs : nat -> object_type) (st : nat -> obj_state) (programs : list (list call))
    (contents : nat -> nat -> N) (n : nat -> nat) (evss : list (list mevent)) (ts : list (mthread call reply)) (outss : list (list (call * reply))) : Prop := {
  run_types : forall x, type_ok (objs x);
  run_start : forall x, represents (objs x) (contents x 0) (st x);
  run_calls : Forall (Forall (good_call objs)) programs;
  run_threads : mall_perform (code objs) (mstart programs) evss ts outss;
  run_memory : mexecution (fun x => word_of (objs x)) contents n evss }.

(** ** Publication *)
(** The reply of [op] says that the bit at index [i] is [v]. *)
Definition tells (n w i : N) (v : bool) (op : abop) (o : about) : Prop :=
  forall m, len m = n -> returns n w m op o -> bit m i = v.

(** ** A bit as a lock *)
Section Lock.
Variables (f : nat) (w i : N).
(** Calls that clear the bit at index [i]. *)
Definition clears (op : abop) : Prop := forall b, becomes w op i b = false.
(** The calls on [f] take part in the protocol: they lock the bit with an acquiring call that returns
    the old bits, unlock it with a releasing one, or leave it alone; none replaces all bits. *)
Definition protocol (c : call) : Prop :=
  target c = f -> exists b, asked c = BitsCall b /\ bits_access (bits_op b) <> Replaces /\
    (sets i (bits_op b) = true /\ is_acquire (wanted (asked c)) = true \/
     clears (bits_op b) /\ is_release (wanted (asked c)) = true \/
     leaves w i (bits_op b)).
(** A call that found the bit clear and set it; a call that cleared it. *)
Definition locked (co : call * reply) : Prop :=
  target (fst co) = f /\ exists b o, asked (fst co) = BitsCall b /\ snd co = BitsReply o /\ sets i (bits_op b) = true /\ saw_clear w i o = true.
Definition unlocked (co : call * reply) : Prop :=
  target (fst co) = f /\ exists b, asked (fst co) = BitsCall b /\ clears (bits_op b).
(** A thread unlocks only what it has locked and not unlocked since. *)
Definition disciplined (rs : list (call * reply)) : Prop :=
  forall j co, nth_error rs j = Some co -> unlocked co ->
    exists k co', k < j /\ nth_error rs k = Some co' /\ locked co' /\
      forall m co2, k < m < j -> nth_error rs m = Some co2 -> ~ unlocked co2.
(** The call number [u] ends the critical section that starts with call number [l]: it is the first
    after it that clears the bit. *)
Definition section_end (rs : list (call * reply)) (l u : nat) : Prop :=
  l < u /\ (exists co, nth_error rs u = Some co /\ unlocked co) /\
  forall m co, l < m < u -> nth_error rs m = Some co -> ~ unlocked co.
(** The call number [k] is made while holding the lock that call number [l] took. *)
Definition holding (rs : list (call * reply)) (l k : nat) : Prop :=
  l < k /\ (exists co, nth_error rs l = Some co /\ locked co) /\
  forall m co, l < m <= k -> nth_error rs m = Some co -> ~ unlocked co.
End Lock.
