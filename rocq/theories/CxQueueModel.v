(** Model of stdx::cx_queue (include/stdx/cx_queue.hpp). *)
From Verif Require Import Base.

Section CxQueue.
Context {A : Type}.
(** [mv x] is the value a T is left with after being moved from: arbitrary. *)
Variable mv : A -> A.

(** cx_queue.hpp:36-39: storage, push_index, pop_index, current_size. *)
Record queue := { q_storage : list A; q_push : N; q_pop : N; q_size : N }.

(** cx_queue.hpp:36-39: default member initialisers; [d] is T{}.
    [N - 1] is size_t arithmetic. *)
Definition q_init (cap : N) (d : A) : queue :=
  {| q_storage := repeat d (N.to_nat cap); q_push := sz_dec cap; q_pop := 0; q_size := 0 |}.

(** cx_queue.hpp:15-31: the two policies shipped with the library. *)
Inductive policy := Safe | Unsafe.

Inductive q_panic := Overflow | Underflow.

(** cx_queue.hpp:21-25 / 16. [Some p]: STDX_PANIC p is reached. *)
Definition check_push (pol : policy) (size cap : N) : option q_panic :=
  match pol with
  | Unsafe => None
  | Safe => if (cap <=? size)%N then Some Overflow else None
  end.

(** cx_queue.hpp:26-30 / 17. *)
Definition check_pop (pol : policy) (size : N) : option q_panic :=
  match pol with
  | Unsafe => None
  | Safe => if (size <=? 0)%N then Some Underflow else None
  end.

(** Public operations; [SetFront]/[SetBack] are assignments through the reference
    returned by the non-const front()/back(), [PushSet v w] an assignment of w through
    the reference returned by push(v). *)
Inductive q_op :=
| Push (v : A) | PushSet (v w : A) | Pop | Front | Back | SetFront (v : A) | SetBack (v : A)
| Clear | Size | Empty | Full.

Inductive q_out := OUnit | OVal (v : A) | ONum (n : N) | OBool (b : bool).

(** A body run after a policy check: panic first, then continue only if the panic
    handler returns (panic.hpp:9-15, 32-36). *)
Definition after_check (h : handler) (p : option q_panic) (s : queue)
  (body : option (queue * q_out)) : outcome q_panic queue q_out :=
  match p, h with
  | Some p, DoesNotReturn => Stopped s p
  | Some p, Returns => match body with Some (s', o) => Done s' o [p] | None => Undef end
  | None, _ => match body with Some (s', o) => Done s' o [] | None => Undef end
  end.

(** cx_queue.hpp:86-90 (and 94-98): [if (++push_index == N) push_index = 0;
    ++current_size; return storage[push_index] = value;].
    The position written is also returned. *)
Definition push_body (cap : N) (q : queue) (v : A) : option (queue * N) :=
  let i := sz_inc (q_push q) in
  let i := if (i =? cap)%N then 0%N else i in
  match wr (q_storage q) i v with
  | Some st => Some ({| q_storage := st; q_push := i; q_pop := q_pop q;
                        q_size := sz_inc (q_size q) |}, i)
  | None => None
  end.

(** cx_queue.hpp:103-108: [auto entry = std::move(storage[pop_index++]); if (pop_index
    == N) pop_index = 0; --current_size; return entry;]. *)
Definition pop_body (cap : N) (q : queue) : option (queue * A) :=
  match rd (q_storage q) (q_pop q) with
  | Some entry =>
      match wr (q_storage q) (q_pop q) (mv entry) with
      | Some st =>
          let i := sz_inc (q_pop q) in
          let i := if (i =? cap)%N then 0%N else i in
          Some ({| q_storage := st; q_push := q_push q; q_pop := i;
                   q_size := sz_dec (q_size q) |}, entry)
      | None => None
      end
  | None => None
  end.

Definition set_at (q : queue) (i : N) (v : A) : option (queue * q_out) :=
  match wr (q_storage q) i v with
  | Some st => Some ({| q_storage := st; q_push := q_push q; q_pop := q_pop q;
                        q_size := q_size q |}, OUnit)
  | None => None
  end.

Definition q_step (pol : policy) (h : handler) (cap : N) (q : queue) (op : q_op)
  : outcome q_panic queue q_out :=
  match op with
  | Push v => (* :84-91 *)
      after_check h (check_push pol (q_size q) cap) q
        (option_map (fun r => (fst r, OVal v)) (push_body cap q v))
  | PushSet v w => (* :84-91, then write through the returned reference *)
      after_check h (check_push pol (q_size q) cap) q
        (match push_body cap q v with
         | Some (q', i) => set_at q' i w
         | None => None
         end)
  | Pop => (* :101-109 *)
      after_check h (check_pop pol (q_size q)) q
        (option_map (fun r => (fst r, OVal (snd r))) (pop_body cap q))
  | Front => (* :65-73 *)
      after_check h (check_pop pol (q_size q)) q
        (option_map (fun v => (q, OVal v)) (rd (q_storage q) (q_pop q)))
  | Back => (* :74-82 *)
      after_check h (check_pop pol (q_size q)) q
        (option_map (fun v => (q, OVal v)) (rd (q_storage q) (q_push q)))
  | SetFront v => after_check h (check_pop pol (q_size q)) q (set_at q (q_pop q) v)
  | SetBack v => after_check h (check_pop pol (q_size q)) q (set_at q (q_push q) v)
  | Clear => (* :59-63 *)
      Done {| q_storage := q_storage q; q_push := sz_dec cap; q_pop := 0; q_size := 0 |} OUnit []
  | Size => Done q (ONum (q_size q)) [] (* :47-49 *)
  | Empty => Done q (OBool (q_size q =? 0)%N) [] (* :55-57 *)
  | Full => Done q (OBool (q_size q =? cap)%N) [] (* :52-54 *)
  end.
End CxQueue.
Arguments queue : clear implicits.
Arguments q_op : clear implicits.
Arguments q_out : clear implicits.
