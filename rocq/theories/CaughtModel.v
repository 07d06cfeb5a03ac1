(** Model of cx_queue with a policy of the user's (include/stdx/cx_queue.hpp:33-35), and of
    programs in which the policy, or the panic handler, throws and the caller catches: no
    function on the way is noexcept (cx_queue.hpp, detail/list_common.hpp, panic.hpp:17-26,
    :32-36). *)
From Verif Require Import Base CxQueueModel.

(** A policy: check_push(size, capacity) and check_pop(size), static functions that may keep
    state [W] of their own.  [true] if the call returns, [false] if it throws. *)
Record overflow_policy (W : Type) := { on_push : W -> N -> N -> W * bool; on_pop : W -> N -> W * bool }.
Arguments on_push {W}.
Arguments on_pop {W}.

Section Queue.
Context {A W : Type}.
Variable mv : A -> A.

(** The call of OverflowPolicy that an operation starts with: cx_queue.hpp:66, :71, :75, :80,
    :85, :93, :102. *)
Definition ask (pol : overflow_policy W) (cap : N) (w : W) (q : queue A) (op : q_op A) : W * bool :=
  match op with
  | Push _ | PushSet _ _ => on_push pol w (q_size q) cap
  | Pop | Front | Back | SetFront _ | SetBack _ => on_pop pol w (q_size q)
  | Clear | Size | Empty | Full => (w, true)
  end.
(** The rest of the operation is as without any check (cx_queue.hpp:15-18). *)
Definition policy_step (pol : overflow_policy W) (cap : N) (s : W * queue A) (op : q_op A) : outcome unit (W * queue A) (q_out A) :=
  let '(w, q) := s in
  let '(w, returns) := ask pol cap w q op in
  if returns
  then match q_step mv Unsafe Returns cap q op with
       | Done q' o _ => Done (w, q') o []
       | Stopped _ _ | Undef => Undef
       end
  else Stopped (w, q) tt.
End Queue.

(** A program that catches what a call throws and goes on; [None] for a call that threw. *)
Fixpoint run_caught {P S Op O} (step : S -> Op -> outcome P S O) (s : S) (ops : list Op) : option (S * list (option O)) :=
  match ops with
  | [] => Some (s, [])
  | op :: rest =>
      match step s op with
      | Done s1 o _ => match run_caught step s1 rest with Some (s2, os) => Some (s2, Some o :: os) | None => None end
      | Stopped s1 _ => match run_caught step s1 rest with Some (s2, os) => Some (s2, None :: os) | None => None end
      | Undef => None
      end
  end.
