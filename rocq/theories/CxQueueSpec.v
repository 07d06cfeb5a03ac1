(** What a user expects of cx_queue: a bounded FIFO list, oldest element first.
    [None] marks a violated precondition (push when full; pop/front/back when empty). *)
From Verif Require Import Base CxQueueModel.

Definition last_opt {A} (l : list A) : option A := nth_error l (length l - 1).
Definition set_last {A} (l : list A) (v : A) : list A := removelast l ++ [v].

Definition fifo_step {A} (cap : N) (l : list A) (op : q_op A) : option (list A * q_out A) :=
  match op with
  | Push v => if (len l <? cap)%N then Some (l ++ [v], OVal v) else None
  | PushSet v w => if (len l <? cap)%N then Some (l ++ [w], OUnit) else None
  | Pop => match l with x :: r => Some (r, OVal x) | [] => None end
  | Front => match l with x :: _ => Some (l, OVal x) | [] => None end
  | Back => match last_opt l with Some x => Some (l, OVal x) | None => None end
  | SetFront v => match l with _ :: r => Some (v :: r, OUnit) | [] => None end
  | SetBack v => match l with _ :: _ => Some (set_last l v, OUnit) | [] => None end
  | Clear => Some ([], OUnit)
  | Size => Some (l, ONum (len l))
  | Empty => Some (l, OBool (len l =? 0)%N)
  | Full => Some (l, OBool (len l =? cap)%N)
  end.

(** Which panic a user expects for a violated precondition. *)
Definition expected_panic {A} (op : q_op A) : q_panic :=
  match op with Push _ | PushSet _ _ => Overflow | _ => Underflow end.
