(** resize_and_overwrite of cx_vector with any callback: one that reads, writes and may throw. *)
From Verif Require Import Base CxVectorModel.

Section Program.
Context {A : Type}.

(** What a callback does with the pointer it is given (cx_vector.hpp:143-147), step by step. *)
Inductive callback :=
| Return (n : N)                             (* returns the new size *)
| Throw                                      (* ends with an exception *)
| Read (i : N) (next : A -> callback)        (* reads data[i] and goes on with what it read *)
| Write (i : N) (x : A) (next : callback).   (* data[i] = x *)

Inductive finish := Returned (n : N) | Threw.
(** The call of the callback on [std::data(v.storage)] (cx_vector.hpp:146). [None]: an access outside the array. *)
Fixpoint play (st : list A) (f : callback) : option (list A * finish) :=
  match f with
  | Return n => Some (st, Returned n)
  | Throw => Some (st, Threw)
  | Read i next => match rd st i with Some x => play st (next x) | None => None end
  | Write i x next => match wr st i x with Some st' => play st' next | None => None end
  end.

(** cx_vector.hpp:143-147: [current_size] is assigned only if the callback returns. The callback is given the capacity,
    so it may depend on it. Gives whether the call returned. *)
Definition v_overwrite (v : vector A) (f : N -> callback) : option (vector A * bool) :=
  match play (v_storage v) (f (len (v_storage v))) with
  | Some (st, Returned n) => Some ({| v_storage := st; v_size := n |}, true)
  | Some (st, Threw) => Some ({| v_storage := st; v_size := v_size v |}, false)
  | None => None
  end.

(** The calls of CxVectorModel (cx_vector.hpp:21-157) and this one. *)
Inductive vp_op := Plain (op : v_op A) | Overwrite (f : N -> callback).
Inductive vp_out := PlainOut (o : v_out A) | Finished (returned : bool).
Definition vp_step (cap : N) (v : vector A) (op : vp_op) : outcome unit (vector A) vp_out :=
  match op with
  | Plain op =>
      match v_step cap v op with
      | Done v' o ps => Done v' (PlainOut o) ps
      | Stopped v' p => Stopped v' p
      | Undef => Undef
      end
  | Overwrite f => match v_overwrite v f with Some (v', b) => Done v' (Finished b) [] | None => Undef end
  end.
End Program.
Arguments callback : clear implicits.
Arguments vp_op : clear implicits.
Arguments vp_out : clear implicits.
