(** Linearizability of a history of invocations and responses. *)
From Verif Require Import Base ConcModel.
Open Scope N_scope.

Section Lin.
Context {Op Out M : Type}.
(** The sequential specification: in abstract state [m], call [op] may return [o] and leave [m']. *)
Variable spec : M -> Op -> Out -> M -> Prop.

Fixpoint legal (m : M) (calls : list (Op * Out)) (m' : M) : Prop :=
  match calls with
  | [] => m = m'
  | (op, o) :: rest => exists m1, spec m op o m1 /\ legal m1 rest m'
  end.

(** A history with the instants at which the calls take effect. *)
Inductive tevent := TInv (i : N) (op : Op) | TPoint (i : N) (op : Op) (o : Out) | TRes (i : N) (op : Op) (o : Out).
Fixpoint erase (tr : list tevent) : list (event Op Out) :=
  match tr with
  | [] => []
  | TInv i op :: r => Inv i op :: erase r
  | TRes i op o :: r => Res i op o :: erase r
  | TPoint _ _ _ :: r => erase r
  end.
Fixpoint points (tr : list tevent) : list (Op * Out) :=
  match tr with
  | [] => []
  | TPoint _ op o :: r => (op, o) :: points r
  | _ :: r => points r
  end.
(** Each call of thread [i] takes effect once, between its invocation and its response, with
    the result it returns. *)
Inductive phase := Idle | Called (op : Op) | Took (op : Op) (o : Out).
Fixpoint thread_ok (i : N) (ph : phase) (tr : list tevent) : Prop :=
  match tr with
  | [] => True
  | TInv j op :: r => if j =? i then ph = Idle /\ thread_ok i (Called op) r else thread_ok i ph r
  | TPoint j op o :: r => if j =? i then ph = Called op /\ thread_ok i (Took op o) r else thread_ok i ph r
  | TRes j op o :: r => if j =? i then ph = Took op o /\ thread_ok i Idle r else thread_ok i ph r
  end.

(** The calls of [h] can be explained by a sequential execution, from [m] to [m'], in which
    every call takes effect between its invocation and its response. *)
Definition linearizable (m : M) (h : list (event Op Out)) (m' : M) : Prop :=
  exists tr, erase tr = h /\ (forall i, thread_ok i Idle tr) /\ legal m (points tr) m'.

(** The completed calls, in the order of their responses. *)
Fixpoint responses (h : list (event Op Out)) : list (Op * Out) :=
  match h with
  | [] => []
  | Res _ op o :: r => (op, o) :: responses r
  | Inv _ _ :: r => responses r
  end.
(** What thread [i] has invoked, in order. *)
Fixpoint invoked (i : N) (h : list (event Op Out)) : list Op :=
  match h with
  | [] => []
  | Inv j op :: r => if j =? i then op :: invoked i r else invoked i r
  | Res _ _ _ :: r => invoked i r
  end.
End Lin.
(** How many steps of the schedule are thread [i]'s. *)
Definition own_steps (i : N) (sched : list N) : nat := length (filter (fun j => j =? i) sched).
