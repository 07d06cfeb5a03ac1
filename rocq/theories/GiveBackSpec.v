(** What it means to give back the function. *)
From Verif Require Import Base GiveBackModel.

(** An lvalue is given back itself; an rvalue as an object with the contents it has after the calls.  A
    const rvalue keeps them too. *)
Definition gives_back {V} (c : category) (v : V) (r : option (result V)) : Prop :=
  match c with
  | Lvalue | ConstLvalue => r = Some Same
  | Rvalue => exists left, r = Some (New (Value v) left)
  | ConstRvalue => r = Some (New (Value v) (Value v))
  end.
(** The algorithms on ranges take and return the function by value: one made from [v] is called and comes
    back as [v'], and the caller's own, unless it may be moved from, stays as it is. *)
Definition returns {V} (c : category) (v v' : V) (r : option (result V)) : Prop :=
  exists left, r = Some (New (Value v') left) /\ (c <> Rvalue -> left = Value v).
(** A function object that can be returned by value: a const rvalue cannot be moved. *)
Definition returnable (k : kind) (c : category) : Prop :=
  match k, c with
  | Object t, Rvalue => moves t = true
  | Object t, ConstRvalue => copies t = true
  | Object _, _ => True
  | Function, (Rvalue | ConstRvalue) => False          (* there are no rvalues of function type *)
  | Function, _ => True
  end.
Definition copyable (k : kind) : Prop := match k with Object t => copies t = true | Function => True end.
Definition movable (k : kind) : Prop := match k with Object t => moves t = true | Function => True end.
