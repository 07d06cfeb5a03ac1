(** What a user expects of a binder: it owns a function object and values. *)
From Verif Require Import Base MoveModel OptMoveModel OptMoveSpec BindMoveModel.

Section Spec.
Context {V : Type}.

(** How the function object and the bound values are given to the function by a binder of each value
    category: as by std::bind_front, but for a const rvalue. *)
Definition std_given (q : quals) : quals := q.
Definition given (q : quals) : quals := match q with CRRef => CLRef | _ => q end.

(** A binder on its own, and everything else. *)
Record closure (W : Type) := Closure { world : W; function : list (cell V); values : list (cell V); others : nat -> cell V; objects : nat }.
Arguments Closure {W} _ _ _ _ _.
Arguments world {W} _.
Arguments function {W} _.
Arguments values {W} _.
Arguments others {W} _ _.
Arguments objects {W} _.
Definition changed (o : nat -> cell V) (l : nat) (x : cell V) : nat -> cell V := fun k => if k =? l then x else o k.
(** What a function leaves in its arguments, from the first to the last. *)
Fixpoint leaves (o : nat -> cell V) (args : list (quals * nat)) (xs : list (cell V)) : nat -> cell V :=
  match args, xs with
  | (q, l) :: args', x :: xs' => leaves (if constant q then o else changed o l x) args' xs'
  | _, _ => o
  end.
(** The bound values come first or last. *)
Definition beside {A} (front : bool) (bound args : list A) : list A := if front then bound ++ args else args ++ bound.

(** One event.  A call gives the function what the binder owns, as it is now. *)
Inductive does {W R} (front : bool) (f : fn V W R) : closure W -> event V -> closure W -> list R -> Prop :=
| does_change c l x : does front f c (Change l x) (Closure (world c) (function c) (values c) (changed (others c) l x) (objects c)) []
| does_new c x : does front f c (New x) (Closure (world c) (function c) (values c) (changed (others c) (objects c) x) (S (objects c))) []
| does_call c q args w r xf xb xa :
    f (world c) (map (pair (given q)) (function c) ++ beside front (map (pair (given q)) (values c)) (map (fun a => (fst a, others c (snd a))) args)) = (w, r, xf ++ beside front xb xa) ->
    length xf = length (function c) -> length xb = length (values c) -> length xa = length args ->
    does front f c (Call q args)
      (Closure w (if constant (given q) then function c else xf) (if constant (given q) then values c else xb) (leaves (others c) args xa) (objects c)) [r].
Inductive goes {W R} (front : bool) (f : fn V W R) : closure W -> list (event V) -> closure W -> list R -> Prop :=
| goes_none c : goes front f c [] c []
| goes_on c e c1 r1 es c2 r2 : does front f c e c1 r1 -> goes front f c1 es c2 r2 -> goes front f c (e :: es) c2 (r1 ++ r2).

(** A function says what it leaves in each of its arguments. *)
Definition honest {W R} (f : fn V W R) : Prop := forall w args, length (snd (f w args)) = length args.
Definition own (b : binder) : list nat := callee b ++ bound b.
(** The binder's parts are different objects that exist. *)
Definition ready (b : binder) (m : store V) : Prop := NoDup (own b) /\ Forall (fun l => l < length m) (own b).
(** Nobody else names the objects in the binder; there are [n] objects. *)
Fixpoint legal (b : binder) (n : nat) (es : list (event V)) : Prop :=
  match es with
  | [] => True
  | Change l x :: es' => ~ In l (own b) /\ l < n /\ legal b n es'
  | New x :: es' => legal b (S n) es'
  | Call q args :: es' => Forall (fun a => ~ In (snd a) (own b) /\ snd a < n) args /\ legal b n es'
  end.
(** The binder in the store. *)
Record stands_for {W} (b : binder) (s : W * store V) (c : closure W) : Prop := {
  its_world : fst s = world c;
  its_function : map (look (snd s)) (callee b) = function c;
  its_values : map (look (snd s)) (bound b) = values c;
  its_others : forall l, ~ In l (own b) -> look (snd s) l = others c l;
  its_objects : length (snd s) = objects c }.
End Spec.
Arguments Closure {V W} _ _ _ _ _.
Arguments closure : clear implicits.
Arguments world {V W} _.
Arguments function {V W} _.
Arguments values {V W} _.
Arguments others {V W} _ _.
Arguments objects {V W} _.
