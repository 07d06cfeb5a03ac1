(** Copies, moves and value categories in the binders of include/stdx/functional.hpp: 30-145.

    ArgsModel has the order of the arguments.  Here a binder is an object in a store: the places of the
    function object and of the bound arguments. *)
From Verif Require Import Base MoveModel OptMoveModel.
Open Scope ub_scope.

(** bind_front_t and bind_back_t (38-54, 94-110); the function is not stored in bind_front_value_t and
    bind_back_value_t (68-82, 124-138). *)
Record binder := Binder { callee : list nat; bound : list nat }.

Section Bind.
Context {V : Type}.
Notation store := (store V).

(** functional.hpp:57-63, 113-119.  The member for the function has type remove_cvref_t<F>: there is
    none if that is the type of a function.  The members are initialized in order. *)
Definition bind (is_function : bool) (m : store) (f : ref quals) (args : list (ref quals)) : option (store * binder) :=
  if is_function then None
  else let (m1, cs) := build m (f :: args) in Some (m1 ++ cs, Binder [length m1] (seq (S (length m1)) (length args))).
(** functional.hpp:85-89, 141-145. *)
Definition bind_value (m : store) (args : list (ref quals)) : store * binder :=
  let (m1, cs) := build m args in (m1 ++ cs, Binder [] (seq (length m1) (length args))).

(** The overloads of the call operator: [const &], [&] and [&&]. *)
Definition overload (q : quals) : quals := match q with LRef => LRef | RRef => RRef | CLRef | CRRef => CLRef end.
(** functional.hpp:43-53, 72-81: the function sees itself first, then its arguments. *)
Definition call_front {W R} (f : fn V W R) (s : W * store) (q : quals) (b : binder) (args : list (ref quals)) : (W * store) * R :=
  calls_fn f s (map (name (overload q)) (callee b) ++ map (name (overload q)) (bound b) ++ args).
(** functional.hpp:99-109, 128-137. *)
Definition call_back {W R} (f : fn V W R) (s : W * store) (q : quals) (b : binder) (args : list (ref quals)) : (W * store) * R :=
  calls_fn f s (map (name (overload q)) (callee b) ++ args ++ map (name (overload q)) (bound b)).
(** The return type is auto: for a function that returns a reference (to its argument number [fst r], as
    [snd r]) the result is a new object. *)
Definition call_front_auto {W} (f : fn V W (nat * quals)) (s : W * store) (q : quals) (b : binder) (args : list (ref quals)) : option ((W * store) * cell V) :=
  let (s', r) := call_front f s q b args in
  e <- nth_error (map (name (overload q)) (callee b) ++ map (name (overload q)) (bound b) ++ args) (fst r);;
  let (m, x) := initialize (snd s') (name (snd r) (loc e)) in Some ((fst s', m), x).

(** What may happen between and in calls: an object is changed, or made, or the binder is called. *)
Inductive event := Change (l : nat) (x : cell V) | New (x : cell V) | Call (q : quals) (args : list (quals * nat)).
Definition happen {W R} (front : bool) (f : fn V W R) (b : binder) (s : W * store) (e : event) : (W * store) * list R :=
  match e with
  | Change l x => ((fst s, set_nth l x (snd s)), [])
  | New x => ((fst s, snd s ++ [x]), [])
  | Call q args =>
      let rs := map (fun a => name (fst a) (snd a)) args in
      let (s', r) := if front then call_front f s q b rs else call_back f s q b rs in (s', [r])
  end.
Fixpoint history {W R} (front : bool) (f : fn V W R) (b : binder) (s : W * store) (es : list event) : (W * store) * list R :=
  match es with
  | [] => (s, [])
  | e :: es' => let (s1, r1) := happen front f b s e in let (s2, r2) := history front f b s1 es' in (s2, r1 ++ r2)
  end.
End Bind.
Arguments event : clear implicits.
