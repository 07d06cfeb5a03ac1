(** Value categories, copies and moves in include/stdx/optional.hpp.

    OptionalModel has values only.  Here an optional is an object in a store (that of MoveModel): the
    places of the parts of its member [val], one for most types, one per element for a tuple.  A
    function sees, for every part, its value and the reference it has been given.  (For a value that
    is unpacked, unwrap_invoke, 63-90, these are the references that apply passes; for one that is
    not, what the function sees of the parts through the reference to the whole.) *)
From Verif Require Import Base MoveModel.
Open Scope ub_scope.

(** T &, T const &, T && and T const &&. *)
Inductive quals := LRef | CLRef | RRef | CRRef.
Definition acts (q : quals) : category := match q with LRef => Lvalue | RRef => Rvalue | CLRef | CRRef => ConstLvalue end.
Definition name (q : quals) (l : nat) : ref quals := Ref (acts q) l q.

Section Optional.
Context {V : Type}.
Notation store := (store V).

(** A function given by the user: the arguments are what [MoveModel.user] has, with the references. *)
Definition fn (W R : Type) := W -> list (quals * cell V) -> W * R * list (cell V).
Definition sees (m : store) (r : ref quals) : quals * cell V := (of_type r, look m (loc r)).
Definition calls_fn {W R} (f : fn W R) (s : W * store) (rs : list (ref quals)) : (W * store) * R :=
  let '(w, r, xs) := f (fst s) (map (sees (snd s)) rs) in ((w, write_all (snd s) rs xs), r).

(** [val == traits()]: optional.hpp:133-135.  What a moved-from value compares to is up to its type. *)
Variable is_tombstone : list (cell V) -> bool.
(** traits(): the parts of the tombstone. *)
Variable ts : list V.

Definition has_value (m : store) (o : list nat) : bool := negb (is_tombstone (map (look m) o)).
(** value and operator*, four overloads each: optional.hpp:138-151, 161-174. *)
Definition value (q : quals) (o : list nat) : list (ref quals) :=
  match q with
  | LRef => map (name LRef) o
  | CLRef => map (name CLRef) o
  | RRef => map (name RRef) o
  | CRRef => map (name CRRef) o
  end.

(** T{std::forward<U>(u)}: [mk] is what the constructor makes of the values it is given. *)
Definition make (mk : list (cell V) -> list (cell V)) (m : store) (us : list (ref quals)) : store * list (cell V) :=
  let (m', vs) := build m us in (m', mk vs).
Fixpoint set_all (m : store) (o : list nat) (vs : list (cell V)) : store :=
  match o, vs with l :: o', v :: vs' => set_all (set_nth l v m) o' vs' | _, _ => m end.

(** The two overloads [const &] and [&&] of value_or and or_else: an lvalue and a const rvalue go to
    the first. *)
Definition const_or_move (q : quals) : quals := match q with RRef => RRef | _ => CLRef end.
(** optional.hpp:176-184. *)
Definition value_or (mk : list (cell V) -> list (cell V)) (m : store) (q : quals) (o : list nat) (d : list (ref quals)) : store * list (cell V) :=
  if has_value m o then build m (value (const_or_move q) o) else make mk m d.
(** optional.hpp:229-234.  The function returns an optional by value. *)
Definition or_else {W} (s : W * store) (q : quals) (o : list nat) (f : W -> store -> (W * store) * list (cell V)) : (W * store) * list (cell V) :=
  if has_value (snd s) o then let (m, vs) := build (snd s) (value (const_or_move q) o) in ((fst s, m), vs) else f (fst s) (snd s).
(** optional.hpp:198-227, four overloads; [empty] is what optional<U>{} is. *)
Definition transform {W R} (empty : R) (f : fn W R) (s : W * store) (q : quals) (o : list nat) : (W * store) * R :=
  if has_value (snd s) o then calls_fn f s (value q o) else (s, empty).
(** optional.hpp:236-259; and operator|, 289-304, which keeps the value category. *)
Definition and_then {W R} (empty : R) (f : fn W R) (s : W * store) (q : quals) (o : list nat) : (W * store) * R :=
  if has_value (snd s) o then calls_fn f s (value q o) else (s, empty).
(** optional.hpp:327-340: [std::forward<Ts>(ts).value()...]. *)
Fixpoint all_have (m : store) (os : list (quals * list nat)) : bool :=
  match os with [] => true | o :: r => if has_value m (snd o) then all_have m r else false end.
Definition transform_all {W R} (empty : R) (f : fn W R) (s : W * store) (os : list (quals * list nat)) : (W * store) * R :=
  if all_have (snd s) os then calls_fn f s (flat_map (fun o => value (fst o) (snd o)) os) else (s, empty).

(** optional.hpp:107-115, and the implicit copy and move constructors (from [value q o]). *)
Definition construct (mk : list (cell V) -> list (cell V)) (m : store) (us : list (ref quals)) : store * list (cell V) := make mk m us.
(** optional.hpp:186-191: [val] is destroyed before the arguments are used, so that they may not
    refer to it. *)
Definition emplace (mk : list (cell V) -> list (cell V)) (m : store) (o : list nat) (us : list (ref quals)) : option store :=
  if existsb (fun u => existsb (Nat.eqb (loc u)) o) us then None
  else let (m', vs) := make mk m us in Some (set_all m' o vs).
(** optional.hpp:193-196. *)
Definition reset (m : store) (o : list nat) : store := set_all m o (map Value ts).
(** optional.hpp:122-131, and the implicit copy and move assignments. *)
Definition assign (mk : list (cell V) -> list (cell V)) (m : store) (o : list nat) (us : list (ref quals)) : store :=
  let (m', vs) := make mk m us in set_all m' o vs.
End Optional.
Arguments fn : clear implicits.
