(** What a user expects of copies and moves. *)
From Verif Require Import Base MoveModel.
From Coq Require Import Permutation.

Section Spec.
Context {V T : Type}.

(** No object named by an rvalue is named twice: true of the elements of a tuple, and of those of
    several tuples of which no rvalue is given twice. *)
Definition exclusive (rs : list (ref T)) : Prop :=
  forall r, In r rs -> cat r = Rvalue -> count_occ Nat.eq_dec (map loc rs) (loc r) = 1.
(** The same for every object that is not const. *)
Definition unaliased (rs : list (ref T)) : Prop :=
  forall r, In r rs -> cat r <> ConstLvalue -> count_occ Nat.eq_dec (map loc rs) (loc r) = 1.

(** The object [l] is named by an rvalue. *)
Definition given_up (rs : list (ref T)) (l : nat) : Prop := exists r, In r rs /\ cat r = Rvalue /\ loc r = l.
(** What is left of the store when [rs] have been used to make new objects: the rvalues are moved
    from, and nothing else changes. *)
Record left_behind (m : store V) (rs : list (ref T)) (m' : store V) : Prop := {
  moved_from : forall l, given_up rs l -> look m' l = Gone;
  untouched : forall l, ~ given_up rs l -> look m' l = look m l }.
(** The values of the objects [rs] name. *)
Definition values_of (m : store V) (rs : list (ref T)) : list (cell V) := map (fun r => look m (loc r)) rs.

(** Any order of evaluation. *)
Definition any_order (order : nat -> list nat) : Prop := forall n, Permutation (seq 0 n) (order n).

(** The result of a function and the world after it, without what it leaves in its arguments. *)
Definition answer {W R} (f : user V W R) (w : W) (args : list (category * cell V)) : W * R := fst (f w args).

(** Call number [i] of [f], call number [i + 1], ... with the given arguments, their results and what
    they leave in their arguments. *)
Inductive runs {W R} (f : nat -> user V W R) : nat -> W -> list (list (category * cell V)) -> W -> list R -> list (list (cell V)) -> Prop :=
| runs_none i w : runs f i w [] w [] []
| runs_more i w args w1 r xs argss w2 rs xss : f i w args = (w1, r, xs) -> runs f (S i) w1 argss w2 rs xss ->
    runs f i w (args :: argss) w2 (r :: rs) (xs :: xss).
(** One call for each element in turn, of a function that also takes what the call before it returned;
    what the last one returned, and what the calls leave in the elements. *)
Inductive folds {W A} (op : W -> A -> category * cell V -> W * A * cell V) : W -> A -> list (category * cell V) -> W -> A -> list (cell V) -> Prop :=
| folds_none w a : folds op w a [] w a []
| folds_more w a e w1 a1 x es w2 a2 xs : op w a e = (w1, a1, x) -> folds op w1 a1 es w2 a2 xs ->
    folds op w a (e :: es) w2 a2 (x :: xs).
Definition singly {X} (l : list X) : list (list X) := map (fun x => [x]) l.
(** The store after calls on [rows] that leave [xss] in their arguments: nothing else changes. *)
Record updated (m : store V) (rows : list (list (ref T))) (xss : list (list (cell V))) (m' : store V) : Prop := {
  written : forall i j row r xs x, nth_error rows i = Some row -> nth_error row j = Some r -> cat r <> ConstLvalue ->
    nth_error xss i = Some xs -> nth_error xs j = Some x -> look m' (loc r) = x;
  kept : forall l, (forall r, In r (concat rows) -> cat r <> ConstLvalue -> loc r <> l) -> look m' l = look m l }.
(** Calls on the rows in turn, up to the first that answers [stop], if one does. *)
Definition runs_until {W} (stop : bool) (f : user V W bool) (w : W) (m : store V) (rows : list (list (ref T))) (w' : W) (m' : store V) (found : bool) : Prop :=
  exists called rest ys xss, rows = called ++ rest /\
    runs (fun _ => f) 0 w (map (map (seen m)) called) w' ys xss /\ updated m called xss m' /\
    if found then exists pre, ys = pre ++ [stop] /\ ~ In stop pre else rest = [] /\ ~ In stop ys.
(** The objects exist. *)
Definition present (m : store V) (rs : list (ref T)) : Prop := Forall (fun r => loc r < length m) rs.

(** call_by_need: what a function is chosen by, and what it answers. *)
Definition kind (r : ref T) : category * T := (cat r, of_type r).
Definition answers {F W} (run : F -> user V W (option (cell V))) (w : W) (f : F) (args : list (category * cell V)) : W * option (cell V) := answer (run f) w args.
Definition covers (bl : nat * nat) (i : nat) : Prop := fst bl <= i < fst bl + snd bl.
(** No argument that is not const is given to two functions. *)
Definition unshared (args : list (ref T)) (cs : list (nat * nat)) : Prop :=
  forall i r a b p q, nth_error args i = Some r -> cat r <> ConstLvalue -> nth_error cs a = Some p -> nth_error cs b = Some q ->
    covers p i -> covers q i -> a = b.
End Spec.
