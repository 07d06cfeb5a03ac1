(** What docs/optional.adoc promises of transform and and_then. *)
From Coq Require Import List.
From Verif Require Import UnpackModel.
Import ListNotations.

(** A function can be called with the elements of a tuple, passed as the optional is. *)
Definition callable (f : func) (c : cat) (ts : list ty) (u : ty) : Prop :=
  takes f (map (fun t => (c, t)) ts) = Some u.
Definition not_callable (f : func) (c : cat) (ts : list ty) : Prop :=
  takes f (map (fun t => (c, t)) ts) = None.

(** transform gives an optional over [u]; it holds what [r] gives for the value, if there is one. *)
Definition transforms_to (p : platform) (f : func) (c : cat) (t : ty) (u : ty) (r : val -> val) : Prop :=
  forall o, transform p f c t o = Some (u, option_map r o).
(** and_then gives what [r] gives, or a [u] made from nothing. *)
Definition continues_to (p : platform) (f : func) (c : cat) (t : ty) (u : ty) (r : val -> val) : Prop :=
  (forall v, and_then p f c t (Some v) = Some (u, r v)) /\
  (exists d, default p u = Some d /\ and_then p f c t None = Some (u, d)).
Definition does_not_compile (p : platform) (f : func) (c : cat) (t : ty) : Prop :=
  forall o, transform p f c t o = None /\ and_then p f c t o = None.

(** The function is called with the value; with the elements of the value. *)
Definition with_whole (f : func) (c : cat) (v : val) : val := run f [(c, v)].
Definition with_parts (f : func) (c : cat) (v : val) : val :=
  match v with Tup vs => run f (map (fun v => (c, v)) vs) | Atom _ => run f [(c, v)] end.

(** Types that say nothing about tuples: neither a class template over types, nor one of namespace std
    that std::apply rejects. *)
Inductive plain (p : platform) : ty -> Prop :=
| plain_simple n : plain p (Simple n)
| plain_own n : plain p (Own n)
| plain_std n : strict p = true -> plain p (StdOther n).
