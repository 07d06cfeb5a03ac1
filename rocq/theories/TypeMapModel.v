(** Model of type_map and its lookups, include/stdx/utility.hpp:26-103.

    A map is the list of its type_pairs.  [None]: does not compile. *)
From Verif Require Import Base TupleModel.
Open Scope ub_scope.

Section Map.
Context {K V : Type}.
Variable same_k : K -> K -> bool.
Variable same_v : V -> V -> bool.

(** detail::type_map (utility.hpp:31) derives from all pairs: the same base class twice is an
    error. *)
Fixpoint no_repeat (m : list (K * V)) : bool :=
  match m with
  | [] => true
  | p :: r => negb (existsb (fun q => same_k (fst p) (fst q) && same_v (snd p) (snd q)) r) && no_repeat r
  end.
(** Deducing V of type_pair<K, V> from a class with these bases: it succeeds if exactly one
    base fits, otherwise overload resolution takes the ellipsis. *)
Definition deduce {A} (candidates : list A) : option A := match candidates with [a] => Some a | _ => None end.
(** detail::lookup, type_lookup_t: utility.hpp:49-52, 60-61 (and value_lookup_t, 67-69). *)
Definition lookup (m : list (K * V)) (k : K) (d : V) : option V :=
  if no_repeat m then
    Some (match deduce (List.filter (fun p => same_k k (fst p)) m) with Some p => snd p | None => d end)
  else None.
(** detail::reverse_lookup, reverse_type_lookup_t: utility.hpp:54-57, 63-65. *)
Definition reverse_lookup (m : list (K * V)) (v : V) (d : K) : option K :=
  if no_repeat m then
    Some (match deduce (List.filter (fun p => same_v v (snd p)) m) with Some p => fst p | None => d end)
  else None.
(** type_lookup_v, value_lookup_v: utility.hpp:75-84, 92-96; [void] is the type void and
    [value_of] is ::value, which a type need not have. *)
Definition lookup_v {X} (void : V) (value_of : V -> option X) (m : list (K * V)) (k : K) (d : X) : option X :=
  t <- lookup m k void;; if same_v t void then Some d else value_of t.
End Map.
