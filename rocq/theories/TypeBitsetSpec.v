(** What a user expects of type_bitset<Ts...>: one boolean per type of the list. *)
From Verif Require Import Base BitModel BitSpec.
Open Scope N_scope.

(** [t] is one of [us]. *)
Definition listed (t : N) (us : list N) : bool := existsb (N.eqb t) us.
(** [t] occurs an odd number of times in [us]. *)
Definition odd_times (t : N) (us : list N) : bool := fold_right (fun u b => xorb (N.eqb t u) b) false us.

(** A non-empty type list, words no wider than long long. *)
Definition types_ok (pl : platform) (ts : list N) (w : N) : Prop :=
  good_platform pl /\ 0 < w /\ w <= llong_w pl /\ ts <> [] /\ len ts < size_mod.
(** The list without the entries that also occur further left. *)
Definition firsts (ts : list N) : list N :=
  map snd (filter (fun p => negb (listed (snd p) (firstn (fst p) ts))) (combine (seq 0 (length ts)) ts)).
