(** What a user expects of atomic<bool>, atomic<E> and atomic<T*>. *)
From Verif Require Import Base AtomKindModel.
Open Scope Z_scope.

(** The operations of std::atomic<T>, which the documentation refers to. *)
Definition std_has (k : kind) (m : member) : bool :=
  match m, k with
  | (MDefault | MFromT | MLoad | MStore | MExchange), _ => true
  | _, Integer => true
  | (MFetchAdd | MFetchSub | MAddEq | MSubEq | MIncDec), Pointer => true
  | _, _ => false
  end.

(** A bool; arithmetic is that of int, converted back. *)
Definition number (b : bool) : Z := if b then 1 else 0.
Definition nonzero (x : Z) (b : bool) : Prop := b = true <-> x <> 0.
Definition bspec (m : bool) (op : bop) (o : option bool) (m' : bool) : Prop :=
  match op with
  | BLoad => m' = m /\ o = Some m
  | BStore b => m' = b /\ o = None
  | BAssign b => m' = b /\ o = Some b
  | BExchange b => m' = b /\ o = Some m
  | BFetchAdd b => nonzero (number m + number b) m' /\ o = Some m
  | BFetchSub b => nonzero (number m - number b) m' /\ o = Some m
  | BAddEq b => nonzero (number m + number b) m' /\ o = Some m'
  | BSubEq b => nonzero (number m - number b) m' /\ o = Some m'
  | BFetchAnd b => m' = (m && b)%bool /\ o = Some m
  | BFetchOr b => m' = (m || b)%bool /\ o = Some m
  | BFetchXor b => m' = xorb m b /\ o = Some m
  | BAndEq b => m' = (m && b)%bool /\ o = Some m'
  | BOrEq b => m' = (m || b)%bool /\ o = Some m'
  | BXorEq b => m' = xorb m b /\ o = Some m'
  end.
(** Not fetch_add, fetch_sub, += and -=, which std::atomic<bool> does not have. *)
Definition logical (op : bop) : Prop :=
  match op with BFetchAdd _ | BFetchSub _ | BAddEq _ | BSubEq _ => False | _ => True end.
Definition word_is (mem : N) (m : bool) : Prop := mem = if m then 1%N else 0%N.
(** What fetch_add and the like do if the bool is kept in an integer of [ew] bits: the integer counts, and
    is true if it is not 0.  Arithmetic results are converted from the bool that was there. *)
Definition truth (m : N) (b : bool) : Prop := b = true <-> m <> 0%N.
Definition wspec (ew m : N) (op : bop) (o : option bool) (m' : N) : Prop :=
  let bit (b : bool) := if b then 1%N else 0%N in
  let before := exists b, truth m b /\ o = Some b in
  match op with
  | BLoad => m' = m /\ before
  | BStore b => m' = bit b /\ o = None
  | BAssign b => m' = bit b /\ o = Some b
  | BExchange b => m' = bit b /\ before
  | BFetchAdd b => m' = ((m + bit b) mod 2 ^ ew)%N /\ before
  | BFetchSub b => ((m' + bit b) mod 2 ^ ew = m)%N /\ (m' < 2 ^ ew)%N /\ before
  | BAddEq b => m' = ((m + bit b) mod 2 ^ ew)%N /\ exists t, truth m t /\ o = Some (t || b)%bool
  | BSubEq b => ((m' + bit b) mod 2 ^ ew = m)%N /\ (m' < 2 ^ ew)%N /\ exists t, truth m t /\ o = Some (xorb t b)
  | BFetchAnd b => m' = bit (N.odd m && b)%bool /\ before
  | BFetchOr b => (forall i, N.testbit m' i = (N.testbit m i || ((i =? 0)%N && b))%bool) /\ before
  | BFetchXor b => (forall i, N.testbit m' i = xorb (N.testbit m i) ((i =? 0)%N && b)) /\ before
  | BAndEq b => m' = bit (N.odd m && b)%bool /\ exists t, truth m t /\ o = Some (t && b)%bool
  | BOrEq b => (forall i, N.testbit m' i = (N.testbit m i || ((i =? 0)%N && b))%bool) /\ exists t, truth m t /\ o = Some (t || b)%bool
  | BXorEq b => (forall i, N.testbit m' i = xorb (N.testbit m i) ((i =? 0)%N && b)) /\ exists t, truth m t /\ o = Some (xorb t b)
  end.
