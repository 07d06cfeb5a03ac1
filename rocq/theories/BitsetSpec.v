(** What a user expects of bitset<N>: N booleans, indexed from 0. *)
From Verif Require Import Base BitModel BitSpec BitsetModel.
Open Scope N_scope.

(** The N booleans f(0), f(1), ..., f(N-1). *)
Definition tab (n : N) (f : N -> bool) : list bool := map (fun i => f (N.of_nat i)) (seq 0 (N.to_nat n)).
(** The boolean at an index (false outside). *)
Definition bit (b : list bool) (i : N) : bool := match rd b i with Some x => x | None => false end.
(** The indices below n satisfying f, ascending. *)
Definition indices_where (n : N) (f : N -> bool) : list N :=
  filter f (map N.of_nat (seq 0 (N.to_nat n))).
Definition value_of (b : list bool) : N := fold_right (fun (x : bool) v => (if x then 1 else 0) + 2 * v) 0 b.

(** The sizes considered: a non-empty bitset, words no wider than long long. *)
Definition sizes_ok (pl : platform) (n w : N) : Prop :=
  good_platform pl /\ 0 < w /\ w <= llong_w pl /\ 0 < n /\ n < size_mod.

(** A possible storage of a bitset<n> with w-bit words: storage_size words of w bits. *)
Definition valid (n w : N) (s : storage) : Prop :=
  len s = storage_size n w /\ Forall (fun x => x < 2 ^ w) s.
(** The number of bits in the storage. *)
Definition capacity (n w : N) : N := storage_size n w * w.
(** No bit at or above n is set. *)
Definition tidy (n w : N) (s : storage) : Prop :=
  forall i, n <= i -> i < capacity n w -> get w s i = Some false.
(** [f] gives the bits of [s] below n. *)
Definition holds (n w : N) (s : storage) (f : N -> bool) : Prop :=
  forall i, i < n -> get w s i = Some (f i).

Section Spec.
Variable n : N.   (* the size *)
Variable w : N.   (* the storage word: only in the preconditions of shifts and conversions *)
Variable same64 : bool.

Definition regs := list (list bool).
Definition reg (m : regs) (r : N) : list bool := match rd m r with Some b => b | None => [] end.
Definition has (m : regs) (r : N) : Prop := r < len m.

(** Preconditions: indices below N, non-empty ranges with lsb <= msb < N (below 2^32, the
    range of lsb_t), shifts by less than the storage, conversions to a wide enough type,
    a string position inside the string. *)
Definition bpre (m : regs) (op : bop) : Prop :=
  match op with
  | BDefault r | BAllBits r | BSetAll r | BResetAll r | BFlipAll r
  | BCount r | BEmpty r | BAll r | BAny r | BNone r | BEachSet r | BEachUnset r
  | BEachBit r | BLowestUnset r | BReduce r => has m r
  | BFromU64 r v => has m r /\ v < 2 ^ 64 /\ (same64 = true \/ w < 64)
  | BPlace r ps => has m r /\ Forall (fun p => p < n) ps
  | BString r str pos cnt one => has m r /\ pos <= len str
  | BSet r i _ | BReset r i | BFlip r i | BGet r i => has m r /\ i < n
  | BSetRange r l u _ => has m r /\ l <= u /\ u < n
  | BSetLen r l k _ => has m r /\ 0 < k /\ l + k <= n /\ l + k <= 2 ^ 32
  | BCopy d a | BNot d a | BOr d a | BAnd d a | BXor d a => has m d /\ has m a
  | BMinus d a b => has m d /\ has m a /\ has m b
  | BShl r k | BShr r k => has m r /\ k < storage_size n w * w
  | BEq a b => has m a /\ has m b
  | BTo r same uw => has m r /\ n <= uw /\ if same : bool then uw = w else w <= uw
  end.

(** The new contents of the destination and the result of each call. *)
Definition beffect (m : regs) (op : bop) : option (N * (N -> bool)) * bout :=
  match op with
  | BDefault r => (Some (r, fun _ => false), BUnit)
  | BFromU64 r v => (Some (r, N.testbit v), BUnit)
  | BPlace r ps => (Some (r, fun i => existsb (N.eqb i) ps), BUnit)
  | BAllBits r => (Some (r, fun _ => true), BUnit)
  | BString r str pos cnt one =>
      (* the last character used is bit 0 *)
      let used := N.min (N.min cnt (len str - pos)) n in
      (Some (r, fun i => (i <? used) &&
         match rd str (pos + (used - 1 - i)) with Some c => c =? one | None => false end), BUnit)
  | BCopy d a => (Some (d, bit (reg m a)), BUnit)
  | BSet r i v => (Some (r, fun j => if j =? i then v else bit (reg m r) j), BUnit)
  | BSetRange r l u v =>
      (Some (r, fun j => if (l <=? j) && (j <=? u) then v else bit (reg m r) j), BUnit)
  | BSetLen r l k v =>
      (Some (r, fun j => if (l <=? j) && (j <? l + k) then v else bit (reg m r) j), BUnit)
  | BSetAll r => (Some (r, fun _ => true), BUnit)
  | BReset r i => (Some (r, fun j => if j =? i then false else bit (reg m r) j), BUnit)
  | BResetAll r => (Some (r, fun _ => false), BUnit)
  | BFlip r i => (Some (r, fun j => if j =? i then negb (bit (reg m r) j) else bit (reg m r) j), BUnit)
  | BFlipAll r => (Some (r, fun j => negb (bit (reg m r) j)), BUnit)
  | BNot d a => (Some (d, fun j => negb (bit (reg m a) j)), BUnit)
  | BOr d a => (Some (d, fun j => bit (reg m d) j || bit (reg m a) j), BUnit)
  | BAnd d a => (Some (d, fun j => bit (reg m d) j && bit (reg m a) j), BUnit)
  | BXor d a => (Some (d, fun j => xorb (bit (reg m d) j) (bit (reg m a) j)), BUnit)
  | BMinus d a b => (Some (d, fun j => bit (reg m a) j && negb (bit (reg m b) j)), BUnit)
  | BShl r k => (Some (r, fun j => (k <=? j) && bit (reg m r) (j - k)), BUnit)
  | BShr r k => (Some (r, fun j => bit (reg m r) (j + k)), BUnit)
  | BGet r i => (None, BBool (bit (reg m r) i))
  | BCount r => (None, BNum (len (indices_where n (bit (reg m r)))))
  | BEmpty r | BNone r => (None, BBool (forallb negb (reg m r)))
  | BAny r => (None, BBool (existsb (fun b => b) (reg m r)))
  | BAll r => (None, BBool (forallb (fun b => b) (reg m r)))
  | BEq a b => (None, BBool (forallb (fun i => eqb (bit (reg m a) i) (bit (reg m b) i)) (map N.of_nat (seq 0 (N.to_nat n)))))
  | BTo r _ _ => (None, BNum (value_of (reg m r)))
  | BEachSet r => (None, BList (indices_where n (bit (reg m r))))
  | BEachUnset r => (None, BList (indices_where n (fun i => negb (bit (reg m r) i))))
  | BEachBit r => (None, BPairs (map (fun i => (i, bit (reg m r) i)) (map N.of_nat (seq 0 (N.to_nat n)))))
  | BLowestUnset r => (None, BNum (match indices_where n (fun i => negb (bit (reg m r) i)) with i :: _ => i | [] => n end))
  | BReduce r => (None, BList (indices_where n (bit (reg m r))))
  end.

Definition bspec (m : regs) (op : bop) (o : bout) (m' : regs) : Prop :=
  let '(e, out) := beffect m op in
  o = out /\
  match e with
  | None => m' = m
  | Some (r, f) => wr m r (tab n f) = Some m'
  end.

(** Calls that look at the storage above N. *)
Definition sensitive (op : bop) : bool :=
  match op with BShr _ _ | BLowestUnset _ | BReduce _ => true | _ => false end.
(** Calls that may leave bits set in the storage above N (none if N fills its words). *)
Definition untidy (op : bop) : bool :=
  if n mod w =? 0 then false else
  match op with
  | BSetAll _ | BFlipAll _ | BNot _ _ | BShl _ _ => true
  | BFromU64 _ v => negb (v <? 2 ^ n)
  | _ => false
  end.
End Spec.
