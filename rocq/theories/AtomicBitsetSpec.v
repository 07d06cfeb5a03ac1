(** What a user expects of atomic_bitset<N>: N booleans, each call indivisible. *)
From Verif Require Import Base BitModel BitsetModel BitsetSpec ConcModel ConcSpec AtomicBitsetModel.
Open Scope N_scope.

Section Spec.
Variables n w sw : N.

(** Indices below N, non-empty ranges inside N, stored bitsets of N bits, targets wide enough. *)
Definition abpre (op : abop) : Prop :=
  match op with
  | OSet i _ | OReset i | OFlip i | OGet i => i < n
  | OSetRange l m _ | OResetRange l m | OFlipRange l m => l <= m /\ m < n
  | OSetLen l k _ | OResetLen l k | OFlipLen l k => 0 < k /\ l + k <= n
  | OStore b => valid n w b
  | OTo uw => n <= uw
  | OToNatural => n <= sw
  | _ => True
  end.

(** The returned bitset holds exactly the N booleans of [m]. *)
Definition is_bits (m : list bool) (o : about) : Prop :=
  exists s, o = RBits s /\ valid n w s /\ tidy n w s /\ holds n w s (bit m).

(** How the boolean at index [j] changes. *)
Definition becomes (op : abop) (j : N) (old : bool) : bool :=
  match op with
  | OSet i v => if j =? i then v else old
  | OReset i => if j =? i then false else old
  | OFlip i => if j =? i then negb old else old
  | OSetRange l m v => if (l <=? j) && (j <=? m) then v else old
  | OResetRange l m => if (l <=? j) && (j <=? m) then false else old
  | OFlipRange l m => if (l <=? j) && (j <=? m) then negb old else old
  | OSetLen l k v => if (l <=? j) && (j <? l + k) then v else old
  | OResetLen l k => if (l <=? j) && (j <? l + k) then false else old
  | OFlipLen l k => if (l <=? j) && (j <? l + k) then negb old else old
  | OSetAll => true
  | OResetAll => false
  | OFlipAll => negb old
  | OStore b => match get w b j with Some v => v | None => old end
  | OLoad | OGet _ | OTo _ | OToNatural | OAll | OAny | ONone | OCount => old
  end.
(** What the call returns, given the booleans before it. *)
Definition returns (m : list bool) (op : abop) (o : about) : Prop :=
  match op with
  | OSet _ _ | OReset _ | OFlip _ | OSetRange _ _ _ | OResetRange _ _ | OFlipRange _ _
  | OSetLen _ _ _ | OResetLen _ _ | OFlipLen _ _ | OFlipAll | OLoad => is_bits m o
  | OSetAll | OResetAll | OStore _ => o = RUnit
  | OGet i => o = RBool (bit m i)
  | OTo _ | OToNatural => o = RNum (value_of m)
  | OAll => o = RBool (forallb (fun b => b) m)
  | OAny => o = RBool (existsb (fun b => b) m)
  | ONone => o = RBool (forallb negb m)
  | OCount => o = RNum (len (indices_where n (bit m)))
  end.
Definition abspec (m : list bool) (op : abop) (o : about) (m' : list bool) : Prop :=
  m' = tab n (fun j => becomes op j (bit m j)) /\ returns m op o.

(** The word [mem] stores the booleans [m] (and nothing above them). *)
Definition stores (mem : N) (m : list bool) : Prop := mem < 2 ^ n /\ m = tab n (N.testbit mem).

(** The calls that set index [i] and return the previous bits; the calls that leave it alone. *)
Definition sets (i : N) (op : abop) : bool :=
  match op with
  | OSet j true => j =? i
  | OSetRange l m true => (l <=? i) && (i <=? m)
  | OSetLen l k true => (l <=? i) && (i <? l + k)
  | _ => false
  end.
Definition leaves (i : N) (op : abop) : Prop := forall b, becomes op i b = b.
(** The returned bitset shows index [i] clear. *)
Definition saw_clear (i : N) (o : about) : bool :=
  match o with RBits s => match get w s i with Some b => negb b | None => false end | _ => false end.
(** Of these completed calls, those that set [i] and saw it clear. *)
Definition winners (i : N) (l : list (abop * about)) : list (abop * about) := filter (fun x => sets i (fst x) && saw_clear i (snd x)) l.
End Spec.

(** The booleans each constructor asks for. *)
Definition ab_initial (n : N) (c : abctor) : list bool :=
  match c with
  | CDefault => tab n (fun _ => false)
  | CU64 v => tab n (N.testbit v)
  | CPlace ps => tab n (fun i => existsb (N.eqb i) ps)
  | CAllBits => tab n (fun _ => true)
  | CString str pos cnt one =>
      let used := N.min (N.min cnt (len str - pos)) n in
      tab n (fun i => (i <? used) && match rd str (pos + (used - 1 - i)) with Some c => c =? one | None => false end)
  end.
Definition ab_ctor_pre (n : N) (c : abctor) : Prop :=
  match c with CPlace ps => Forall (fun p => p < n) ps | CString str pos _ _ => pos <= len str | _ => True end.
