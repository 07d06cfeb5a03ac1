(** What a user expects of byterators: cursors over addressed bytes. *)
From Verif Require Import Base BitModel BitSpec ByteratorModel.
Open Scope N_scope.

(** The bytes of the object, by address (from [lo] up to, not including, [hi]), and the
    positions of the cursors. *)
Record ymem := YMem { lo : N; hi : N; cell : N -> N; pos : list N }.

Definition reads_at (m : ymem) (p k : N) : Prop := lo m <= p /\ p + k <= hi m.
Definition reachable (m : ymem) (z : Z) : Prop := (Z.of_N (lo m) <= z /\ z <= Z.of_N (hi m))%Z.
(** Where byte number [j] (0 the least significant) of a [k]-byte integer lies. *)
Definition place_of (e : endian) (k j : N) : N := match e with Little => j | Big => k - 1 - j end.
(** [q] is the least multiple of [sz] that is at least [p]. *)
Definition next_multiple (sz p q : N) : Prop := q mod sz = 0 /\ p <= q /\ q < p + sz.

Definition at_it (m : ymem) (i : N) (P : N -> Prop) : Prop := exists p, rd (pos m) i = Some p /\ P p.

Definition ypre (aw : N) (m : ymem) (op : yop) : Prop :=
  match op with
  | YCopy d a => d < len (pos m) /\ a < len (pos m)
  | YDistance a b | YEqual a b | YLess a b => a < len (pos m) /\ b < len (pos m)
  | YAdvanceBy i d => at_it m i (fun p => reachable m (Z.of_N p + d))
  | YDeref i n | YAssign i n _ => at_it m i (fun p => (Z.of_N (lo m) <= Z.of_N p + n /\ Z.of_N p + n < Z.of_N (hi m))%Z)
  | YPeek i k | YRead i k => at_it m i (fun p => reads_at m p k)
  | YWrite i v => at_it m i (fun p => reads_at m p (len v)) /\ Forall (fun b => b < 256) v
  | YPeekU i w _ | YReadU i w _ | YWriteU i w _ => w mod 8 = 0 /\ at_it m i (fun p => reads_at m p (w / 8))
  | YAdvanceTo i sz n => (exists k, sz = 2 ^ k) /\
      at_it m i (fun p => p + sz - 1 < 2 ^ aw /\
        forall q, next_multiple sz p q -> reachable m (Z.of_N q + n * Z.of_N sz))
  end.

(** Nothing but cursor [i] changes, which moves from [p] to [q]. *)
Definition moves (m m' : ymem) (i : N) (q : Z) : Prop :=
  lo m' = lo m /\ hi m' = hi m /\ (forall a, cell m' a = cell m a) /\
  exists q', Z.of_N q' = q /\ wr (pos m) i q' = Some (pos m').
Definition same (m m' : ymem) : Prop :=
  lo m' = lo m /\ hi m' = hi m /\ (forall a, cell m' a = cell m a) /\ pos m' = pos m.
(** Exactly the bytes [p], ..., [p+k-1] may change, to [f] of their offset. *)
Definition overwrites (m m' : ymem) (p k : N) (f : N -> N) : Prop :=
  lo m' = lo m /\ hi m' = hi m /\
  forall a, cell m' a = if (p <=? a) && (a <? p + k) then f (a - p) else cell m a.
(** [v] is the integer of [k] bytes stored at [p]. *)
Definition integer_at (e : endian) (m : ymem) (p k v : N) : Prop :=
  v < 2 ^ (8 * k) /\ forall j, j < k -> byte v j = cell m (p + place_of e k j).

Definition yspec (e : endian) (m : ymem) (op : yop) (o : yout) (m' : ymem) : Prop :=
  match op with
  | YCopy d a => o = YUnit /\ at_it m a (fun p => moves m m' d (Z.of_N p))
  | YAdvanceBy i d => o = YUnit /\ at_it m i (fun p => moves m m' i (Z.of_N p + d))
  | YDeref i n => same m m' /\ at_it m i (fun p => o = YNum (cell m (Z.to_N (Z.of_N p + n))))
  | YAssign i n b =>
      o = YUnit /\ pos m' = pos m /\
      at_it m i (fun p => overwrites m m' (Z.to_N (Z.of_N p + n)) 1 (fun _ => b mod 256))
  | YDistance a b => same m m' /\ at_it m a (fun p => at_it m b (fun q => o = YInt (Z.of_N p - Z.of_N q)))
  | YEqual a b => same m m' /\ at_it m a (fun p => at_it m b (fun q => exists x, o = YBool x /\ (x = true <-> p = q)))
  | YLess a b => same m m' /\ at_it m a (fun p => at_it m b (fun q => exists x, o = YBool x /\ (x = true <-> p < q)))
  | YPeek i k => same m m' /\ at_it m i (fun p => exists l, o = YBytes l /\ len l = k /\ forall j, j < k -> rd l j = Some (cell m (p + j)))
  | YRead i k =>
      at_it m i (fun p => moves m m' i (Z.of_N (p + k)) /\
        exists l, o = YBytes l /\ len l = k /\ forall j, j < k -> rd l j = Some (cell m (p + j)))
  | YWrite i v =>
      o = YUnit /\
      at_it m i (fun p => wr (pos m) i (p + len v) = Some (pos m') /\
        overwrites m m' p (len v) (fun j => match rd v j with Some b => b | None => 0 end))
  | YPeekU i w rw => same m m' /\ at_it m i (fun p => exists v, integer_at e m p (w / 8) v /\ o = YNum (v mod 2 ^ rw))
  | YReadU i w rw =>
      at_it m i (fun p => moves m m' i (Z.of_N (p + w / 8)) /\ exists v, integer_at e m p (w / 8) v /\ o = YNum (v mod 2 ^ rw))
  | YWriteU i w v =>
      o = YUnit /\
      at_it m i (fun p => wr (pos m) i (p + w / 8) = Some (pos m') /\
        overwrites m m' p (w / 8) (fun a => byte v (place_of e (w / 8) a)))
  | YAdvanceTo i sz n =>
      o = YUnit /\ at_it m i (fun p => exists q, next_multiple sz p q /\ moves m m' i (Z.of_N q + n * Z.of_N sz))
  end.

(** The memory and cursors of a state. *)
Definition view (s : ystate) : ymem :=
  YMem (base (mem s)) (base (mem s) + len (bytes (mem s)))
    (fun a => if base (mem s) <=? a then match rd (bytes (mem s)) (a - base (mem s)) with Some b => b | None => 0 end else 0)
    (its s).
(** Bytes are bytes; the cursors point into the object or one past it. *)
Definition good_state (s : ystate) : Prop :=
  Forall (fun b => b < 256) (bytes (mem s)) /\
  Forall (fun p => base (mem s) <= p /\ p <= base (mem s) + len (bytes (mem s))) (its s).

(** A program that writes a sequence of values through one byterator, and one that reads
    values of the given sizes. *)
Fixpoint write_all (r : region) (p : N) (vs : list (list N)) : option (region * N) :=
  match vs with
  | [] => Some (r, p)
  | v :: rest => match write r p v with Some (r', q) => write_all r' q rest | None => None end
  end.
Fixpoint read_all (r : region) (p : N) (ks : list N) : option (list (list N) * N) :=
  match ks with
  | [] => Some ([], p)
  | k :: rest => match read r p k with
                 | Some (v, q) => match read_all r q rest with Some (vs, q') => Some (v :: vs, q') | None => None end
                 | None => None
                 end
  end.
