(** Model of include/stdx/byterator.hpp.  The memory is one array object of bytes starting
    at address [base]; a byterator is the address it points to.  Reading, writing or moving
    outside the object (one past the end allowed for moving) is undefined ([None]).
    Addresses have [aw] bits (std::uintptr_t, as wide as std::size_t).  A value of a type of
    [k] bytes is its object representation; unsigned integers are encoded and decoded in the
    byte order of the machine.  Comparison with other iterators and the const variants are
    the same functions on addresses and are not duplicated. *)
From Verif Require Import Base BitModel.
Open Scope ub_scope.
Open Scope N_scope.

Record region := Region { base : N; bytes : list N }.
Definition inside (r : region) (p k : N) : bool := (base r <=? p) && (p + k <=? base r + len (bytes r)).

(** std::memcpy from and to [p]. *)
Definition load_bytes (r : region) (p k : N) : option (list N) :=
  if inside r p k then Some (firstn (N.to_nat k) (skipn (N.to_nat (p - base r)) (bytes r))) else None.
Definition store_bytes (r : region) (p : N) (l : list N) : option region :=
  if inside r p (len l) then
    let o := N.to_nat (p - base r) in
    Some (Region (base r) (firstn o (bytes r) ++ l ++ skipn (o + length l) (bytes r)))
  else None.

(** ptr += d, byterator.hpp:93-104. *)
Definition advance_by (r : region) (p : N) (d : Z) : option N :=
  let q := (Z.of_N p + d)%Z in
  if ((Z.of_N (base r) <=? q) && (q <=? Z.of_N (base r + len (bytes r))))%Z then Some (Z.to_N q) else None.

(** byterator.hpp:136-142. *)
Definition peek (r : region) (p k : N) : option (list N) := load_bytes r p k.
(** byterator.hpp:144-146. *)
Definition advance (r : region) (p k : N) : option N := advance_by r p (Z.of_N k).
(** byterator.hpp:157-163. *)
Definition read (r : region) (p k : N) : option (list N * N) :=
  v <- peek r p k;; q <- advance r p k;; Some (v, q).
(** byterator.hpp:165-171. *)
Definition write (r : region) (p : N) (v : list N) : option (region * N) :=
  r' <- store_bytes r p v;; q <- advance r' p (len v);; Some (r', q).
(** byterator.hpp:150-153: (p + offset) & mask at std::uintptr_t. *)
Definition align_up (aw sz p : N) : N :=
  let offset := sz - 1 in N.land (wrap aw (p + offset)) (N.lnot offset aw).
(** byterator.hpp:148-155. *)
Definition advance_to_alignment (aw : N) (r : region) (p sz : N) (n : Z) : option N :=
  advance_by r (align_up aw sz p) (n * Z.of_N sz).

(** Several byterators over the same memory. *)
Inductive yop :=
| YCopy (d a : N)
| YAdvanceBy (i : N) (d : Z)            (* ++ -- += -= + - advance(d), :74-122 *)
| YDeref (i : N) (n : Z) | YAssign (i : N) (n : Z) (b : N)   (* *it, it[n], :71-72, :128-134 *)
| YDistance (a b : N) | YEqual (a b : N) | YLess (a b : N)   (* :38-59, :123-126 *)
| YPeek (i k : N) | YRead (i k : N) | YWrite (i : N) (v : list N)
| YPeekU (i w rw : N) | YReadU (i w rw : N) | YWriteU (i w v : N)   (* :173-223: peeku8 ... writeu64 *)
| YAdvanceTo (i sz : N) (n : Z).
Inductive yout := YUnit | YNum (v : N) | YInt (z : Z) | YBool (b : bool) | YBytes (l : list N).
Record ystate := YState { mem : region; its : list N }.

Section Step.
Variable e : endian.
Variable aw : N.

Definition ystep (s : ystate) (op : yop) : outcome unit ystate yout :=
  let ok (x : option (ystate * yout)) := match x with Some (s', o) => Done s' o [] | None => Undef end in
  let r := mem s in
  let moved i q := i' <- wr (its s) i q;; Some (YState r i') in
  ok match op with
  | YCopy d a => p <- rd (its s) a;; s' <- moved d p;; Some (s', YUnit)
  | YAdvanceBy i d => p <- rd (its s) i;; q <- advance_by r p d;; s' <- moved i q;; Some (s', YUnit)
  | YDeref i n =>
      p <- rd (its s) i;; q <- advance_by r p n;; l <- load_bytes r q 1;;
      match l with [b] => Some (s, YNum b) | _ => None end
  | YAssign i n b =>
      p <- rd (its s) i;; q <- advance_by r p n;; r' <- store_bytes r q [wrap 8 b];; Some (YState r' (its s), YUnit)
  | YDistance a b => p <- rd (its s) a;; q <- rd (its s) b;; Some (s, YInt (Z.of_N p - Z.of_N q))
  | YEqual a b => p <- rd (its s) a;; q <- rd (its s) b;; Some (s, YBool (p =? q))
  | YLess a b => p <- rd (its s) a;; q <- rd (its s) b;; Some (s, YBool (p <? q))
  | YPeek i k => p <- rd (its s) i;; l <- peek r p k;; Some (s, YBytes l)
  | YRead i k =>
      p <- rd (its s) i;; x <- read r p k;; s' <- moved i (snd x);; Some (s', YBytes (fst x))
  | YWrite i v =>
      p <- rd (its s) i;; x <- write r p v;; i' <- wr (its s) i (snd x);; Some (YState (fst x) i', YUnit)
  | YPeekU i w rw =>
      p <- rd (its s) i;; l <- peek r p (w / 8);; Some (s, YNum (wrap rw (of_mem e l)))
  | YReadU i w rw =>
      p <- rd (its s) i;; x <- read r p (w / 8);; s' <- moved i (snd x);; Some (s', YNum (wrap rw (of_mem e (fst x))))
  | YWriteU i w v =>
      p <- rd (its s) i;; x <- write r p (mem_of e w (wrap w v));; i' <- wr (its s) i (snd x);; Some (YState (fst x) i', YUnit)
  | YAdvanceTo i sz n => p <- rd (its s) i;; q <- advance_to_alignment aw r p sz n;; s' <- moved i q;; Some (s', YUnit)
  end.
End Step.
