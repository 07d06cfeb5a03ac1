(** Model of include/stdx/bitset.hpp (class bitset, free for_each and transform_reduce,
    class type_bitset).  A bitset<N, elem_t> is the list of its storage words; [n] is N and
    [w] the number of digits of elem_t.  [None]: undefined behaviour (out-of-range
    std::array access, bad shift) or, for the string constructor, the exception thrown by
    substr.  Enumeration-typed sizes and indices are modelled by their underlying values. *)
From Verif Require Import Base BitModel.
Open Scope ub_scope.
Open Scope N_scope.

Definition storage := list N.

Section Bitset.
Variable pl : platform.
Variables n w : N.

(** bitset.hpp:73-74. *)
Definition storage_size : N := (n + w - 1) / w.
(** bitset.hpp:76. *)
Definition allbits : N := N.ones w.
(** bitset.hpp:80-86. *)
Definition lastmask : N :=
  if n mod w =? 0 then allbits else N.shiftr allbits (w - n mod w).
(** bitset.hpp:87-89; back() of an empty array is undefined. *)
Definition back (s : storage) : option N := if storage_size =? 0 then None else rd s (storage_size - 1).
Definition highbits (s : storage) : option N := e <- back s;; Some (N.land e lastmask).

(** elem_t(bit << offset); the offset is always below w. *)
Definition bit_at (offset : N) : N := wrap w (N.shiftl 1 offset).

(** bitset.hpp:99-110. *)
Fixpoint eq_words (k : nat) (i : N) (a b : storage) : option bool :=
  match k with
  | O => Some true
  | S k' => x <- rd a i;; y <- rd b i;;
            if x =? y then eq_words k' (i + 1) a b else Some false
  end.
Definition eq (a b : storage) : option bool :=
  if n =? 0 then Some true
  else r <- eq_words (N.to_nat (storage_size - 1)) 0 a b;;
       if (r : bool) then x <- highbits a;; y <- highbits b;; Some (x =? y) else Some false.

(** ** Constructors *)
(** bitset.hpp:184 and the member initialiser :78. *)
Definition make : storage := repeat 0 (N.to_nat storage_size).

(** bitset.hpp:185-197.  [same]: elem_t is the type std::uint64_t itself. *)
Fixpoint u64_words (value : N) (s : storage) : option storage :=
  match s with
  | [] => Some []
  | e :: r =>
      if value =? 0 then Some s
      else if w <? 64 then r' <- u64_words (N.shiftr value w) r;; Some (N.land value allbits :: r')
           else (* value >>= 64 *) None
  end.
Definition of_u64 (same : bool) (value : N) : option storage :=
  if same then wr make 0 value else u64_words value make.

(** bitset.hpp:272-284 (set one), :330-338 (reset one), :360-368 (flip one). *)
Definition set_one (s : storage) (pos : N) (value : bool) : option storage :=
  e <- rd s (pos / w);;
  wr s (pos / w) (if value then N.lor e (bit_at (pos mod w)) else N.land e (tnot w (bit_at (pos mod w)))).
Definition reset_one (s : storage) (pos : N) : option storage :=
  e <- rd s (pos / w);; wr s (pos / w) (N.land e (tnot w (bit_at (pos mod w)))).
Definition flip_one (s : storage) (pos : N) : option storage :=
  e <- rd s (pos / w);; wr s (pos / w) (N.lxor e (bit_at (pos mod w))).

(** bitset.hpp:199-204. *)
Fixpoint set_each (s : storage) (ps : list N) : option storage :=
  match ps with [] => Some s | p :: r => s' <- set_one s p true;; set_each s' r end.
Definition place (ps : list N) : option storage := set_each make ps.

(** bitset.hpp:206-213. *)
Definition all_ones : option storage :=
  let s := repeat allbits (N.to_nat storage_size) in
  if 0 <? n then e <- back s;; wr s (storage_size - 1) (N.land e lastmask) else Some s.

(** bitset.hpp:215-225 (and :227-228): [str] is the string, [one] the character for 1. *)
Fixpoint set_seq (s : storage) (i : N) (vs : list bool) : option storage :=
  match vs with [] => Some s | v :: r => s' <- set_one s i v;; set_seq s' (i + 1) r end.
Definition of_string (str : list N) (pos cnt one : N) : option storage :=
  if len str <? pos then None (* substr throws *)
  else
    let l := N.min cnt (len str - pos) in
    let sub := firstn (N.to_nat (N.min l n)) (skipn (N.to_nat pos) str) in
    set_seq make 0 (map (fun c => c =? one) (rev sub)).

(** ** Conversions *)
(** bitset.hpp:230-250.  [uw]: digits of the target; [same]: the target is elem_t.  A target
    narrower than elem_t is rejected (narrowing in braces), as is one below N digits. *)
Fixpoint to_words (uw : N) (result : N) (words : list N) : N :=
  match words with [] => result | e :: r => to_words uw (N.lor (wrap uw (N.shiftl result w)) e) r end.
Definition to_uint (same : bool) (uw : N) (s : storage) : option N :=
  if uw <? n then None
  else if negb same && (uw <? w) then None
  else if n =? 0 then Some 0
  else if same then e <- rd s 0;; Some (N.land e lastmask)
  else h <- highbits s;; Some (to_words uw h (rev (firstn (N.to_nat (storage_size - 1)) s))).
(** bitset.hpp:230-250 for an enumeration T with underlying type U: [result] has type U, and line 245 assigns a T to
    it in the branch for U other than elem_t, which a scoped enumeration does not allow. *)
Definition to_enum (scoped same : bool) (uw : N) (s : storage) : option N :=
  if scoped && negb same then None else to_uint same uw s.
(** bitset.hpp:252-257; bit.hpp:419-431, smallest_uint_t: digits of the narrowest type with N digits, or
    64; [same]: it is elem_t. *)
Definition natural_width : N := if n <=? 8 then 8 else if n <=? 16 then 16 else if n <=? 32 then 32 else 64.
Definition to_natural (same : bool) (s : storage) : option N :=
  if natural_width <? n then None else to_uint same natural_width s.

(** bitset.hpp:261-269. *)
Definition get (s : storage) (pos : N) : option bool :=
  e <- rd s (pos / w);; Some (negb (N.land e (bit_at (pos mod w)) =? 0)).

(** ** Modifiers *)
(** bitset.hpp:286-313.  The masks are computed at the promoted type and cast. *)
Definition range_fn (value : bool) (e val : N) : N :=
  if value then N.lor e val else N.land e (tnot w val).
Fixpoint fill (k : nat) (s : storage) (i mask : N) (value : bool) : option storage :=
  match k with
  | O => Some s
  | S k' => e <- rd s i;; s' <- wr s i (range_fn value e mask);; fill k' s' (i + 1) mask value
  end.
Definition set_range (s : storage) (l m : N) (value : bool) : option storage :=
  let l_mask := wrap w (N.shiftl allbits (l mod w)) in
  let m_mask := N.shiftr allbits (w - m mod w - 1) in
  if l / w =? m / w then
    e <- rd s (l / w);; wr s (l / w) (range_fn value e (N.land l_mask m_mask))
  else if m / w <? l / w then None (* the while loop runs past the end of storage *)
  else
    e <- rd s (l / w);;
    s1 <- wr s (l / w) (range_fn value e l_mask);;
    s2 <- fill (N.to_nat (m / w - (l / w + 1))) s1 (l / w + 1) allbits value;;
    e' <- rd s2 (m / w);;
    wr s2 (m / w) (range_fn value e' (N.land allbits m_mask)).
(** bitset.hpp:315-320; lsb_t, msb_t and length_t are 32 bits wide. *)
Definition set_len (s : storage) (l length : N) (value : bool) : option storage :=
  set_range s l ((l + length + 2 ^ 32 - 1) mod 2 ^ 32) value.
(** bitset.hpp:322-327, :340-345, :370-375. *)
Definition set_all (s : storage) : storage := map (fun _ => allbits) s.
Definition reset_all (s : storage) : storage := map (fun _ => 0) s.
Definition flip_all (s : storage) : storage := map (fun e => N.lxor e allbits) s.

(** ** Observers *)
(** bitset.hpp:377-386. *)
Definition count (s : storage) : option N :=
  if n =? 0 then Some 0
  else h <- highbits s;;
       Some (fold_left (fun a e => a + popcount pl w e) (firstn (N.to_nat (storage_size - 1)) s) (popcount pl w h)).
(** bitset.hpp:389-401. *)
Definition empty (s : storage) : option bool := c <- count s;; Some (c =? 0).
Definition all (s : storage) : option bool := c <- count s;; Some (c =? n).
Definition any (s : storage) : option bool := c <- count s;; Some (negb (c =? 0)).
Definition none (s : storage) : option bool := empty s.

(** bitset.hpp:403-413. *)
Fixpoint lowest_unset_from (i : N) (s : storage) : option N :=
  match s with
  | [] => Some i
  | e :: r => offset <- countr_one pl w e;;
              if offset =? w then lowest_unset_from (i + w) r else Some (i + offset)
  end.
Definition lowest_unset (s : storage) : option N := lowest_unset_from 0 s.

(** bitset.hpp:415-421. *)
Definition complement (s : storage) : storage := map (tnot w) s.
(** bitset.hpp:423-440 (and the friends :112-125): word by word, each word of the result
    depending only on the words at the same index, so aliasing is harmless. *)
Definition or_assign (a b : storage) : storage := map2 N.lor a b.
Definition and_assign (a b : storage) : storage := map2 N.land a b.
Definition xor_assign (a b : storage) : storage := map2 N.lxor a b.
(** bitset.hpp:127-130. *)
Definition minus (a b : storage) : storage := and_assign a (flip_all b).

(** bitset.hpp:442-468, updating in place.  [pos / w > storage_size - 1] makes [start] wrap
    to a huge index: out of range. *)
Fixpoint shl_loop (i : nat) (s : storage) (dst pos : N) : option (storage * N) :=
  match i with
  | O => Some (s, dst)
  | S i' =>
      a <- rd s (N.of_nat i);;
      v <- (if pos =? 0 then Some a
            else b <- rd s (N.of_nat i - 1);;
                 Some (N.lor (wrap w (N.shiftl a pos)) (wrap w (N.shiftr b (w - pos)))));;
      s' <- wr s dst v;;
      shl_loop i' s' (sz_dec dst) pos
  end.
Fixpoint zero_below (d : nat) (s : storage) : option storage :=
  match d with O => Some s | S d' => s' <- wr s (N.of_nat d') 0;; zero_below d' s' end.
Definition shl_assign (s : storage) (pos : N) : option storage :=
  if n =? 0 then Some s
  else
    let dst := storage_size - 1 in
    if dst <? pos / w then None
    else
      r <- shl_loop (N.to_nat (dst - pos / w)) s dst (pos mod w);;
      let '(s1, dst1) := r in
      f <- rd s1 0;;
      s2 <- wr s1 dst1 (wrap w (N.shiftl f (pos mod w)));;
      zero_below (N.to_nat dst1) s2.

(** bitset.hpp:470-496, updating in place. *)
Fixpoint shr_loop (k : nat) (i : N) (s : storage) (dst pos : N) : option (storage * N) :=
  match k with
  | O => Some (s, dst)
  | S k' =>
      a <- rd s i;;
      v <- (if pos =? 0 then Some a
            else b <- rd s (i + 1);;
                 Some (N.lor (wrap w (N.shiftr a pos)) (wrap w (N.shiftl b (w - pos)))));;
      s' <- wr s dst v;;
      shr_loop k' (i + 1) s' (sz_inc dst) pos
  end.
Fixpoint zero_from (k : nat) (s : storage) (dst : N) : option storage :=
  match k with O => Some s | S k' => s' <- wr s dst 0;; zero_from k' s' (dst + 1) end.
Definition shr_assign (s : storage) (pos : N) : option storage :=
  if n =? 0 then Some s
  else
    r <- shr_loop (N.to_nat (storage_size - 1 - pos / w)) (pos / w) s 0 (pos mod w);;
    let '(s1, dst) := r in
    b <- back s1;;
    s2 <- wr s1 dst (wrap w (N.shiftr b (pos mod w)));;
    zero_from (N.to_nat (storage_size - (dst + 1))) s2 (dst + 1).

(** ** Iteration.  A callback is recorded as the list of its arguments, in call order. *)
(** bitset.hpp:24-34.  Each round clears a bit, so [w] rounds always suffice (running out of
    fuel is reported as [None]). *)
Fixpoint set_bit_fn (fuel : nat) (e idx : N) : option (list N) :=
  if e =? 0 then Some []
  else match fuel with
       | O => None
       | S f => offset <- countr_zero pl w e;;
                l <- set_bit_fn f (N.land e (tnot w (bit_at offset))) idx;;
                Some (idx + offset :: l)
       end.
(** bitset.hpp:35-45. *)
Fixpoint unset_bit_fn (mask : N) (fuel : nat) (e idx : N) : option (list N) :=
  if e =? mask then Some []
  else match fuel with
       | O => None
       | S f => offset <- countr_one pl w e;;
                (if offset <? w then
                   l <- unset_bit_fn mask f (N.lor e (bit_at offset)) idx;;
                   Some (idx + offset :: l)
                 else None)
       end.
(** bitset.hpp:46-55. *)
Definition bit_fn (mask e idx : N) : list (N * bool) :=
  map (fun i => (idx + N.of_nat i, negb (N.land e (bit_at (N.of_nat i)) =? 0)))
      (seq 0 (N.to_nat (popcount pl w mask))).

(** bitset.hpp:148-159, for each of the three specs. *)
Fixpoint each_word {A} (f : N -> N -> option (list A)) (idx : N) (words : list N) : option (N * list A) :=
  match words with
  | [] => Some (idx, [])
  | e :: r => l <- f e idx;; p <- each_word f (idx + w) r;; let '(idx', l') := p in Some (idx', l ++ l')
  end.
Definition for_each_with {A} (f : N -> N -> N -> option (list A)) (s : storage) : option (list A) :=
  if storage_size =? 0 then None (* storage_size - 1 wraps *)
  else p <- each_word (f allbits) 0 (firstn (N.to_nat (storage_size - 1)) s);;
       let '(idx, l) := p in
       h <- highbits s;;
       l' <- f lastmask h idx;;
       Some (l ++ l').
Definition for_each_set (s : storage) : option (list N) :=
  for_each_with (fun _ e idx => set_bit_fn (N.to_nat w) e idx) s.
Definition for_each_unset (s : storage) : option (list N) :=
  for_each_with (fun mask e idx => unset_bit_fn mask (N.to_nat w) e idx) s.
Definition for_each_bit (s : storage) : option (list (N * bool)) :=
  for_each_with (fun mask e idx => Some (bit_fn mask e idx)) s.

(** bitset.hpp:165-177. *)
Fixpoint reduce_word {T U} (f : N -> U) (r : T -> U -> T) (fuel : nat) (e i : N) (init : T) : option T :=
  if e =? 0 then Some init
  else match fuel with
       | O => None
       | S k => offset <- countr_zero pl w e;;
                reduce_word f r k (N.land e (tnot w (bit_at offset))) i (r init (f (i + offset)))
       end.
Fixpoint reduce_from {T U} (f : N -> U) (r : T -> U -> T) (i : N) (s : storage) (init : T) : option T :=
  match s with
  | [] => Some init
  | e :: rest => init' <- reduce_word f r (N.to_nat w) e i init;; reduce_from f r (i + w) rest init'
  end.
Definition transform_reduce {T U} (f : N -> U) (r : T -> U -> T) (init : T) (s : storage) : option T :=
  reduce_from f r 0 s init.
End Bitset.

(** ** Programs over several bitset<N, elem_t> variables. *)
Inductive bop :=
| BDefault (r : N)
| BFromU64 (r v : N)
| BPlace (r : N) (ps : list N)
| BAllBits (r : N)
| BString (r : N) (str : list N) (pos cnt one : N)
| BCopy (d a : N)
| BSet (r i : N) (v : bool)
| BSetRange (r l m : N) (v : bool)
| BSetLen (r l length : N) (v : bool)
| BSetAll (r : N)
| BReset (r i : N)
| BResetAll (r : N)
| BFlip (r i : N)
| BFlipAll (r : N)
| BNot (d a : N)
| BOr (d a : N) | BAnd (d a : N) | BXor (d a : N)
| BMinus (d a b : N)
| BShl (r k : N) | BShr (r k : N)
| BGet (r i : N) | BCount (r : N) | BEmpty (r : N) | BAll (r : N) | BAny (r : N) | BNone (r : N)
| BEq (a b : N)
| BTo (r : N) (same : bool) (uw : N)
| BEachSet (r : N) | BEachUnset (r : N) | BEachBit (r : N)
| BLowestUnset (r : N)
| BReduce (r : N).

Inductive bout :=
| BUnit | BBool (b : bool) | BNum (v : N) | BList (l : list N) | BPairs (l : list (N * bool)).

Section Programs.
Variable pl : platform.
Variables n w : N.
(** elem_t is std::uint64_t itself. *)
Variable same64 : bool.

Definition done {A} (o : option A) (k : A -> list storage * bout) : outcome Empty_set (list storage) bout :=
  match o with Some a => let '(st, out) := k a in Done st out [] | None => Undef end.

Definition upd (st : list storage) (r : N) (f : storage -> option storage) : outcome Empty_set (list storage) bout :=
  done (s <- rd st r;; s' <- f s;; wr st r s') (fun st' => (st', BUnit)).
Definition put (st : list storage) (r : N) (v : option storage) : outcome Empty_set (list storage) bout :=
  done (s <- v;; wr st r s) (fun st' => (st', BUnit)).
Definition ask {A} (st : list storage) (r : N) (f : storage -> option A) (k : A -> bout)
  : outcome Empty_set (list storage) bout :=
  done (s <- rd st r;; f s) (fun a => (st, k a)).

Definition bstep (st : list storage) (op : bop) : outcome Empty_set (list storage) bout :=
  match op with
  | BDefault r => put st r (Some (make n w))
  | BFromU64 r v => put st r (of_u64 n w same64 v)
  | BPlace r ps => put st r (place n w ps)
  | BAllBits r => put st r (all_ones n w)
  | BString r str pos cnt one => put st r (of_string n w str pos cnt one)
  | BCopy d a => put st d (rd st a)
  | BSet r i v => upd st r (fun s => set_one w s i v)
  | BSetRange r l m v => upd st r (fun s => set_range w s l m v)
  | BSetLen r l length v => upd st r (fun s => set_len w s l length v)
  | BSetAll r => upd st r (fun s => Some (set_all w s))
  | BReset r i => upd st r (fun s => reset_one w s i)
  | BResetAll r => upd st r (fun s => Some (reset_all s))
  | BFlip r i => upd st r (fun s => flip_one w s i)
  | BFlipAll r => upd st r (fun s => Some (flip_all w s))
  | BNot d a => put st d (s <- rd st a;; Some (complement w s))
  | BOr d a => upd st d (fun s => t <- rd st a;; Some (or_assign s t))
  | BAnd d a => upd st d (fun s => t <- rd st a;; Some (and_assign s t))
  | BXor d a => upd st d (fun s => t <- rd st a;; Some (xor_assign s t))
  | BMinus d a b => put st d (s <- rd st a;; t <- rd st b;; Some (minus w s t))
  | BShl r k => upd st r (fun s => shl_assign n w s k)
  | BShr r k => upd st r (fun s => shr_assign n w s k)
  | BGet r i => ask st r (fun s => get w s i) BBool
  | BCount r => ask st r (count pl n w) BNum
  | BEmpty r => ask st r (empty pl n w) BBool
  | BAll r => ask st r (all pl n w) BBool
  | BAny r => ask st r (any pl n w) BBool
  | BNone r => ask st r (none pl n w) BBool
  | BEq a b => ask st a (fun s => t <- rd st b;; eq n w s t) BBool
  | BTo r same uw => ask st r (to_uint n w same uw) BNum
  | BEachSet r => ask st r (for_each_set pl n w) BList
  | BEachUnset r => ask st r (for_each_unset pl n w) BList
  | BEachBit r => ask st r (for_each_bit pl n w) BPairs
  | BLowestUnset r => ask st r (lowest_unset pl w) BNum
  | BReduce r => ask st r (transform_reduce pl w (fun i => i) (fun l i => l ++ [i]) []) BList
  end.
End Programs.
