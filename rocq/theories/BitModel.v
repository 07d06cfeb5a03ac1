(** Model of include/stdx/bit.hpp.  A value of an unsigned type of width w is a number
    below 2^w.  The model is of the library's own definitions; where the standard library
    provides <bit> the library re-exports std:: functions instead (bit.hpp:31-44, :62-64,
    :193-201, :235-240).  Compiler builtins are given their documented meaning, undefined
    where the documentation says so.  [None] is undefined behaviour (or, for bit_unpack
    and bit_destructure, a call the static_asserts reject). *)
From Verif Require Import Base.
Open Scope ub_scope.
Open Scope N_scope.

(** Widths of unsigned int, unsigned long and unsigned long long. *)
Record platform := { int_w : N; long_w : N; llong_w : N }.

Definition wrap (w x : N) : N := x mod 2 ^ w.

(** Builtins: operands are converted to the builtin's parameter type of width [d]. *)
Fixpoint ctz_pos (p : positive) : N :=
  match p with xO q => N.succ (ctz_pos q) | _ => 0 end.
Fixpoint pop_pos (p : positive) : N :=
  match p with xO q => pop_pos q | xI q => N.succ (pop_pos q) | xH => 1 end.
Definition builtin_clz (d x : N) : option N :=
  match wrap d x with 0 => None | y => Some (d - 1 - N.log2 y) end.
Definition builtin_ctz (d x : N) : option N :=
  match wrap d x with 0 => None | Npos p => Some (ctz_pos p) end.
Definition builtin_popcount (d x : N) : N :=
  match wrap d x with 0 => 0 | Npos p => pop_pos p end.

(** bit.hpp:69-88. *)
Definition countl_zero (pl : platform) (w x : N) : option N :=
  if x =? 0 then Some w
  else if w =? int_w pl then builtin_clz (int_w pl) x
  else if w =? long_w pl then builtin_clz (long_w pl) x
  else if w =? llong_w pl then builtin_clz (llong_w pl) x
  else n <- builtin_clz (llong_w pl) x;; Some (n + w - llong_w pl).

(** bit.hpp:90-104. *)
Definition countr_zero (pl : platform) (w x : N) : option N :=
  if x =? 0 then Some w
  else if w =? int_w pl then builtin_ctz (int_w pl) x
  else if w =? long_w pl then builtin_ctz (long_w pl) x
  else builtin_ctz (llong_w pl) x.

(** T(~x). *)
Definition tnot (w x : N) : N := N.lnot x w.
(** bit.hpp:106-110, :112-116. *)
Definition countl_one (pl : platform) (w x : N) : option N := countl_zero pl w (tnot w x).
Definition countr_one (pl : platform) (w x : N) : option N := countr_zero pl w (tnot w x).

(** bit.hpp:118-129. *)
Definition popcount (pl : platform) (w x : N) : N :=
  if w <=? int_w pl then builtin_popcount (int_w pl) x
  else if w <=? long_w pl then builtin_popcount (long_w pl) x
  else builtin_popcount (llong_w pl) x.

(** Shifts of an operand promoted to width [pw]: undefined unless 0 <= s < pw. *)
Definition shl (pw x s : N) : option N := if s <? pw then Some (wrap pw (N.shiftl x s)) else None.
Definition shr (pw x s : N) : option N := if s <? pw then Some (N.shiftr x s) else None.
Definition promoted_w (pl : platform) (w : N) : N := N.max w (int_w pl).
(** digits - s: negative (or wrapped to a huge value) when s > digits. *)
Definition digits_minus (w s : N) : option N := if s <=? w then Some (w - s) else None.

(** bit.hpp:131-149 and :150-167, without __clang__. *)
Definition rotl_impl (pl : platform) (w x s : N) : option N :=
  a <- shl (promoted_w pl w) x s;;
  k <- digits_minus w s;;
  b <- shr (promoted_w pl w) x k;;
  Some (wrap w (N.lor a b)).
Definition rotr_impl (pl : platform) (w x s : N) : option N :=
  a <- shr (promoted_w pl w) x s;;
  k <- digits_minus w s;;
  b <- shl (promoted_w pl w) x k;;
  Some (wrap w (N.lor a b)).

(** T(s) for an int s. *)
Definition to_unsigned (w : N) (s : Z) : N := Z.to_N (s mod 2 ^ Z.of_N w)%Z.
(** -s for an int s: overflows at INT_MIN. *)
Definition neg_int (pl : platform) (s : Z) : option Z :=
  if (s =? - 2 ^ (Z.of_N (int_w pl) - 1))%Z then None else Some (- s)%Z.

(** bit.hpp:170-180 and :182-192. *)
Definition rotl (pl : platform) (w x : N) (s : Z) : option N :=
  if (s =? 0)%Z then Some x
  else if (s <? 0)%Z then k <- neg_int pl s;; rotr_impl pl w x (to_unsigned w k)
  else rotl_impl pl w x (to_unsigned w s).
Definition rotr (pl : platform) (w x : N) (s : Z) : option N :=
  if (s =? 0)%Z then Some x
  else if (s <? 0)%Z then k <- neg_int pl s;; rotl_impl pl w x (to_unsigned w k)
  else rotr_impl pl w x (to_unsigned w s).

(** bit.hpp:206-210; x - 1 is only evaluated when x is not 0. *)
Definition has_single_bit (x : N) : bool := negb (x =? 0) && (N.land x (x - 1) =? 0).
(** bit.hpp:212-216. *)
Definition bit_width (pl : platform) (w x : N) : option N :=
  n <- countl_zero pl w x;; Some (w - n).
(** bit.hpp:218-225: x - 1U has the wider of T and unsigned int; 1U is an unsigned int. *)
Definition bit_ceil (pl : platform) (w x : N) : option N :=
  if x <=? 1 then Some 1
  else k <- bit_width pl (promoted_w pl w) (x - 1);;
       v <- shl (int_w pl) 1 k;; Some (wrap w v).
(** bit.hpp:227-234. *)
Definition bit_floor (pl : platform) (w x : N) : option N :=
  if x =? 0 then Some x
  else k <- bit_width pl w x;;
       v <- shl (int_w pl) 1 (k - 1);; Some (wrap w v).

(** Bytes of a value, least significant first, and back. *)
Fixpoint to_bytes (k : nat) (x : N) : list N :=
  match k with O => [] | S k' => x mod 256 :: to_bytes k' (x / 256) end.
Fixpoint of_bytes (l : list N) : N :=
  match l with [] => 0 | b :: r => b + 256 * of_bytes r end.
(** __builtin_bswap16/32/64. *)
Definition builtin_bswap (w x : N) : N := of_bytes (rev (to_bytes (N.to_nat (w / 8)) (wrap w x))).
(** bit.hpp:48-61. *)
Definition byteswap (w x : N) : N :=
  if w =? 16 then builtin_bswap 16 x
  else if w =? 32 then builtin_bswap 32 x
  else if w =? 64 then builtin_bswap 64 x
  else x.

Inductive endian := Little | Big.
(** bit.hpp:242-276, by native endianness. *)
Definition to_le (e : endian) (w x : N) : N := match e with Big => byteswap w x | Little => x end.
Definition to_be (e : endian) (w x : N) : N := match e with Little => byteswap w x | Big => x end.
Definition from_le (e : endian) (w x : N) : N := match e with Big => byteswap w x | Little => x end.
Definition from_be (e : endian) (w x : N) : N := match e with Little => byteswap w x | Big => x end.

(** Object representation on a machine of endianness [e]. *)
Definition mem_of (e : endian) (w x : N) : list N :=
  match e with Little => to_bytes (N.to_nat (w / 8)) x
             | Big => rev (to_bytes (N.to_nat (w / 8)) x) end.
Definition of_mem (e : endian) (l : list N) : N :=
  match e with Little => of_bytes l | Big => of_bytes (rev l) end.

(** bit.hpp:278-324: the bodies of the overloads of bit_pack<To>, with parameters of width [w_arg]; [None]: no
    such overload. *)
Definition pack_body (w_to w_arg : N) (args : list N) : option N :=
  let sh x k := N.shiftl x k in
  match args with
  | [hi; lo] =>
      if (w_to =? 16) && (w_arg =? 8) then Some (wrap 16 (N.lor (sh hi 8) lo))
      else if (w_to =? 32) && (w_arg =? 16) then Some (N.lor (wrap 32 (sh hi 16)) lo)
      else if (w_to =? 64) && (w_arg =? 32) then Some (N.lor (wrap 64 (sh hi 32)) lo)
      else None
  | [b0; b1; b2; b3] =>
      if (w_to =? 32) && (w_arg =? 8)
      then Some (N.lor (N.lor (N.lor (wrap 32 (sh b0 24)) (wrap 32 (sh b1 16))) (wrap 32 (sh b2 8))) b3)
      else if (w_to =? 64) && (w_arg =? 16)
      then Some (N.lor (N.lor (N.lor (wrap 64 (sh b0 48)) (wrap 64 (sh b1 32))) (wrap 64 (sh b2 16))) b3)
      else None
  | [b0; b1; b2; b3; b4; b5; b6; b7] =>
      if (w_to =? 64) && (w_arg =? 8)
      then Some (N.lor (N.lor (N.lor (N.lor (N.lor (N.lor (N.lor (wrap 64 (sh b0 56)) (wrap 64 (sh b1 48)))
             (wrap 64 (sh b2 40))) (wrap 64 (sh b3 32))) (wrap 64 (sh b4 24))) (wrap 64 (sh b5 16)))
             (wrap 64 (sh b6 8))) b7)
      else None
  | _ => None
  end.

(** bit_pack<To>(args...): the overload is found by the number of arguments, each of which is converted to the
    type of its parameter. Simplification: arguments of integer types only. *)
Definition bit_pack (w_to : N) (args : list Z) : option N :=
  pack_body w_to (w_to / len args) (map (to_unsigned (w_to / len args)) args).

(** utility.hpp:139-149: number of objects of [su] bytes for [sz] objects of [st] bytes. *)
Definition size_conversion (st su sz : N) : N :=
  if st =? su then sz
  else if su <? st then sz * st / su + (if 0 <? st mod su then 1 else 0)
  else (sz * st + su - 1) / su.

Fixpoint chunks {A} (count size : nat) (l : list A) : list (list A) :=
  match count with O => [] | S c => firstn size l :: chunks c size (skipn size l) end.

(** bit.hpp:326-338; bit_cast requires the sizes to be equal. *)
Definition bit_unpack (e : endian) (w_from w_to x : N) : option (list N) :=
  let sz := size_conversion (w_from / 8) (w_to / 8) 1 in
  if sz * (w_to / 8) =? w_from / 8 then
    let bytes := mem_of e w_from (to_be e w_from x) in
    Some (map (fun c => from_be e w_to (of_mem e c))
              (chunks (N.to_nat sz) (N.to_nat (w_to / 8)) bytes))
  else None.

(** bit.hpp:340-347: an element type, or an array of [n] of something; bits in total. *)
Inductive shape := Word (w : N) | Arr (n : nat) (s : shape).
Fixpoint num_digits (s : shape) : N :=
  match s with Word w => w | Arr n t => N.of_nat n * num_digits t end.
Fixpoint num_words (s : shape) : nat :=
  match s with Word _ => 1%nat | Arr n t => (n * num_words t)%nat end.

(** bit.hpp:349-377; a (nested) array is the list of its words, lowest first.  [T{1} << bit]
    is evaluated at the promoted width. *)
Fixpoint mask_bits (pl : platform) (s : shape) (bit : N) : option (list N) :=
  match s with
  | Word w =>
      if bit =? w then Some [N.ones w]
      else v <- shl (promoted_w pl w) 1 bit;;
           Some [wrap w (wrap w v + (2 ^ w - 1))]
  | Arr n t =>
      let t_bits := num_digits t in
      let quot := bit / t_bits in
      let rem := bit mod t_bits in
      full <- mask_bits pl t t_bits;;
      last <- (if rem =? 0 then Some [] else mask_bits pl t rem);;
      (* writes through p: at most n elements *)
      let used := (N.to_nat quot + (if (rem =? 0)%N then 0%nat else 1%nat))%nat in
      if (used <=? n)%nat
      then Some (concat (repeat full (N.to_nat quot)) ++ last
                 ++ repeat 0 ((n - used) * num_words t)%nat)
      else None
  end.

Fixpoint map2 {A B C} (f : A -> B -> C) (l1 : list A) (l2 : list B) : list C :=
  match l1, l2 with x :: r1, y :: r2 => f x y :: map2 f r1 r2 | _, _ => [] end.

(** bit.hpp:379-395 and :398-413. *)
Definition bit_mask (pl : platform) (s : shape) (msb lsb : N) : option (list N) :=
  x <- mask_bits pl s (msb + 1);;
  y <- mask_bits pl s lsb;;
  Some (map2 N.lxor x y).

(** bit.hpp:433-443; subtraction on std::size_t wraps. *)
Fixpoint diffs (prev : N) (offsets : list N) : list N :=
  match offsets with
  | [] => []
  | o :: r => (o + size_mod - prev) mod size_mod :: diffs o r
  end.

(** bit.hpp:445-450: [None] when bit_mask<T, Msb> fails its static_assert (Msb = width - 1
    as std::size_t). *)
Definition shift_extract (pl : platform) (w shift field : N) (t : N) : option (N * N) :=
  t' <- shr (promoted_w pl w) t shift;;
  let msb := (field + size_mod - 1) mod size_mod in
  if msb <? w then
    m <- bit_mask pl (Word w) msb 0;;
    match m with [mask] => Some (t', N.land t' mask) | _ => None end
  else None.

Fixpoint extract_all (pl : platform) (w shift : N) (fields : list N) (t : N) : option (list N) :=
  match fields with
  | [] => Some []
  | f :: r =>
      p <- shift_extract pl w shift f t;;
      let '(t', x) := p in
      l <- extract_all pl w f r t';;
      Some (x :: l)
  end.

(** bit.hpp:452-464. *)
Definition bit_destructure (pl : platform) (w : N) (offsets : list N) (t : N) : option (list N) :=
  extract_all pl w 0 (diffs 0 (offsets ++ [w])) t.
