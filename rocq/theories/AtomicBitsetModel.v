(** Model of include/stdx/atomic_bitset.hpp.  [n]: the size N; [w]: digits of the storage
    word elem_t; [sw]: digits of StorageElem; [same64]: elem_t is std::uint64_t (see
    BitsetModel.of_u64).  The bitsets that are passed and returned are bitset<N, elem_t>
    values, as in BitsetModel.  Indices of enumeration type are modelled by their values. *)
From Verif Require Import Base BitModel BitsetModel ConcModel.
Open Scope N_scope.

Section AtomicBitset.
Variable pl : platform.
Variables n w sw : N.
Variable same64 : bool.

Inductive about := RUnit | RBool (b : bool) | RNum (v : N) | RBits (s : storage).

(** A computation that may be undefined, then the rest of the call. *)
Definition need {A} (x : option A) (k : A -> prog about) : prog about :=
  match x with Some a => k a | None => Bad end.
Definition one_word (x : option (list N)) : option N := match x with Some [v] => Some v | _ => None end.
(** bit_mask<elem_t>(m, l), atomic_bitset.hpp:140, :173, :204. *)
Definition word_mask (msb lsb : N) : option N := one_word (bit_mask pl (Word w) msb lsb).
(** :40: bit_mask<elem_t, N - 1>(). *)
Definition ab_mask : option N := word_mask (n - 1) 0.
(** :41-43, applied to the loaded word. *)
Definition salient (r : N) (k : N -> prog about) : prog about := need ab_mask (fun m => k (N.land r m)).
(** bitset_t{x}. *)
Definition as_bitset (x : N) : prog about := need (of_u64 n w same64 x) (fun s => Ret (RBits s)).
(** static_cast<elem_t>(bit << pos): the shift is at the promoted type. *)
Definition bit_pos (pos : N) : option N := match shl (promoted_w pl w) 1 pos with Some v => Some (wrap w v) | None => None end.
(** l + length - 1 at the 32-bit underlying type, :151, :182, :212. *)
Definition last_of (l length : N) : N := (l + length + 2 ^ 32 - 1) mod 2 ^ 32.

Inductive abop :=
| OSet (i : N) (v : bool) | OSetRange (l m : N) (v : bool) | OSetLen (l k : N) (v : bool) | OSetAll
| OReset (i : N) | OResetRange (l m : N) | OResetLen (l k : N) | OResetAll
| OFlip (i : N) | OFlipRange (l m : N) | OFlipLen (l k : N) | OFlipAll
| OLoad | OStore (b : storage) | OGet (i : N)
| OTo (uw : N) | OToNatural | OAll | OAny | ONone | OCount.

Definition set_range_code (l m : N) (v : bool) : prog about :=
  need (word_mask m l) (fun sv =>
    if v then Do (POr sv) as_bitset else Do (PAnd (tnot w sv)) as_bitset).
Definition reset_range_code (l m : N) : prog about :=
  need (word_mask m l) (fun sv => Do (PAnd (tnot w sv)) as_bitset).
Definition flip_range_code (l m : N) : prog about :=
  need (word_mask m l) (fun sv => Do (PXor sv) as_bitset).

Definition abcode (op : abop) : prog about :=
  match op with
  | OSet i v (* :124-134 *) =>
      need (bit_pos i) (fun b => if v then Do (POr b) as_bitset else Do (PAnd (tnot w b)) as_bitset)
  | OSetRange l m v (* :136-146 *) => set_range_code l m v
  | OSetLen l k v (* :147-152 *) => set_range_code l (last_of l k) v
  | OSetAll (* :154-158 *) => need ab_mask (fun m => Do (PStore m) (fun _ => Ret RUnit))
  | OReset i (* :160-166 *) => need (bit_pos i) (fun b => Do (PAnd (tnot w b)) as_bitset)
  | OResetRange l m (* :168-175 *) => reset_range_code l m
  | OResetLen l k (* :177-183 *) => reset_range_code l (last_of l k)
  | OResetAll (* :185-190 *) => Do (PStore 0) (fun _ => Ret RUnit)
  | OFlip i (* :192-198 *) => need (bit_pos i) (fun b => Do (PXor b) as_bitset)
  | OFlipRange l m (* :200-206 *) => flip_range_code l m
  | OFlipLen l k (* :208-213 *) => flip_range_code l (last_of l k)
  | OFlipAll (* :215-217 *) => need ab_mask (fun m => Do (PXor m) as_bitset)
  | OLoad (* :104-112 *) => Do PLoad (fun r => salient r as_bitset)
  | OStore b (* :113-116 *) => need (to_uint n w true w b) (fun v => Do (PStore v) (fun _ => Ret RUnit))
  | OGet i (* :120-122 *) =>
      Do PLoad (fun r => salient r (fun x => need (of_u64 n w same64 x) (fun s => need (get w s i) (fun b => Ret (RBool b)))))
  | OTo uw (* :86-96 *) => if uw <? n then Bad else Do PLoad (fun r => salient r (fun x => Ret (RNum (wrap uw x))))
  | OToNatural (* :98-102 *) => Do PLoad (fun r => salient r (fun x => Ret (RNum (wrap sw x))))
  | OAll (* :219-222 *) => Do PLoad (fun r => salient r (fun x => need ab_mask (fun m => Ret (RBool (x =? m)))))
  | OAny (* :223-226 *) => Do PLoad (fun r => salient r (fun x => Ret (RBool (negb (x =? 0)))))
  | ONone (* :227-230 *) => Do PLoad (fun r => salient r (fun x => Ret (RBool (x =? 0))))
  | OCount (* :232-236 *) => Do PLoad (fun r => salient r (fun x => Ret (RNum (popcount pl w x))))
  end.

(** Constructors: the word they store. *)
Fixpoint place_word (acc : N) (ps : list N) : option N :=
  match ps with
  | [] => Some acc
  | p :: r => match bit_pos p with Some b => place_word (N.lor acc b) r | None => None end
  end.
(** :45-60: the loop over the reversed substring, [i] the current bit. *)
Fixpoint string_word (acc i : N) (cs : list N) (one : N) : N :=
  match cs with
  | [] => acc
  | c :: r => string_word (if c =? one then N.lor acc i else acc) (wrap w (N.shiftl i 1)) r one
  end.
Inductive abctor := CDefault | CU64 (v : N) | CPlace (ps : list N) | CAllBits | CString (str : list N) (pos cnt one : N).
Definition ab_init (c : abctor) : option N :=
  match c with
  | CDefault (* :66 *) => Some 0
  | CU64 v (* :67-68 *) => match ab_mask with Some m => Some (wrap w (N.land v m)) | None => None end
  | CPlace ps (* :70-74 *) => place_word 0 ps
  | CAllBits (* :76 *) => ab_mask
  | CString str pos cnt one (* :45-60, :78-84; substr throws when pos is past the end *) =>
      if len str <? pos then None
      else let l := N.min cnt (len str - pos) in
           Some (string_word 0 1 (rev (firstn (N.to_nat (N.min l n)) (skipn (N.to_nat pos) str))) one)
  end.
End AtomicBitset.
