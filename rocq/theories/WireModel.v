(** Programs that write and read messages: the byterator of include/stdx/byterator.hpp with the
    conversions of include/stdx/bit.hpp.  The functions called are those of ByteratorModel and BitModel;
    this file is the code of a user, a field at a time:

      b.write(stdx::to_be(x));              x = stdx::from_be(b.read<std::uint32_t>());
      b.write(std::array{...});             a = b.read<std::array<std::uint8_t, n>>();
      b.advance(n);                         b.advance(n);
      b.advance_to_alignment<T>();          b.advance_to_alignment<T>();  *)
From Verif Require Import Base BitModel ByteratorModel.
Open Scope ub_scope.
Open Scope N_scope.

(** to_be and from_be, to_le and from_le, or no conversion. *)
Inductive byte_order := BigEndian | LittleEndian | Native.
(** A field: an unsigned integer of [k] bytes; [n] bytes; a gap of [n] bytes; the space up to the next
    address that is a multiple of [2 ^ j]. *)
Inductive field := FInt (o : byte_order) (k : nat) | FBytes (n : N) | FGap (n : N) | FAlign (j : N).
Inductive datum := DInt (v : N) | DBytes (l : list N) | DNothing.

Section Machine.
(** The machine: its byte order and the width of its addresses. *)
Variable e : endian.
Variable aw : N.

(** bit.hpp:242-258. *)
Definition converted (o : byte_order) (w v : N) : N :=
  match o with BigEndian => to_be e w v | LittleEndian => to_le e w v | Native => v end.
(** bit.hpp:260-276. *)
Definition unconverted (o : byte_order) (w v : N) : N :=
  match o with BigEndian => from_be e w v | LittleEndian => from_le e w v | Native => v end.

(** byterator.hpp:165-171 for integers and arrays, byterator.hpp:144-146 and byterator.hpp:148-155. *)
Definition put_field (r : region) (p : N) (f : field) (d : datum) : option (region * N) :=
  match f, d with
  | FInt o k, DInt v => let w := 8 * N.of_nat k in write r p (mem_of e w (converted o w v))
  | FBytes n, DBytes l => if len l =? n then write r p l else None
  | FGap n, DNothing => q <- advance_by r p (Z.of_N n);; Some (r, q)
  | FAlign j, DNothing => q <- advance_to_alignment aw r p (2 ^ j) 0;; Some (r, q)
  | _, _ => None
  end.
(** byterator.hpp:157-163 for integers and arrays, byterator.hpp:144-146 and byterator.hpp:148-155. *)
Definition get_field (r : region) (p : N) (f : field) : option (datum * N) :=
  match f with
  | FInt o k => let w := 8 * N.of_nat k in x <- read r p (N.of_nat k);; Some (DInt (unconverted o w (of_mem e (fst x))), snd x)
  | FBytes n => x <- read r p n;; Some (DBytes (fst x), snd x)
  | FGap n => q <- advance_by r p (Z.of_N n);; Some (DNothing, q)
  | FAlign j => q <- advance_to_alignment aw r p (2 ^ j) 0;; Some (DNothing, q)
  end.

Fixpoint put_message (r : region) (p : N) (fs : list field) (ds : list datum) : option (region * N) :=
  match fs, ds with
  | [], [] => Some (r, p)
  | f :: fs', d :: ds' => x <- put_field r p f d;; put_message (fst x) (snd x) fs' ds'
  | _, _ => None
  end.
Fixpoint get_message (r : region) (p : N) (fs : list field) : option (list datum * N) :=
  match fs with
  | [] => Some ([], p)
  | f :: fs' => x <- get_field r p f;; y <- get_message r (snd x) fs';; Some (fst x :: fst y, snd y)
  end.
End Machine.
