(** Signals: a bit that some threads set and others take with reset; and values handed over with
    exchange.  Whoever changes a bit is told so by the bits the call returns. *)
From Verif Require Import Base BitModel BitsetModel BitsetSpec AtomicModel AtomicBitsetModel.
Open Scope N_scope.

Section Bits.
Context (w i : N).
(** The calls that set the bit and return the bits as they were; those that clear it. *)
Definition signals (op : abop) : bool :=
  match op with
  | OSet j true => j =? i
  | OSetRange l m true => (l <=? i) && (i <=? m)
  | OSetLen l k true => (l <=? i) && (i <? l + k)
  | _ => false
  end.
Definition takes (op : abop) : bool :=
  match op with
  | OSet j false | OReset j => j =? i
  | OSetRange l m false | OResetRange l m => (l <=? i) && (i <=? m)
  | OSetLen l k false | OResetLen l k => (l <=? i) && (i <? l + k)
  | _ => false
  end.
Definition toggles (op : abop) : bool :=
  match op with
  | OFlip j => j =? i
  | OFlipRange l m => (l <=? i) && (i <=? m)
  | OFlipLen l k => (l <=? i) && (i <? l + k)
  | OFlipAll => true
  | _ => false
  end.
(** The calls that do not touch the bit: they only look, or change others. *)
Definition elsewhere (op : abop) : bool :=
  match op with
  | OSet j _ | OReset j | OFlip j => negb (j =? i)
  | OSetRange l m _ | OResetRange l m | OFlipRange l m => negb ((l <=? i) && (i <=? m))
  | OSetLen l k _ | OResetLen l k | OFlipLen l k => negb ((l <=? i) && (i <? l + k))
  | OSetAll | OResetAll | OFlipAll | OStore _ => false
  | OLoad | OGet _ | OTo _ | OToNatural | OAll | OAny | ONone | OCount => true
  end.

(** The bit in the returned bits. *)
Definition was (b : bool) (o : about) : bool :=
  match o with RBits s => match get w s i with Some v => Bool.eqb v b | None => false end | _ => false end.

(** Of these completed calls, how many turned the bit on, and how many turned it off. *)
Definition turned_on (l : list (abop * about)) : nat :=
  length (filter (fun x => (signals (fst x) || toggles (fst x)) && was false (snd x)) l).
Definition turned_off (l : list (abop * about)) : nat :=
  length (filter (fun x => (takes (fst x) || toggles (fst x)) && was true (snd x)) l).
Definition one (b : bool) : nat := if b then 1 else 0.
End Bits.

(** The values given to exchange, and the values it returned. *)
Definition given (l : list aop) : list N :=
  flat_map (fun op => match op with AExchange v => [v] | _ => [] end) l.
Definition returned (l : list (aop * option N)) : list N :=
  flat_map (fun x => match x with (AExchange _, Some v) => [v] | _ => [] end) l.
