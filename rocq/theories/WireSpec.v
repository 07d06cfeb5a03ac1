(** What a message is: where its fields lie and what bytes they are. *)
From Verif Require Import Base BitModel BitSpec ByteratorModel WireModel.
Open Scope N_scope.

(** The offset after a field that starts at offset [o] of a buffer at address [b]. *)
Definition after (b o : N) (f : field) : N :=
  match f with
  | FInt _ k => o + N.of_nat k
  | FBytes n | FGap n => o + n
  | FAlign j => o + (2 ^ j - (b + o) mod 2 ^ j) mod 2 ^ j
  end.
Fixpoint end_of (b o : N) (fs : list field) : N :=
  match fs with [] => o | f :: r => end_of b (after b o f) r end.

(** The value is one of the field's type. *)
Definition fits (f : field) (d : datum) : Prop :=
  match f, d with
  | FInt _ k, DInt v => std_width k /\ v < 2 ^ (8 * N.of_nat k)
  | FBytes n, DBytes l => len l = n /\ Forall (fun x => x < 256) l
  | FGap _, DNothing | FAlign _, DNothing => True
  | _, _ => False
  end.
(** The bytes of a field: those of the integer, most or least significant first. *)
Definition bytes_of (e : endian) (f : field) (d : datum) : list N :=
  let big k v := map (fun i => byte v (N.of_nat i)) (rev (seq 0 k)) in
  let little k v := map (fun i => byte v (N.of_nat i)) (seq 0 k) in
  match f, d with
  | FInt BigEndian k, DInt v => big k v
  | FInt LittleEndian k, DInt v => little k v
  | FInt Native k, DInt v => match e with Big => big k v | Little => little k v end
  | FBytes _, DBytes l => l
  | _, _ => []
  end.
(** [l] is in [m] at offset [o]. *)
Definition lies (m : list N) (o : N) (l : list N) : Prop := forall i x, rd l i = Some x -> rd m (o + i) = Some x.
(** The message is in the memory [m], which is at address [b], from offset [o] on. *)
Fixpoint message_in (e : endian) (m : list N) (b o : N) (fs : list field) (ds : list datum) : Prop :=
  match fs, ds with
  | f :: fs', d :: ds' => lies m o (bytes_of e f d) /\ message_in e m b (after b o f) fs' ds'
  | _, _ => True
  end.
(** The offset [i] belongs to a field of the message that has bytes. *)
Fixpoint part_of (b o : N) (fs : list field) (i : N) : Prop :=
  match fs with
  | [] => False
  | f :: fs' => match f with FInt _ _ | FBytes _ => o <= i < after b o f | _ => False end \/ part_of b (after b o f) fs' i
  end.

(** Every address up to the alignment after the buffer is one of the machine. *)
Definition addressable (aw b n : N) (fs : list field) : Prop := forall j, In (FAlign j) fs -> b + n + 2 ^ j <= 2 ^ aw.
(** No integer of more than one byte is written in the machine's own order. *)
Definition portable (fs : list field) : Prop := forall k, In (FInt Native k) fs -> k = 1%nat.
(** The buffers have the same alignment, as far as the message asks for one. *)
Definition aligned_alike (b b' : N) (fs : list field) : Prop := forall j, In (FAlign j) fs -> b mod 2 ^ j = b' mod 2 ^ j.
