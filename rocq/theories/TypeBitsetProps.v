(** Property C19, continued: the rest of type_bitset. *)
From Verif Require Import Base BaseLemmas BitModel BitSpec BitsetModel BitsetSpec TypeBitsetModel TypeBitsetSpec TypeBitsetProofs2 BitsetProps.
Open Scope N_scope.

(** A new type_bitset has no type set, type_bitset{all_bits} has all. *)
Theorem C19_new :
  forall pl ts w, types_ok pl ts w ->
  valid (tb_N ts) w (tb_default ts w) /\ (forall t, In t ts -> tb_get ts w (tb_default ts w) t = Some false) /\
  exists s, tb_all_bits ts w = Some s /\ valid (tb_N ts) w s /\ forall t, In t ts -> tb_get ts w s t = Some true.
Proof. intros pl ts w (H1 & H2 & H3 & H4 & H5). exact (fresh pl ts w H2 H3 H4 H5). Qed.
Print Assumptions C19_new.

(** |, &, ^, - and ~ act on every type separately. *)
Theorem C19_operators :
  forall pl ts w a b, types_ok pl ts w -> valid (tb_N ts) w a -> valid (tb_N ts) w b ->
  (valid (tb_N ts) w (tb_or a b) /\ valid (tb_N ts) w (tb_and a b) /\ valid (tb_N ts) w (tb_xor a b) /\
   valid (tb_N ts) w (tb_minus w a b) /\ valid (tb_N ts) w (tb_not w a)) /\
  forall t, In t ts -> exists x y, tb_get ts w a t = Some x /\ tb_get ts w b t = Some y /\
  tb_get ts w (tb_or a b) t = Some (x || y)%bool /\ tb_get ts w (tb_and a b) t = Some (x && y)%bool /\
  tb_get ts w (tb_xor a b) t = Some (xorb x y) /\ tb_get ts w (tb_minus w a b) t = Some (x && negb y)%bool /\
  tb_get ts w (tb_not w a) t = Some (negb x).
Proof. intros pl ts w a b (H1 & H2 & H3 & H4 & H5). exact (algebra pl ts w H2 H3 H4 H5 a b). Qed.
Print Assumptions C19_operators.

(** count() is the number of different types that are set; empty, none, any, all and == say what they say about
    the types, whatever bits the storage holds beyond them. *)
Theorem C19_questions :
  forall pl ts w s, types_ok pl ts w -> valid (tb_N ts) w s ->
  (exists l, NoDup l /\ (forall t, In t l <-> In t ts /\ tb_get ts w s t = Some true) /\ tb_count pl ts w s = Some (len l)) /\
  (exists e, tb_empty pl ts w s = Some e /\ tb_none pl ts w s = Some e /\ tb_any pl ts w s = Some (negb e) /\
             (e = true <-> forall t, In t ts -> tb_get ts w s t = Some false)) /\
  (exists a, tb_all pl ts w s = Some a /\ (a = true <-> forall t, In t ts -> tb_get ts w s t = Some true)) /\
  (forall s', valid (tb_N ts) w s' ->
   exists r, tb_eq ts w s s' = Some r /\ (r = true <-> forall t, In t ts -> tb_get ts w s t = tb_get ts w s' t)).
Proof.
  intros pl ts w s (H1 & H2 & H3 & H4 & H5) Hs. split; [exact (counted pl ts w H1 H2 H3 H4 H5 s Hs)|].
  destruct (questions pl ts w H1 H2 H3 H4 H5 s Hs) as (A & B). split; [exact A|]. split; [exact B|].
  intros s' Hs'. exact (equal pl ts w H2 H3 H4 H5 s s' Hs Hs').
Qed.
Print Assumptions C19_questions.

(** for_each<unset_bit> calls for the other types, in the order of the list. *)
Theorem C19_for_each_unset :
  forall pl ts w s, types_ok pl ts w -> valid (tb_N ts) w s ->
  tb_for_each pl ts w TUnset s =
  Some (filter (fun t => match tb_get ts w s t with Some b => negb b | None => false end) (firsts ts)).
Proof. intros pl ts w s (H1 & H2 & H3 & H4 & H5) Hs. rewrite <- mp_unique_firsts. exact (each_unset_get pl ts w H1 H2 H3 H4 H5 s Hs). Qed.
Print Assumptions C19_for_each_unset.
(** FINDING: for_each<bit> never compiles. *)
Theorem C19_for_each_bit_refuted : forall pl ts w s, tb_for_each pl ts w TBit s = None.
Proof. reflexivity. Qed.
Print Assumptions C19_for_each_bit_refuted.

(** A type that is not in the list is rejected. *)
Theorem C19_unknown_types_partial :
  forall ts w s t us v, ~ In t ts ->
  (In t us -> tb_set ts w s us v = None /\ tb_reset ts w s us = None /\ tb_flip ts w s us = None /\ tb_of_types ts w us = None) /\
  (NoDup ts -> tb_get ts w s t = None).
Proof. intros ts w s t us v Ht. split; [exact (unknown_out ts w s t us v Ht)|exact (proj1 (unknown_get ts w s t Ht))]. Qed.
Print Assumptions C19_unknown_types_partial.
(** FINDING: but not by operator[] if the list has duplicates: it compiles, and after set() answers that the type
    is set, or reads outside the storage if the number of different types is a multiple of the word size. *)
Theorem C19_unknown_types_refuted :
  forall pl ts w s t, types_ok pl ts w -> ~ NoDup ts -> ~ In t ts -> valid (tb_N ts) w s ->
  exists s', tb_set ts w s [] true = Some s' /\
  tb_get ts w s' t = if len (firsts ts) mod w =? 0 then None else Some true.
Proof.
  intros pl ts w s t (H1 & H2 & H3 & H4 & H5) D Ht Hs. eexists. split; [reflexivity|]. rewrite <- mp_unique_firsts.
  exact (unknown_set pl ts w H2 H3 H4 H5 s t Ht D Hs).
Qed.
Print Assumptions C19_unknown_types_refuted.

(** FINDING: with duplicates set<T>(), reset<T>() and flip<T>() do not compile for a type of the list with as
    many entries before it as there are different types. *)
Theorem C19_listed_rejected_refuted :
  forall ts w s a t b v, ts = a ++ t :: b -> ~ In t a -> len (firsts ts) <= len a ->
  In t ts /\ tb_set ts w s [t] v = None /\ tb_reset ts w s [t] = None /\ tb_flip ts w s [t] = None.
Proof.
  intros ts w s a t b v -> Ha Hl. split; [apply in_app_iff; right; left; reflexivity|]. unfold tb_set, tb_reset, tb_flip. cbn [forallb]. rewrite andb_true_r.
  rewrite index_after by exact Ha. unfold tb_N, list_t. rewrite mp_unique_firsts. destruct (N.ltb_spec (len a) (len (firsts (a ++ t :: b)))); [lia|]. auto.
Qed.
Print Assumptions C19_listed_rejected_refuted.

(** FINDING: a type_bitset can be made from one over other types, but what was set in that one is ignored: all its
    types are set. *)
Theorem C19_convert_refuted :
  forall pl ts us w from, types_ok pl ts w -> Forall (fun u => In u ts) us ->
  exists s, tb_convert ts w us from = Some s /\ forall t, In t ts -> tb_get ts w s t = Some (listed t us).
Proof.
  intros pl ts us w from (H1 & H2 & H3 & H4 & H5) Hu. destruct (BitsetProofs2.tb_ctor_ok pl ts w H2 H3 H4 H5 us Hu) as (s & E & _ & G). exists s. auto.
Qed.
Print Assumptions C19_convert_refuted.

Example C19_more_nonvacuous :
  tb_get [10; 20; 30] 8 (tb_minus 8 [7] [2]) 20 = Some false /\ tb_count BitsetProps.lp64 [10; 20; 10; 30] 8 [0xf5] = Some 2 /\
  tb_eq [10; 20; 30] 8 [0xf5] [5] = Some true /\ tb_for_each BitsetProps.lp64 [10; 20; 10; 30] 8 TUnset [0xf5] = Some [20] /\
  firsts [10; 20; 10; 30] = [10; 20; 30] /\ tb_get [10; 20; 10] 8 [0xff] 99 = Some true /\
  tb_set [10; 10; 20] 8 [0] [20] true = None /\ tb_get [10; 10; 20] 8 [0] 20 = Some false /\
  tb_convert [10; 20; 30] 8 [20; 30] [0] = Some [6].
Proof. repeat split; vm_compute; reflexivity. Qed.
