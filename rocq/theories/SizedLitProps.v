(** C29, C33: literals with sizes, and sizes that do not fit. *)
From Verif Require Import Base UdlModel UdlSpec UdlProofs SpanModel SpanSpec SpanProofs2 SizedLitModel.
Open Scope N_scope.

(** 12_z32->in<U>: the least number of U that holds what the literal says. *)
Theorem C29_literals st su b l : 0 < st -> 0 < su -> st <= su \/ st mod su = 0 ->
  well_formed b l -> positional (radix b) (digits l) * st + su < 2 ^ 64 ->
  exists n, z_literal st (text b l) su = Some n /\ least_count st su (positional (radix b) (digits l)) n.
Proof.
  intros Hst Hsu HD HW HB. assert (size_mod = 2 ^ 64) as E by reflexivity.
  unfold z_literal. rewrite (parse_fits 64 b l HW) by nia. cbn [option_map].
  eexists. split; [reflexivity|]. apply sized_ok; [assumption|assumption|assumption|lia].
Qed.
Print Assumptions C29_literals.
(** 12_c is the constant 12. *)
Theorem C33_constants b l : well_formed b l -> positional (radix b) (digits l) < 2 ^ 32 ->
  c_literal (text b l) = Some (positional (radix b) (digits l)).
Proof. exact (parse_fits 32 b l). Qed.
Print Assumptions C33_constants.
Example literals_ex :
  z_literal 4 (text Decimal [Dig 1 false; Dig 2 false]) 1 = Some 48 /\ z_literal 1 (text (Hex false) [Dig 1 false; Dig 1 false]) 8 = Some 3 /\
  c_literal (text Octal [Dig 1 false; Dig 7 false]) = Some 15.
Proof. repeat split; vm_compute; reflexivity. Qed.
(** FINDING: when the bytes do not fit into std::size_t, the result is too small to hold them, and
    nothing is reported, at compile time either. *)
Theorem C29_overflow_refuted st su sz : 0 < su -> st <> su -> st <= su \/ st mod su = 0 -> 2 ^ 64 <= sz * st ->
  sized_in st su sz * su < sz * st.
Proof.
  intros Hsu Hne HD HB. assert (size_mod = 2 ^ 64) as E by reflexivity.
  unfold sized_in. destruct (N.eqb_spec st su) as [?|_]; [contradiction|].
  assert (forall x, x < size_mod -> x / su * su < sz * st) as HQ.
  { intros x Hx. pose proof (N.mul_div_le x su ltac:(lia)). nia. }
  destruct (N.ltb_spec su st) as [HL|HL].
  - assert (st mod su = 0) as -> by lia. change (0 <? 0) with false. rewrite N.add_0_r.
    assert (sz * st mod size_mod < size_mod) as H1 by (apply N.mod_lt; discriminate).
    rewrite N.mod_small; [now apply HQ|]. apply N.le_lt_trans with (sz * st mod size_mod); [apply N.div_le_upper_bound; nia|exact H1].
  - apply HQ. unfold usub. apply N.mod_lt. discriminate.
Qed.
Print Assumptions C29_overflow_refuted.
Example overflow_ex : sized_in 8 1 (2 ^ 61) = 0.
Proof. vm_compute. reflexivity. Qed.
