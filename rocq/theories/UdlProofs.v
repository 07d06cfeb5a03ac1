(** Proofs about integer literals. *)
From Verif Require Import Base BaseLemmas UdlModel UdlSpec.
Open Scope N_scope.

Lemma small_digit (P : N -> bool) n : (forall k, (k < n)%nat -> P (N.of_nat k) = true) -> forall d, d < N.of_nat n -> P d = true.
Proof. intros H d Hd. rewrite <- (N2Nat.id d). apply H. lia. Qed.
Definition digit_facts (d : N) : bool :=
  forallb (fun u => let c := item_char (Dig d u) in
    negb (is_digit_sep c) && (integral_value c =? d) && is_hex_digit c &&
    Bool.eqb (is_decimal_digit c) (d <? 10) && Bool.eqb (is_octal_digit c) (d <? 8) && Bool.eqb (is_binary_digit c) (d <? 2)) [true; false].
Lemma digit_facts_ok d : d < 16 -> digit_facts d = true.
Proof.
  intros H. assert (A : forallb (fun k => digit_facts (N.of_nat k)) (seq 0 16) = true) by (vm_compute; reflexivity).
  rewrite forallb_forall in A. rewrite <- (N2Nat.id d). apply A. apply in_seq. lia.
Qed.
Lemma digit_char d u : d < 16 -> is_digit_sep (item_char (Dig d u)) = false /\ integral_value (item_char (Dig d u)) = d /\ is_hex_digit (item_char (Dig d u)) = true /\
  is_decimal_digit (item_char (Dig d u)) = (d <? 10) /\ is_octal_digit (item_char (Dig d u)) = (d <? 8) /\ is_binary_digit (item_char (Dig d u)) = (d <? 2).
Proof.
  intros H. pose proof (digit_facts_ok d H) as F. unfold digit_facts in F. rewrite forallb_forall in F. specialize (F u ltac:(destruct u; cbn; auto)). cbv zeta in F.
  rewrite !andb_true_iff, negb_true_iff, N.eqb_eq, !Bool.eqb_true_iff in F. tauto.
Qed.
Lemma raw_parse_ok w base l : base <= 16 -> 0 < base -> below base l -> raw_parse w base (map item_char l) = positional base (digits l) mod 2 ^ w.
Proof.
  intros Hb Hb0. assert (Hp : 2 ^ w <> 0) by (apply N.pow_nonzero; lia).
  assert (G : forall l s, below base l -> fold_left (fun s c => maybe_add_digit w base c s) (map item_char l) (s mod 2 ^ w)
     = (s * base ^ len (digits l) + positional base (digits l)) mod 2 ^ w).
  { clear l. induction l as [|i l IH]; intros s Hl; cbn [map fold_left].
    - cbn [digits flat_map positional]. change (len (@nil N)) with 0. rewrite N.pow_0_r, N.mul_1_r, N.add_0_r. reflexivity.
    - destruct i as [d u|].
      + unfold below in Hl. cbn [digits flat_map app] in Hl. apply Forall_cons_iff in Hl as (Hd & Hl).
        destruct (digit_char d u ltac:(lia)) as (D1 & D2 & _). unfold maybe_add_digit at 2. rewrite D1, D2.
        rewrite N.mul_mod_idemp_l by exact Hp. rewrite N.add_mod_idemp_l by exact Hp. rewrite IH by exact Hl. f_equal.
        cbn [digits flat_map app positional]. change (flat_map _ l) with (digits l). rewrite len_cons, N.pow_add_r, N.pow_1_r. lia.
      + cbn [digits flat_map app] in *. unfold maybe_add_digit at 2. change (is_digit_sep (item_char Sep)) with true. cbv iota. apply IH. exact Hl. }
  intros Hl. specialize (G l 0 Hl). rewrite N.mod_0_l in G by exact Hp. rewrite N.mul_0_l, N.add_0_l in G. exact G.
Qed.
Lemma forallb_items ok base l : below base l -> (forall d u, d < base -> ok (item_char (Dig d u)) = true) ->
  forallb (fun c => ok c || is_digit_sep c) (map item_char l) = true.
Proof.
  intros Hl Hok. apply forallb_forall. intros c Hc. apply in_map_iff in Hc as (i & <- & Hi). destruct i as [d u|].
  - rewrite Hok; [reflexivity|]. unfold below in Hl. rewrite Forall_forall in Hl. apply Hl. unfold digits. apply in_flat_map. exists (Dig d u). split; [exact Hi|left; reflexivity].
  - apply orb_true_r.
Qed.
Lemma parse_base_ok w base ok l : 0 < base -> base <= 16 -> below base l -> (forall d u, d < base -> ok (item_char (Dig d u)) = true) ->
  parse_base w base ok (map item_char l) = Some (positional base (digits l) mod 2 ^ w).
Proof. intros H0 H1 Hl Hok. unfold parse_base. rewrite (forallb_items ok base l Hl Hok). rewrite raw_parse_ok by assumption. reflexivity. Qed.
Lemma octal_second i : (match i with Dig d _ => d < 8 | Sep => True end) ->
  ((item_char i =? 120) || (item_char i =? 88) = false) /\ ((item_char i =? 98) || (item_char i =? 66) = false).
Proof.
  destruct i as [d u|]; intros H; [|split; reflexivity]. cbn [item_char]. destruct (N.ltb_spec d 10); [|lia].
  split; apply orb_false_iff; split; apply N.eqb_neq; lia.
Qed.
Theorem parse_ok w b l : well_formed b l -> parse_literal w (text b l) = Some (positional (radix b) (digits l) mod 2 ^ w).
Proof.
  intros (Hl & Hb). unfold text. destruct b as [| |u|u]; cbn [prefix radix app] in *.
  - destruct Hb as (d & u & r & -> & Hd). assert (Hd10 : d < 10) by (unfold below in Hl; cbn [digits flat_map app] in Hl; apply Forall_cons_iff in Hl as (H & _); exact H).
    assert (E : parse_literal w (map item_char (Dig d u :: r)) = parse_base w 10 is_decimal_digit (map item_char (Dig d u :: r))).
    { cbn [map]. assert (Hc : item_char (Dig d u) <> 48) by (cbn [item_char]; destruct (N.ltb_spec d 10); lia). revert Hc. generalize (item_char (Dig d u)) as c.
      intros c Hc. unfold parse_literal. destruct c as [|p]; [reflexivity|]. repeat (destruct p as [p|p|]; try reflexivity). contradiction. }
    rewrite E. apply parse_base_ok; [lia|lia|exact Hl|]. intros d' u' Hd'. destruct (digit_char d' u' ltac:(lia)) as (_ & _ & _ & D & _). rewrite D. apply N.ltb_lt. exact Hd'.
  - assert (E : parse_literal w (48 :: map item_char l) = parse_base w 8 is_octal_digit (map item_char l)).
    { destruct l as [|i l]; [reflexivity|]. cbn [map parse_literal]. destruct (octal_second i) as (E1 & E2).
      - destruct i as [d u|]; [|exact I]. unfold below in Hl. cbn [digits flat_map app] in Hl. apply Forall_cons_iff in Hl as (H & _). exact H.
      - rewrite E1, E2. reflexivity. }
    rewrite E. apply parse_base_ok; [lia|lia|exact Hl|]. intros d' u' Hd'. destruct (digit_char d' u' ltac:(lia)) as (_ & _ & _ & _ & D & _). rewrite D. apply N.ltb_lt. exact Hd'.
  - assert (E : parse_literal w (48 :: (if u then 88 else 120) :: map item_char l) = parse_base w 16 is_hex_digit (map item_char l)) by (destruct u; reflexivity).
    rewrite E. apply parse_base_ok; [lia|lia|exact Hl|]. intros d' u' Hd'. destruct (digit_char d' u' ltac:(lia)) as (_ & _ & D & _). exact D.
  - assert (E : parse_literal w (48 :: (if u then 66 else 98) :: map item_char l) = parse_base w 2 is_binary_digit (map item_char l)) by (destruct u; reflexivity).
    rewrite E. apply parse_base_ok; [lia|lia|exact Hl|]. intros d' u' Hd'. destruct (digit_char d' u' ltac:(lia)) as (_ & _ & _ & _ & _ & D). rewrite D. apply N.ltb_lt. exact Hd'.
Qed.
Definition base_digit (b : literal_base) : N -> bool := match b with Decimal => is_decimal_digit | Octal => is_octal_digit | Hex _ => is_hex_digit | Binary _ => is_binary_digit end.
Definition cands : list item := Sep :: flat_map (fun d => [Dig d true; Dig d false]) [0;1;2;3;4;5;6;7;8;9;10;11;12;13;14;15].
Definition belowb (base : N) (i : item) : bool := match i with Sep => true | Dig d _ => d <? base end.
Lemma digit_allowed b c : c < 256 -> base_digit b c || is_digit_sep c = true -> allowed b c.
Proof.
  intros Hc H. assert (A : forallb (fun k => implb (base_digit b (N.of_nat k) || is_digit_sep (N.of_nat k)) (existsb (fun i => (item_char i =? N.of_nat k) && belowb (radix b) i) cands)) (seq 0 256) = true) by (destruct b; vm_compute; reflexivity).
  rewrite forallb_forall in A. specialize (A (N.to_nat c) ltac:(apply in_seq; lia)). rewrite N2Nat.id, H in A. cbn [implb] in A. apply existsb_exists in A as (i & _ & Hi). apply andb_true_iff in Hi as (H1 & H2). apply N.eqb_eq in H1.
  exists i. split; [exact H1|]. unfold below. destruct i as [d u|]; cbn [digits flat_map app]; [|constructor]. constructor; [apply N.ltb_lt; exact H2|constructor].
Qed.
Lemma parse_base_of w b cs : own_prefix b cs -> parse_literal w (prefix b ++ cs) = parse_base w (radix b) (base_digit b) cs.
Proof.
  intros H. destruct b as [| |u|u]; cbn [prefix app radix base_digit own_prefix] in *.
  - destruct cs as [|c cs]; [reflexivity|]. revert H. intros Hc. unfold parse_literal. destruct c as [|p]; [reflexivity|]. repeat (destruct p as [p|p|]; try reflexivity). contradiction.
  - destruct cs as [|c cs]; [reflexivity|]. cbn [parse_literal]. destruct (N.eqb_spec c 120); [exfalso; apply H; cbn; auto|]. destruct (N.eqb_spec c 88); [exfalso; apply H; cbn; auto|].
    destruct (N.eqb_spec c 98); [exfalso; apply H; cbn; auto|]. destruct (N.eqb_spec c 66); [exfalso; apply H; cbn; auto|]. reflexivity.
  - destruct u; reflexivity.
  - destruct u; reflexivity.
Qed.
Theorem parse_rejects w b cs c : own_prefix b cs -> c < 256 -> In c cs -> ~ allowed b c -> parse_literal w (prefix b ++ cs) = None.
Proof.
  intros Hp Hc Hi Ha. rewrite parse_base_of by exact Hp. unfold parse_base. destruct (forallb _ cs) eqn:E; [|reflexivity]. exfalso. apply Ha. apply digit_allowed; [exact Hc|]. rewrite forallb_forall in E. apply E. exact Hi.
Qed.
Theorem parse_fits w b l : well_formed b l -> positional (radix b) (digits l) < 2 ^ w -> parse_literal w (text b l) = Some (positional (radix b) (digits l)).
Proof. intros H Hlt. rewrite parse_ok by exact H. rewrite N.mod_small by exact Hlt. reflexivity. Qed.
Theorem parse_overflows w b l : well_formed b l -> 2 ^ w <= positional (radix b) (digits l) -> exists v, parse_literal w (text b l) = Some v /\ v < positional (radix b) (digits l).
Proof.
  intros H Hge. rewrite parse_ok by exact H. eexists. split; [reflexivity|]. pose proof (N.mod_lt (positional (radix b) (digits l)) (2 ^ w) ltac:(apply N.pow_nonzero; lia)). lia.
Qed.
