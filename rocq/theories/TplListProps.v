(** C114: apply_sequence and template_for_each use every element of a list. *)
From Coq Require Import List NArith ZArith Bool Lia.
From Verif Require Import Ints TplListModel TplListSpec.
Import ListNotations.

Lemma select_elements c l : has_elements c l -> select c = Some l.
Proof.
  destruct 1; cbn; try reflexivity.
  set (p := one FType :: one FType :: map (fun _ : typ => one FType) ts).
  assert (accepts [many FType] p = true) as E.
  { cbn [accepts pack many fm]. apply forallb_forall. intros x [<- | [<- | Hx]]; [reflexivity|reflexivity|].
    apply in_map_iff in Hx. destruct Hx as (? & <- & _). reflexivity. }
  unfold select, of_types. rewrite E. reflexivity.
Qed.
Lemma comma_records l : forall w, comma recorder w l = w ++ l.
Proof.
  induction l as [|x r IH]; intros w; cbn; [now rewrite app_nil_r|].
  rewrite IH. unfold recorder. now rewrite <- app_assoc.
Qed.

(** template_for_each over a type list, a value list or a std::integer_sequence calls the function for
    each element once, in order. *)
Theorem C114_for_each c l : has_elements c l ->
  (forall W (f : W -> targ -> W) w, template_for_each c f w = Some (fold_left f l w)) /\
  template_for_each c recorder [] = Some l.
Proof.
  intros H. apply select_elements in H. unfold template_for_each. rewrite H. split.
  - intros W f w. f_equal. clear H. revert w. induction l as [|x r IH]; intros w; cbn; [reflexivity|apply IH].
  - now rewrite comma_records.
Qed.
Print Assumptions C114_for_each.
(** apply_sequence calls it once, with all the elements, and gives its result. *)
Theorem C114_apply c l : has_elements c l ->
  forall W R (f : W -> list targ -> W * R) w, apply_sequence c f w = Some (f w l).
Proof. intros H W R f w. apply select_elements in H. unfold apply_sequence. now rewrite H. Qed.
Print Assumptions C114_apply.
(** Those of the library and of the standard library are such lists. *)
Theorem C114_lists : (forall ts, has_elements (type_list ts) (map AType ts)) /\
  (forall vs, has_elements (value_list vs) (map (fun v => AValue (fst v) (snd v)) vs)) /\
  (forall t vs, has_elements (integer_sequence t vs) (map (AValue (Int t)) vs)).
Proof. split; [|split]; constructor. Qed.
Print Assumptions C114_lists.
Example lists_ex :
  let i := Int (Sint 32) in
  template_for_each (type_list [i; Other 7; i]) recorder [] = Some [AType i; AType (Other 7); AType i] /\
  template_for_each (value_list [(i, 1%Z); (Other 3, 2%Z)]) adder 0%Z = Some 3%Z /\
  template_for_each (integer_sequence (Uint 64) [0; 1; 2]%Z) adder 0%Z = Some 3%Z /\
  apply_sequence (type_list []) (fun (w : nat) l => (S w, length l)) 0%nat = Some (1%nat, 0%nat).
Proof. repeat split. Qed.

(** What is not a list of types, of values, or of values of one type does not compile. *)
Theorem C114_rejected :
  (forall n W (f : W -> targ -> W) w, template_for_each (NotTemplate n) f w = None) /\
  (forall n W R (f : W -> list targ -> W * R) w, apply_sequence (NotTemplate n) f w = None) /\
  (forall n p args, existsb (fun x => form_eqb FType (fm x)) p = true -> existsb (fun x => form_eqb FAuto (fm x)) p = true ->
     (forall W (f : W -> targ -> W) w, template_for_each (Spec n p args) f w = None) /\
     (forall W R (f : W -> list targ -> W * R) w, apply_sequence (Spec n p args) f w = None)).
Proof.
  split; [reflexivity|split; [reflexivity|]]. intros n p args HT HA.
  assert (select (Spec n p args) = None) as HS.
  { apply existsb_exists in HT as (x & Hx & Fx), HA as (y & Hy & Fy).
    assert (accepts [many FType] p = false) as E1.
    { cbn. apply not_true_iff_false. intros HF. rewrite forallb_forall in HF. specialize (HF y Hy). destruct (fm y); discriminate. }
    assert (accepts [many FAuto] p = false) as E2.
    { cbn. apply not_true_iff_false. intros HF. rewrite forallb_forall in HF. specialize (HF x Hx). destruct (fm x); discriminate. }
    assert (accepts [one FType; many FOfFirst] p = false) as E3.
    { cbn. destruct p as [|z p]; [reflexivity|]. apply not_true_iff_false. intros HF.
      apply andb_true_iff in HF as [HZ HF]. apply andb_true_iff in HZ as [HZ _].
      destruct Hy as [-> | Hy]; [destruct (fm y); discriminate|].
      rewrite forallb_forall in HF. specialize (HF y Hy). destruct (fm y); discriminate. }
    unfold select, of_types, of_values, of_sequence. now rewrite E1, E2, E3. }
  split; intros; [unfold template_for_each|unfold apply_sequence]; now rewrite HS.
Qed.
Print Assumptions C114_rejected.
Example rejected_ex : template_for_each (Spec 9 [one FType; one FAuto] [AType (Other 0); AValue (Other 0) 3]) adder 0%Z = None.
Proof. reflexivity. Qed.

(** FINDING: the documentation uses stdx::make_index_sequence<3>.  That is a class template of its own
    whose arguments are the type and the bound, so the function sees the bound and nothing else: for no
    n are the calls those of the values 0, ..., n-1. *)
Theorem C114_make_sequence_refuted t n : (0 <= n)%Z ->
  template_for_each (make_integer_sequence t n) recorder [] = Some [AValue (Int t) n] /\
  (forall W R (f : W -> list targ -> W * R) w, apply_sequence (make_integer_sequence t n) f w = Some (f w [AValue (Int t) n])) /\
  template_for_each (make_integer_sequence t n) recorder [] <> Some (count_to t (Z.to_nat n)).
Proof.
  intros Hn. split; [reflexivity|split; [reflexivity|]]. cbn. unfold count_to. intros H. injection H as H.
  destruct (Z.to_nat n) as [|[|k]] eqn:E; cbn in H; [discriminate| |discriminate].
  injection H as H. lia.
Qed.
Print Assumptions C114_make_sequence_refuted.
(** The sum in the documentation's example is right for n = 0 and for its n = 3 only. *)
Theorem C114_documented_sum_refuted t n : (0 <= n)%Z ->
  (template_for_each (make_integer_sequence t n) adder 0%Z = template_for_each (integer_sequence t (map Z.of_nat (seq 0 (Z.to_nat n)))) adder 0%Z
   <-> n = 0%Z \/ n = 3%Z).
Proof.
  intros Hn.
  assert (template_for_each (make_integer_sequence t n) adder 0%Z = Some n) as -> by reflexivity.
  assert (forall k s w, comma adder w (map (AValue (Int t)) (map Z.of_nat (seq s k))) = (w + Z.of_nat k * Z.of_nat s + Z.of_nat k * (Z.of_nat k - 1) / 2)%Z) as HC.
  { induction k as [|k IH]; intros s w; [cbn; lia|].
    cbn [seq map comma]. rewrite IH. cbn [adder].
    replace (Z.of_nat (S k) * (Z.of_nat (S k) - 1))%Z with (Z.of_nat k * (Z.of_nat k - 1) + Z.of_nat k * 2)%Z by nia.
    rewrite Z.div_add by lia. nia. }
  unfold template_for_each. rewrite (select_elements (integer_sequence t _) _ (he_sequence 2 t _)), HC. rewrite Z2Nat.id by lia.
  split.
  - intros H. injection H as H.
    assert (n * (n - 1) mod 2 = 0)%Z as HM.
    { destruct (Z.Even_or_Odd n) as [[m ->]|[m ->]].
      - replace (2 * m * (2 * m - 1))%Z with (m * (2 * m - 1) * 2)%Z by nia. apply Z.mod_mul; lia.
      - replace ((2 * m + 1) * (2 * m + 1 - 1))%Z with ((2 * m + 1) * m * 2)%Z by nia. apply Z.mod_mul; lia. }
    pose proof (Z.div_mod (n * (n - 1)) 2 ltac:(lia)) as HD.
    assert (n * (n - 3) = 0)%Z as H0 by nia. apply Zmult_integral in H0. lia.
  - intros [-> | ->]; reflexivity.
Qed.
Print Assumptions C114_documented_sum_refuted.

(** By the tuple protocol a stdx::make_integer_sequence<T, n> has the n elements 0, ..., n-1, each an
    std::integral_constant of T. *)
Theorem C114_protocol t n : (0 <= n <= tmax t)%Z ->
  tuple_size t n = Some n /\
  (forall i, (0 <= i < n)%Z -> get i t n = Some (t, i) /\ tuple_element i t n = Some (t, i) /\ std_tuple_element i t n = Some (t, i)) /\
  (forall i, (n <= i)%Z -> tuple_element i t n = None).
Proof.
  intros Hn.
  assert (forall i, (0 <= i < n)%Z -> in_rangeb t i = true) as HR.
  { intros i Hi. unfold in_rangeb. apply andb_true_iff. split; apply Z.leb_le; [|lia].
    unfold tmin. destruct (signed t); [|lia].
    destruct (Z.lt_ge_cases (width t - 1) 0); [rewrite Z.pow_neg_r by lia; lia|]. pose proof (Z.pow_pos_nonneg 2 (width t - 1)). lia. }
  split; [unfold tuple_size; destruct (Z.ltb_spec n 0); [lia|reflexivity]|]. split.
  - intros i Hi. unfold get, tuple_element, std_tuple_element. rewrite (HR i Hi).
    destruct (Z.ltb_spec n 0); [lia|]. destruct (Z.ltb_spec i n); [auto|lia].
  - intros i Hi. unfold tuple_element. destruct (Z.ltb_spec i n); [lia|reflexivity].
Qed.
Print Assumptions C114_protocol.
(** FINDING: get<i> and std::tuple_element do not check i against the length, as get of a tuple and of
    a std::array do: beyond the end there are further elements. *)
Theorem C114_get_unchecked_refuted t n i : (0 <= n <= i)%Z -> in_range t i ->
  get i t n = Some (t, i) /\ std_tuple_element i t n = Some (t, i).
Proof.
  intros Hn [H1 H2]. unfold get, std_tuple_element.
  assert (in_rangeb t i = true) as -> by (unfold in_rangeb; apply andb_true_iff; split; apply Z.leb_le; assumption).
  destruct (Z.ltb_spec n 0); [lia|auto].
Qed.
Print Assumptions C114_get_unchecked_refuted.
Example unchecked_ex : get 5 (Uint 64) 3 = Some (Uint 64, 5%Z) /\ tuple_element 5 (Uint 64) 3 = None.
Proof. split; reflexivity. Qed.

(** nth_t and nth_v are the element at that index; there is none beyond the end. *)
Theorem C114_nth uw : (0 < uw)%Z ->
  (forall ts i t, (Z.of_nat (length ts) <= 2 ^ uw)%Z -> nth_t uw i ts = Some t <-> exists a b, ts = a ++ t :: b /\ i = Z.of_nat (length a)) /\
  (forall vs i v, (Z.of_nat (length vs) <= 2 ^ uw)%Z -> nth_v uw i vs = Some v <-> exists a b, vs = a ++ v :: b /\ i = Z.of_nat (length a)).
Proof.
  intros Hu.
  assert (forall X (l : list X) i x, (Z.of_nat (length l) <= 2 ^ uw)%Z ->
    (if in_rangeb (Uint uw) i then nth_error l (Z.to_nat i) else None) = Some x <-> exists a b, l = a ++ x :: b /\ i = Z.of_nat (length a)) as HG.
  { intros X l i x HL. unfold in_rangeb, tmin, tmax. cbn [signed width Uint]. split.
    - destruct (Z.leb_spec 0 i); [|discriminate]. destruct (Z.leb_spec i (2 ^ uw - 1)); [|discriminate]. cbn [andb].
      intros HE. apply nth_error_split in HE as (a & b & -> & Ha). exists a, b. split; [reflexivity|lia].
    - intros (a & b & -> & ->). rewrite app_length in HL. cbn [length] in HL.
      destruct (Z.leb_spec 0 (Z.of_nat (length a))); [|lia].
      destruct (Z.leb_spec (Z.of_nat (length a)) (2 ^ uw - 1)); [|lia]. cbn [andb].
      rewrite Nat2Z.id, nth_error_app2 by lia. now rewrite Nat.sub_diag. }
  split; intros; apply HG; assumption.
Qed.
Print Assumptions C114_nth.
Example nth_ex : nth_t 32 1 [Other 4; Other 5; Other 6] = Some (Other 5) /\ nth_v 32 3 [(Other 4, 1); (Other 5, 2); (Other 6, 3)]%Z = None.
Proof. split; reflexivity. Qed.
