(** C30 iterator algorithms, C31 transform_reduce, C47 counting_iterator. *)
From Verif Require Import Base BaseLemmas AlgorithmModel AlgorithmSpec AlgorithmProofs CountingModel CountingSpec CountingProofs.

(** ** C30 *)
Theorem C30_for_each : forall W B size_of (op : W -> list iter -> W * B) n w first firsts,
  available size_of n (first :: firsts) ->
  for_each size_of op w first (shift n first) firsts = Some (calls op (first :: firsts) n w, map (shift n) firsts).
Proof. intros W B. exact for_each_ok. Qed.
Print Assumptions C30_for_each.
Theorem C30_for_each_n : forall W B size_of (op : W -> list iter -> W * B) n w first firsts,
  available size_of (Z.to_nat n) (first :: firsts) ->
  for_each_n size_of op w first n firsts
  = Some (calls op (first :: firsts) (Z.to_nat n) w, shift (Z.to_nat n) first, map (shift (Z.to_nat n)) firsts).
Proof. intros W B. exact for_each_n_ok. Qed.
Print Assumptions C30_for_each_n.
Theorem C30_transform : forall W B size_of (op : W -> list iter -> W * B) store n w d first firsts,
  available size_of n (d :: first :: firsts) ->
  transform size_of op store w first (shift n first) d firsts
  = Some (stores op store (first :: firsts) d n w, shift n d, shift n first, map (shift n) firsts).
Proof. intros W B. exact transform_ok. Qed.
Print Assumptions C30_transform.
Theorem C30_transform_n : forall W B size_of (op : W -> list iter -> W * B) store n w d first firsts,
  available size_of (Z.to_nat n) (d :: first :: firsts) ->
  transform_n size_of op store w first n d firsts
  = Some (stores op store (first :: firsts) d (Z.to_nat n) w, shift (Z.to_nat n) d, shift (Z.to_nat n) first, map (shift (Z.to_nat n)) firsts).
Proof. intros W B. exact transform_n_ok. Qed.
Print Assumptions C30_transform_n.

(** For a function of the values: the destination holds the results, everything else is
    unchanged; the destination may be one of the sources. *)
Theorem C30_transform_values : forall A (f : list A -> A) size_of n m d first firsts,
  available size_of n (d :: first :: firsts) -> Forall (reads_first d n) (first :: firsts) ->
  exists m', transform size_of (pure_op f) put m first (shift n first) d firsts
             = Some (m', shift n d, shift n first, map (shift n) firsts) /\
  (forall i, (i < n)%nat -> m' (fst d) (snd d + N.of_nat i)%N = f (map (fun it => m (fst it) (snd it + N.of_nat i)%N) (first :: firsts))) /\
  (forall r i, r <> fst d \/ (i < snd d)%N \/ (snd d + N.of_nat n <= i)%N -> m' r i = m r i).
Proof.
  intros A f size_of n m d first firsts Ha Hr. eexists. split; [apply transform_ok; exact Ha|]. split.
  - intros i Hi. rewrite (stores_values f (first :: firsts) d n m Hr). rewrite N.eqb_refl. destruct (N.leb_spec (snd d) (snd d + N.of_nat i)); [|lia].
    destruct (N.ltb_spec (snd d + N.of_nat i) (snd d + N.of_nat n)); [|lia]. cbn [andb]. replace (N.to_nat (snd d + N.of_nat i - snd d)) with i by lia.
    unfold vals, args. rewrite map_map. reflexivity.
  - intros r i H. rewrite (stores_values f (first :: firsts) d n m Hr).
    destruct (N.eqb_spec r (fst d)), (N.leb_spec (snd d) i), (N.ltb_spec i (snd d + N.of_nat n)); cbn [andb]; try reflexivity. lia.
Qed.
Print Assumptions C30_transform_values.

(** All but the last m, for both kinds of iterators, m from 0 to beyond the length. *)
Theorem C30_butlastn : forall W B size_of (op : W -> list iter -> W * B) random n m w first firsts,
  (snd first + N.of_nat n <= size_of (fst first))%N -> (Z.of_nat n < 2 ^ 63)%Z -> (0 <= m < 2 ^ 63)%Z ->
  available size_of (n - Z.to_nat m) firsts ->
  for_each_butlastn size_of op random w first (shift n first) m firsts
  = Some (calls op (first :: firsts) (n - Z.to_nat m) w, shift (n - Z.to_nat m) first, map (shift (n - Z.to_nat m)) firsts).
Proof.
  intros W B size_of op random n m w first firsts Hf Hn Hm Ha.
  assert (Ha' : available size_of (n - Z.to_nat m) (first :: firsts)) by (constructor; [lia|exact Ha]). destruct random.
  - exact (butlastn_random_ok size_of op n m w first firsts Hn Hm Ha').
  - exact (butlastn_forward_ok size_of op n m w first firsts Hf Ha').
Qed.
Print Assumptions C30_butlastn.
Theorem C30_butlast : forall W B size_of (op : W -> list iter -> W * B) random n w first firsts,
  (snd first + N.of_nat n <= size_of (fst first))%N -> (Z.of_nat n < 2 ^ 63)%Z -> available size_of (n - 1) firsts ->
  for_each_butlast size_of op random w first (shift n first) firsts
  = Some (calls op (first :: firsts) (n - 1) w, shift (n - 1) first, map (shift (n - 1)) firsts).
Proof. intros W B size_of op random n w first firsts Hf Hn Ha. exact (C30_butlastn W B size_of op random n 1 w first firsts Hf Hn ltac:(lia) Ha). Qed.
Print Assumptions C30_butlast.

(** With a negative count, forward iterators visit everything while random access iterators
    run past the end of the range. *)
Theorem C30_butlastn_negative_refuted : forall W B size_of (op : W -> list iter -> W * B) n m w first firsts,
  (snd first + N.of_nat n = size_of (fst first))%N -> (Z.of_nat n < 2 ^ 63)%Z -> (- 2 ^ 63 <= m < 0)%Z -> available size_of n firsts ->
  for_each_butlastn size_of op false w first (shift n first) m firsts
    = Some (calls op (first :: firsts) n w, shift n first, map (shift n) firsts) /\
  for_each_butlastn size_of op true w first (shift n first) m firsts = None.
Proof.
  intros W B size_of op n m w first firsts Hf Hn Hm Ha. split.
  - pose proof (butlastn_forward_ok size_of op n m w first firsts) as H. replace (n - Z.to_nat m)%nat with n in H by lia.
    apply H; [lia|]. constructor; [lia|exact Ha].
  - exact (butlastn_random_negative size_of op n m w first firsts Hf Hn Hm).
Qed.
Print Assumptions C30_butlastn_negative_refuted.

(** Nothing for an empty range; iop for a single element; otherwise iop on the first, mop on
    those between in order, fop on the last. *)
Theorem C30_initial_medial_final : forall W size_of (iop mop fop : W -> list iter -> W * unit) random n w first,
  (snd first + N.of_nat n <= size_of (fst first))%N -> (Z.of_nat n < 2 ^ 63)%Z ->
  initial_medial_final size_of iop mop fop random w first (shift n first)
  = Some match n with
         | O => w
         | S O => fst (iop w [first])
         | S (S k) => fst (fop (calls mop [shift 1 first] k (fst (iop w [first]))) [shift (S k) first])
         end.
Proof. intros W. exact imf_ok. Qed.
Print Assumptions C30_initial_medial_final.

(** ** C31 *)
Theorem C31_transform_reduce : forall W B T size_of (top : W -> list iter -> W * B) (rop : W -> T -> B -> W * T) n w t first firsts,
  available size_of n (first :: firsts) ->
  transform_reduce size_of top rop w first (shift n first) t firsts = Some (reduces top rop (first :: firsts) n w t).
Proof. intros W B T. exact transform_reduce_ok. Qed.
Print Assumptions C31_transform_reduce.
Theorem C31_transform_reduce_n : forall W B T size_of (top : W -> list iter -> W * B) (rop : W -> T -> B -> W * T) n w t first firsts,
  available size_of n (first :: firsts) ->
  transform_reduce_n size_of top rop w first (Z.of_nat n) t firsts = Some (reduces top rop (first :: firsts) n w t).
Proof. intros W B T. exact transform_reduce_n_ok. Qed.
Print Assumptions C31_transform_reduce_n.
(** For functions of the values, the left fold of the transformed tuples. *)
Theorem C31_left_fold : forall A B T size_of (f : list A -> B) (g : T -> B -> T) n m t first firsts,
  available size_of n (first :: firsts) ->
  transform_reduce size_of (pure_op f) (fun m t b => (m, g t b)) m first (shift n first) t firsts
  = Some (m, fold_left g (map (fun i => f (map (fun it => m (fst it) (snd it + N.of_nat i)%N) (first :: firsts))) (seq 0 n)) t).
Proof.
  intros A B T size_of f g n m t first firsts Ha. rewrite transform_reduce_ok by exact Ha. rewrite reduces_values. do 3 f_equal.
  apply map_ext. intros i. unfold vals, args. rewrite map_map. reflexivity.
Qed.
Print Assumptions C31_left_fold.
(** Unlike for_each_n, a negative count is not the same as none: it always runs past the end. *)
Theorem C31_negative_count_refuted : forall W B T size_of (top : W -> list iter -> W * B) (rop : W -> T -> B -> W * T) n w t first firsts,
  (n < 0)%Z -> transform_reduce_n size_of top rop w first n t firsts = None.
Proof. intros W B T. exact transform_reduce_n_negative. Qed.
Print Assumptions C31_negative_count_refuted.

(** ** C47 *)
Open Scope Z_scope.
Theorem C47_increment : forall iw t, good_type iw t -> forall n i, value t i -> value t (i + Z.of_nat n) ->
  incs iw t n i = Some (i + Z.of_nat n) /\
  (value (difference_type iw t) (Z.of_nat n) -> plus iw t i (Z.of_nat n) = incs iw t n i).
Proof.
  intros iw t G n i H1 H2. split; [exact (incs_ok iw t G n i H1 H2)|]. intros Hd. rewrite (incs_ok iw t G n i H1 H2). apply plus_ok; auto.
Qed.
Print Assumptions C47_increment.
Theorem C47_decrement : forall iw t, good_type iw t -> forall n i, value t i -> value t (i + Z.of_nat n) ->
  decs iw t n (i + Z.of_nat n) = Some i /\
  (value (difference_type iw t) (Z.of_nat n) -> minus iw t (i + Z.of_nat n) (Z.of_nat n) = Some i).
Proof.
  intros iw t G n i H1 H2. assert (E : i + Z.of_nat n - Z.of_nat n = i) by lia. split.
  - rewrite (decs_ok iw t G n (i + Z.of_nat n) H2); [f_equal; exact E|]. rewrite E. exact H1.
  - intros Hd. rewrite minus_ok; [f_equal; exact E|exact G|rewrite E; exact H1|auto].
Qed.
Print Assumptions C47_decrement.
(** (i + d) - i = d, for every offset the difference type can hold. *)
Theorem C47_difference : forall iw t, good_type iw t -> forall i d, value t (i + d) -> value (difference_type iw t) d ->
  exists j, plus iw t i d = Some j /\ diff iw t j i = Some d.
Proof.
  intros iw t G i d H Hd. exists (i + d). split; [apply plus_ok; auto|]. replace (Some d) with (Some (i + d - i)) by (f_equal; lia).
  apply diff_ok; [exact G|]. replace (i + d - i) with d by lia. exact Hd.
Qed.
Print Assumptions C47_difference.
Theorem C47_difference_back : forall iw t, good_type iw t -> forall x y d, value t x -> value t y -> diff iw t x y = Some d -> plus iw t y d = Some x.
Proof. exact plus_diff. Qed.
Print Assumptions C47_difference_back.
(** Ordering and equality agree with the difference, when the difference type can hold it. *)
Theorem C47_order_partial : forall iw t, good_type iw t -> forall x y, value (difference_type iw t) (x - y) ->
  exists d, diff iw t x y = Some d /\ (less y x = true <-> 0 < d) /\ (eq_it x y = true <-> d = 0).
Proof.
  intros iw t G x y H. exists (x - y). split; [apply diff_ok; assumption|]. unfold less, eq_it. rewrite Z.ltb_lt, Z.eqb_eq. lia.
Qed.
Print Assumptions C47_order_partial.
(** For unsigned types as wide as int or wider, the difference type is unsigned: the distance
    from a larger to a smaller value is positive, not negative. *)
Theorem C47_unsigned_difference_refuted : forall iw t, good_type iw t -> forall x y d,
  is_signed t = false -> iw <= bits t -> value t x -> value t y -> less x y = true -> diff iw t x y = Some d -> 0 < d.
Proof. intros iw t G x y d Hs Hb Hx Hy Hl. apply Z.ltb_lt in Hl. exact (diff_unsigned iw t G x y d Hs Hb Hx Hy Hl). Qed.
Print Assumptions C47_unsigned_difference_refuted.
(** A loop from a to a + n visits a, a + 1, ..., a + n - 1. *)
Theorem C47_loop : forall iw t, good_type iw t -> forall n a, value t a -> value t (a + Z.of_nat n) ->
  visit iw t n a (a + Z.of_nat n) = Some (upto a n).
Proof. intros iw t G n a. apply visit_ok; [exact G|lia]. Qed.
Print Assumptions C47_loop.

(** ** The hypotheses are met *)
Open Scope N_scope.
Definition ex_sizes : N -> N := fun r => if r =? 0 then 4 else 3.
Definition ex_mem : elements N := fun r i => 10 * (r + 1) + i.
Definition sum (l : list N) : N := fold_left N.add l 0.
(** Operations that log the references they are given. *)
Definition log_op (tag : N) : list (N * list iter) -> list iter -> list (N * list iter) * unit := fun w l => (w ++ [(tag, l)], tt).
Example C30_ex_each : for_each ex_sizes (log_op 7) [] (0, 1) (0, 4) [(1, 0)]
  = Some ([(7, [(0, 1); (1, 0)]); (7, [(0, 2); (1, 1)]); (7, [(0, 3); (1, 2)])], [(1, 3)]).
Proof. vm_compute. reflexivity. Qed.
Example C30_ex_available : available ex_sizes 3 [(0, 1); (1, 0)] /\ shift 3 (0, 1) = (0, 4).
Proof. split; [|reflexivity]. repeat constructor; cbn; lia. Qed.
Example C30_ex_transform : exists m d f fs, transform ex_sizes (pure_op sum) put ex_mem (0, 1) (0, 4) (0, 1) [(1, 0)] = Some (m, d, f, fs) /\
  map (m 0) [0; 1; 2; 3] = [10; 11 + 20; 12 + 21; 13 + 22].
Proof. do 4 eexists. split; vm_compute; reflexivity. Qed.
Example C30_ex_butlast : for_each_butlastn ex_sizes (log_op 7) false [] (0, 0) (0, 4) 2 [] = for_each_butlastn ex_sizes (log_op 7) true [] (0, 0) (0, 4) 2 [] /\
  for_each_butlastn ex_sizes (log_op 7) true [] (0, 0) (0, 4) 2 [] = Some ([(7, [(0, 0)]); (7, [(0, 1)])], (0, 2), []) /\
  for_each_butlastn ex_sizes (log_op 7) true [] (0, 0) (0, 4) (-1) [] = None.
Proof. vm_compute. auto. Qed.
Example C30_ex_imf : initial_medial_final ex_sizes (log_op 1) (log_op 2) (log_op 3) false [] (0, 0) (0, 4)
  = Some [(1, [(0, 0)]); (2, [(0, 1)]); (2, [(0, 2)]); (3, [(0, 3)])].
Proof. vm_compute. reflexivity. Qed.
Example C31_ex : transform_reduce ex_sizes (pure_op sum) (fun m t b => (m, 2 * t + b)) ex_mem (0, 1) (0, 4) 1 [(1, 0)]
  = Some (ex_mem, 2 * (2 * (2 * 1 + 31) + 33) + 35).
Proof. vm_compute. reflexivity. Qed.
Open Scope Z_scope.
Example C47_ex : good_type 32 (Ity 8 true) /\ value (Ity 8 true) (-128) /\ incs 32 (Ity 8 true) 255 (-128) = Some 127 /\
  diff 32 (Ity 8 true) 127 (-128) = Some 255 /\ diff 32 (Ity 32 false) 3 5 = Some (2 ^ 32 - 2) /\
  visit 32 (Ity 32 true) 4 (-2) 2 = Some [-2; -1; 0; 1] /\ diff 32 (Ity 32 true) 0 (- 2 ^ 31) = None.
Proof. repeat split; vm_compute; first [reflexivity|discriminate|congruence|tauto]. Qed.
