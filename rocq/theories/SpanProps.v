(** C28 span and C29 sized. *)
From Verif Require Import Base BaseLemmas BitModel SpanModel SpanSpec SpanProofs SpanProofs2.
Open Scope N_scope.

(** ** C28: span *)
(** Any program forming spans from an array and from one another and reading or writing
    through them behaves as windows onto that array. *)
Theorem C28_windows : forall A ops (st : sstate A), good_sstate st -> conforms sstep spre sspec st (view st) ops.
Proof. intros A. exact sstep_conforms. Qed.
Print Assumptions C28_windows.

(** Any chain of first, last and subspan, static or dynamic, within bounds shows what the same
    chain of list operations gives, and stays within the array. *)
Theorem C28_narrowing : forall A (l : list A) ks s,
  len l < dyn -> good_window (len l) (window_of s) -> fits_all ks (shown l (window_of s)) ->
  exists s', narrow_all (len l) ks s = Formed s' /\ good_window (len l) (window_of s') /\
             shown l (window_of s') = narrow_lists ks (shown l (window_of s)).
Proof. intros A l ks s. exact (narrow_chain l ks s). Qed.
Print Assumptions C28_narrowing.

(** Narrowing a span of static extent with static arguments compiles exactly when it is
    within bounds. *)
Theorem C28_static_checked : forall n k s, n < dyn -> good_window n (window_of s) -> ext s <> dyn ->
  (fits true k (size s) -> exists s', narrow_model true n k s = Formed s') /\
  (~ fits true k (size s) -> narrow_model true n k s = Rejected).
Proof. exact static_checked. Qed.
Print Assumptions C28_static_checked.

(** A subspan of a subspan is a subspan. *)
Theorem C28_subspan_compose : forall n o1 c1 o2 c2 s,
  n < dyn -> good_window n (window_of s) -> o1 <= size s -> o2 <= N.min c1 (size s - o1) ->
  exists s1 s2, subspan_d n o1 c1 s = Formed s1 /\ subspan_d n o2 c2 s1 = Formed s2 /\
    subspan_d n (o1 + o2) (N.min c2 (c1 - o2)) s = Formed s2.
Proof. exact subspan_compose. Qed.
Print Assumptions C28_subspan_compose.

(** as_bytes shows the object representations of the elements shown, in order. *)
Theorem C28_as_bytes : forall A (r : A -> list N) k (l : list A) s,
  (forall x, len (r x) = k) -> len (concat (map r l)) < dyn -> good_window (len l) (window_of s) ->
  shown (concat (map r l)) (window_of (as_bytes k s)) = concat (map r (shown l (window_of s))) /\
  good_window (len (concat (map r l))) (window_of (as_bytes k s)) /\
  (fixed (window_of (as_bytes k s)) = None <-> fixed (window_of s) = None).
Proof. intros A. exact as_bytes_ok. Qed.
Print Assumptions C28_as_bytes.

(** Converting to a larger static extent is accepted, also from a static extent, and the
    result reaches beyond the array when the source reaches its end. *)
Theorem C28_static_conversion_unchecked_refuted : forall n s e, e <> dyn -> size s < e ->
  exists s', convert e s = Formed s' /\ size s' = e /\ (ptr s + size s = n -> ~ good_window n (window_of s')).
Proof. exact static_conversion. Qed.
Print Assumptions C28_static_conversion_unchecked_refuted.

(** A span made from nothing, of dynamic extent or extent 0, is empty, and all of C28_windows holds for programs with it. *)
Theorem C28_default : forall A e ops, e = 0 \/ e = dyn -> let st := SState (@nil A) [of_nothing e] in
  size (of_nothing e) = 0 /\ empty (of_nothing e) = true /\ conforms sstep spre sspec st (view st) ops.
Proof.
  intros A e ops H st.
  assert (E : size (of_nothing e) = 0 /\ empty (of_nothing e) = true).
  { unfold size, empty, of_nothing. cbn [ext stored]. destruct (N.eqb_spec e dyn); [split; reflexivity|]. destruct H as [->|H]; [split; reflexivity|contradiction]. }
  split; [apply E|]. split; [apply E|]. apply C28_windows. split; [vm_compute; reflexivity|]. constructor; [|constructor]. cbn [arr].
  unfold good_window, window_of, static_of. cbn [off cnt fixed]. rewrite (proj1 E). split; [vm_compute; discriminate|]. cbn [of_nothing ext].
  destruct (N.eqb_spec e dyn); [exact I|]. destruct H as [->|H]; [reflexivity|contradiction].
Qed.
Print Assumptions C28_default.
(** FINDING: with any other extent that compiles too, where std::span has no such constructor: the span says that it has as
    many elements, there are none, and whatever looks at one is undefined. *)
Theorem C28_default_refuted : forall A e i, 0 < e -> e <> dyn -> let st := SState (@nil A) [of_nothing e] in
  size (of_nothing e) = e /\ empty (of_nothing e) = false /\
  sstep st (SAt 0 i) = Undef /\ sstep st (SFront 0) = Undef /\ sstep st (SBack 0) = Undef /\ sstep st (SAll 0) = Undef /\ sstep st (SRev 0) = Undef.
Proof.
  intros A e i H D st.
  assert (S : size (of_nothing e) = e) by (unfold size, of_nothing; cbn [ext]; destruct (N.eqb_spec e dyn); [contradiction|reflexivity]).
  assert (P : padd 0 0 e = None) by (unfold padd; rewrite N.add_0_l; destruct (N.leb_spec e 0); [lia|reflexivity]).
  split; [exact S|]. split; [unfold empty, of_nothing; cbn [ext]; destruct (N.eqb_spec e dyn); [contradiction|]; apply N.eqb_neq; lia|].
  unfold st, sstep. cbn [spans arr]. change (rd [of_nothing e] 0) with (Some (of_nothing e)). cbv beta iota. rewrite S. change (len (@nil A)) with 0.
  change (ptr (of_nothing e)) with 0. rewrite P. split; [|repeat split; reflexivity]. rewrite rd_ge_None; [reflexivity|]. change (len (@nil A)) with 0. lia.
Qed.
Print Assumptions C28_default_refuted.

(** ** C29: sized *)
(** Whenever T is not larger than U, or its size is a multiple of U's (in particular for all
    power-of-two sizes), and the byte count fits std::size_t. *)
Theorem C29_sized_partial : forall st su sz, 0 < st -> 0 < su -> st <= su \/ st mod su = 0 -> sz * st + su < size_mod ->
  least_count st su sz (sized_in st su sz).
Proof. exact sized_ok. Qed.
Print Assumptions C29_sized_partial.

(** In the remaining case the result is the least count when the bytes do not divide evenly,
    and one too many whenever they do. *)
Theorem C29_sized_other_refuted : forall st su sz, 0 < su -> su < st -> st mod su <> 0 -> sz * st + su < size_mod ->
  (sz * st mod su <> 0 -> least_count st su sz (sized_in st su sz)) /\
  (sz * st mod su = 0 -> least_count st su sz (sized_in st su sz - 1) /\ 0 < sized_in st su sz).
Proof. exact sized_over. Qed.
Print Assumptions C29_sized_other_refuted.

(** is_aligned_with<T>(v) tells whether v is a multiple of T's alignment. *)
Theorem C29_is_aligned_with : forall aw k v, k <= aw -> (is_aligned_with aw (2 ^ k) v = true <-> v mod 2 ^ k = 0).
Proof. exact aligned_ok. Qed.
Print Assumptions C29_is_aligned_with.

(** ** The hypotheses are met *)
Definition ex_span := Span 1 dyn 5.
Definition ex_st : sstate N := SState [10; 11; 12; 13; 14; 15; 16] [ex_span; ex_span; ex_span].
Example C28_ex_good : good_sstate ex_st.
Proof. split; [vm_compute; reflexivity|]. repeat constructor; vm_compute; discriminate. Qed.
Example C28_ex_run : run sstep ex_st [SSubS 1 0 1 3; SAll 1; SLast 2 1 2; SPut 2 0 99; SRev 0; SSub 2 1 1 100; SAll 2; SBack 2; SSubS 2 1 3 1]
  = Stopped (SState [10; 11; 12; 99; 14; 15; 16] [ex_span; Span 2 3 0; Span 3 dyn 2]) tt.
Proof. vm_compute. reflexivity. Qed.
Example C28_ex_run2 : run sstep ex_st [SSubS 1 0 1 3; SAll 1; SLast 2 1 2; SPut 2 0 99; SRev 0; SSub 2 1 1 100; SAll 2; SBack 2]
  = Done (SState [10; 11; 12; 99; 14; 15; 16] [ex_span; Span 2 3 0; Span 3 dyn 2])
         [SUnit; SList [12; 13; 14]; SUnit; SUnit; SList [15; 14; 99; 12; 11]; SUnit; SList [99; 14]; SVal 14] [].
Proof. vm_compute. reflexivity. Qed.
Example C28_ex_fits : fits_all [(true, NSub 1 4); (false, NLast 3); (true, NFirst 2)] (shown [10; 11; 12; 13; 14; 15; 16] (window_of ex_span)).
Proof. vm_compute. repeat split; try discriminate. right. discriminate. Qed.
Example C28_ex_convert : convert 9 (Span 1 5 0) = Formed (Span 1 9 0).
Proof. reflexivity. Qed.
Example C29_ex : sized_in 1 4 5 = 2 /\ sized_in 8 4 5 = 10 /\ sized_in 3 2 2 = 4 /\ 2 * 3 = 3 * 2 /\ sized_in 3 2 0 = 1.
Proof. vm_compute. auto. Qed.
