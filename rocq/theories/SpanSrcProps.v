(** Property C134: spans over other element types and over ranges that are not contiguous. *)
From Coq Require Import List ZArith Bool Lia.
From Verif Require Import SpanSrcModel SpanSrcSpec.
Import ListNotations.
Open Scope Z_scope.

Lemma contiguous_at L s : contiguous L s -> forall i a b, nth_error (addresses s) 0 = Some a -> nth_error (addresses s) i = Some b ->
  b = a + Z.of_nat i * size_of L (elem s).
Proof.
  intros C i. induction i as [|i IH]; intros a b A B; [rewrite A in B; injection B as <-; lia|].
  destruct (nth_error (addresses s) i) as [c|] eqn:E.
  - rewrite (C i c b E B), (IH a c A eq_refl). lia.
  - exfalso. apply nth_error_None in E. assert (nth_error (addresses s) (S i) = None) as X by (apply nth_error_None; lia). congruence.
Qed.
Lemma construct_inv L implicit t tc s p : construct L implicit t tc s = Some p ->
  exists o a l, constructor_found implicit t tc s = true /\ implb (elem_const s) tc = true /\ subobject L (elem s) t = Some o /\
  addresses s = a :: l /\ p = Span t (a + o) (length (addresses s)).
Proof.
  unfold construct, pointer_converts. destruct (constructor_found implicit t tc s); [|discriminate].
  destruct (implb (elem_const s) tc); [|discriminate].
  destruct (subobject L (elem s) t) as [o|]; [|discriminate]. destruct (addresses s) as [|a l]; [discriminate|].
  intros E. injection E as <-. exists o, a, l. tauto.
Qed.

(** From elements of the same type, up to const, that lie one behind the other: such a span has exactly
    these elements, and its bytes are theirs; and pointers, arrays and spans are accepted, without a cast, if const is
    not dropped. *)
Theorem C134_same_type_partial :
  forall L t tc s, elem s = t -> contiguous L s ->
  (forall implicit p, construct L implicit t tc s = Some p ->
     same_elements L s p /\ size_bytes L p = Z.of_nat (length (addresses s)) * size_of L (elem s)) /\
  (built_in (of_kind s) -> addresses s <> [] -> forall implicit,
     (exists p, construct L implicit t tc s = Some p) <-> (elem_const s = true -> tc = true)).
Proof.
  intros L t tc s T C. split.
  - intros implicit p E. destruct (construct_inv _ _ _ _ _ _ E) as (o & a & l & _ & _ & O & A & ->).
    split; [split; [reflexivity|]; exists o; split; [exact O|]|cbn; now rewrite T].
    intros i b B. unfold at_index. cbn. rewrite (contiguous_at L s C i a b); [rewrite T; lia| |exact B]. now rewrite A.
  - intros K N implicit. split.
    + intros [p E]. destruct (construct_inv _ _ _ _ _ _ E) as (o & a & l & _ & I & _). destruct (elem_const s), tc; cbn in I; congruence.
    + intros I. unfold construct, pointer_converts, constructor_found, subobject. rewrite T, PeanoNat.Nat.eqb_refl.
      assert (implb (elem_const s) tc = true) as J by (destruct (elem_const s), tc; cbn; auto; symmetry; auto).
      rewrite J. destruct (addresses s) as [|a l]; [congruence|].
      destruct (of_kind s) as [| | | |b]; cbn; eauto. exfalso. exact (K b eq_refl).
Qed.
Print Assumptions C134_same_type_partial.

Example C134_same_type_nonvacuous :
  let L := Layout (fun _ => 4) (fun _ _ => None) in
  let s := Source CArray 0 false [100; 104; 108] in
  contiguous L s /\ construct L true 0 true s = Some (Span 0 100 3) /\ at_index L (Span 0 100 3) 2 = 108.
Proof.
  split; [|repeat split].
  intros i a b A B. destruct i as [|[|[|i]]]; cbn in A, B; inversion A; inversion B; subst; cbn; lia.
Qed.

(** In general: the elements of a span are those of the source exactly if these are as far from each other as
    the size of the span's element type. *)
Theorem C134_exactly :
  forall L implicit t tc s p a, construct L implicit t tc s = Some p -> nth_error (addresses s) 0 = Some a ->
  (same_elements L s p <-> forall i b, nth_error (addresses s) i = Some b -> b = a + Z.of_nat i * size_of L t).
Proof.
  intros L implicit t tc s p a E A. destruct (construct_inv _ _ _ _ _ _ E) as (o & a' & l & _ & _ & O & AA & ->).
  assert (a' = a) as -> by (rewrite AA in A; cbn in A; congruence).
  split.
  - intros (_ & o' & O' & H) i b B. cbn in O'. specialize (H i b B). unfold at_index in H. cbn in H.
    rewrite O in O'. injection O' as <-. lia.
  - intros H. split; [reflexivity|]. exists o. split; [exact O|]. intros i b B. unfold at_index. cbn. rewrite (H i b B). lia.
Qed.
Print Assumptions C134_exactly.

(** FINDING: an array, std::array or span of objects of a class is accepted for a span of a base class,
    std::array and span even without a cast, and unless the classes have the same size no element but the
    first is the right one. The span has fewer bytes than the array. *)
Theorem C134_base_refuted :
  forall L t tc s o a b l, base_at L (elem s) t = Some o -> elem s <> t -> 0 < size_of L t < size_of L (elem s) ->
  built_in (of_kind s) -> (elem_const s = true -> tc = true) -> contiguous L s -> addresses s = a :: b :: l ->
  exists p, construct L false t tc s = Some p /\ (of_kind s <> CArray -> construct L true t tc s = Some p) /\
  size p = length (addresses s) /\ at_index L p 0 = a + o /\
  (forall i c, nth_error (addresses s) (S i) = Some c -> at_index L p (S i) <> c + o) /\
  size_bytes L p < Z.of_nat (length (addresses s)) * size_of L (elem s).
Proof.
  intros L t tc s o a b l B D Z K I C A. exists (Span t (a + o) (length (addresses s))).
  assert (implb (elem_const s) tc = true) as J by (destruct (elem_const s), tc; cbn; auto; symmetry; auto).
  assert (subobject L (elem s) t = Some o) as O by (unfold subobject; destruct (Nat.eqb_spec (elem s) t); [contradiction|exact B]).
  assert (forall implicit, constructor_found implicit t tc s = true -> construct L implicit t tc s = Some (Span t (a + o) (length (addresses s)))) as G.
  { intros implicit F. unfold construct, pointer_converts. rewrite F, J, O, A. reflexivity. }
  split; [|split; [|split; [|split; [|split]]]].
  - apply G. unfold constructor_found. destruct (of_kind s) as [| | | |x] eqn:E; try reflexivity; [apply orb_true_r|exfalso; exact (K x eq_refl)].
  - intros N. apply G. unfold constructor_found. destruct (of_kind s) as [| | | |x] eqn:E; try reflexivity; [congruence|exfalso; exact (K x eq_refl)].
  - reflexivity.
  - unfold at_index. cbn. lia.
  - intros i c E. rewrite (contiguous_at L s C (S i) a c); [|now rewrite A|exact E]. unfold at_index. cbn [ptr span_elem]. nia.
  - unfold size_bytes. cbn [size span_elem]. rewrite A. cbn [length]. nia.
Qed.
Print Assumptions C134_base_refuted.

Example C134_base_nonvacuous :
  let L := Layout (fun t => match t with O => 8 | _ => 4 end) (fun d b => match d, b with O, S O => Some 0 | _, _ => None end) in
  let s := Source StdArray 0 false [100; 108; 116] in
  contiguous L s /\ construct L true 1 false s = Some (Span 1 100 3) /\ at_index L (Span 1 100 3) 1 = 104 /\ size_bytes L (Span 1 100 3) = 12.
Proof.
  split; [|repeat split].
  intros i a b A B. destruct i as [|[|[|i]]]; cbn in A, B; inversion A; inversion B; subst; cbn; lia.
Qed.

(** FINDING: any range whose iterators have operator-> is accepted for a span, std::list, std::deque and
    intrusive_list included, contiguous or not; if the second element is not right behind the first, then
    the second element of the span is another object or none. *)
Theorem C134_range_refuted :
  forall L tc s a b l, of_kind s = Range true -> (elem_const s = true -> tc = true) -> addresses s = a :: b :: l -> b <> a + size_of L (elem s) ->
  exists p, construct L false (elem s) tc s = Some p /\ size p = length (addresses s) /\ at_index L p 1 <> b /\ ~ same_elements L s p.
Proof.
  intros L tc s a b l K I A D. exists (Span (elem s) (a + 0) (length (addresses s))).
  assert (implb (elem_const s) tc = true) as J by (destruct (elem_const s), tc; cbn; auto; symmetry; auto).
  assert (construct L false (elem s) tc s = Some (Span (elem s) (a + 0) (length (addresses s)))) as G.
  { unfold construct, constructor_found, pointer_converts, subobject. rewrite K, J, PeanoNat.Nat.eqb_refl, A. reflexivity. }
  split; [exact G|]. split; [reflexivity|]. split; [unfold at_index; cbn [ptr span_elem]; lia|].
  intros H. apply (C134_exactly L false (elem s) tc s _ a G) with (i := 1%nat) (b := b) in H; [lia|now rewrite A|now rewrite A].
Qed.
Print Assumptions C134_range_refuted.

Example C134_range_nonvacuous :
  let L := Layout (fun _ => 4) (fun _ _ => None) in
  let s := Source (Range true) 0 false [100; 200; 132] in
  construct L false 0 false s = Some (Span 0 100 3) /\ at_index L (Span 0 100 3) 1 = 104 /\ construct L true 0 false s = None.
Proof. repeat split. Qed.
