(** Proofs about loops over the containers. *)
From Verif Require Import Base BaseLemmas CxVectorModel CxVectorSpec CxVectorProofs WalkModel WalkSpec.
Open Scope N_scope.

Lemma rd_mid {A} (a b : list A) x : rd (a ++ x :: b) (len a) = Some x.
Proof.
  unfold rd, len. rewrite app_length. cbn [length].
  rewrite ?Nat2N.id, nth_error_app2, Nat.sub_diag by lia.
  try (destruct (N.ltb_spec (N.of_nat (length a)) (N.of_nat (length a + S (length b)))) as [L|L]; [|lia]).
  reflexivity.
Qed.
Lemma up_ok {A} (l : list A) : forall a b, up (a ++ l ++ b) (len a) (length l) = Some l.
Proof.
  induction l as [|x l IH]; intros a b; [reflexivity|].
  cbn [up length app]. rewrite rd_mid.
  specialize (IH (a ++ [x]) b). rewrite <- app_assoc in IH. cbn [app] in IH.
  replace (len a + 1) with (len (a ++ [x])) by (rewrite len_app; unfold len; cbn; lia).
  rewrite IH. reflexivity.
Qed.
Lemma down_ok {A} (l : list A) : forall a b, down (a ++ l ++ b) (len a + len l) (length l) = Some (rev l).
Proof.
  induction l as [|x l IH] using rev_ind; intros a b; [reflexivity|].
  rewrite app_length, Nat.add_1_r. cbn [down].
  replace (len a + len (l ++ [x])) with (len a + len l + 1) by (rewrite len_app; unfold len; cbn; lia).
  destruct (N.eqb_spec (len a + len l + 1) 0) as [E|_]; [lia|].
  replace (len a + len l + 1 - 1) with (len a + len l) by lia.
  rewrite <- app_assoc. cbn [app].
  replace (rd (a ++ l ++ x :: b) (len a + len l)) with (Some x)
    by (rewrite app_assoc, <- len_app; symmetry; apply rd_mid).
  rewrite IH, rev_app_distr. reflexivity.
Qed.

Lemma loop_up {A} (a l b : list A) c p q : p = len a -> q = len a + len l ->
  loop_over (a ++ l ++ b) (Iter (Pointer c) p) (Iter (Pointer c) q) = Some l.
Proof.
  intros -> ->. unfold loop_over. cbn [it_type pos]. rewrite Bool.eqb_reflx. cbn [andb].
  destruct (N.leb_spec (len a) (len a + len l)) as [_|L]; [|lia].
  replace (N.to_nat (len a + len l - len a)) with (length l) by (unfold len; lia). apply up_ok.
Qed.
Lemma loop_down {A} (a l b : list A) c p q : p = len a + len l -> q = len a ->
  loop_over (a ++ l ++ b) (Iter (Reverse c) p) (Iter (Reverse c) q) = Some (rev l).
Proof.
  intros -> ->. unfold loop_over. cbn [it_type pos]. rewrite Bool.eqb_reflx. cbn [andb].
  destruct (N.leb_spec (len a) (len a + len l)) as [_|L]; [|lia].
  replace (N.to_nat (len a + len l - len a)) with (length l) by (unfold len; lia). apply down_ok.
Qed.

Lemma vector_up {A} cap (v : vector A) l oc k : VRep cap v l -> forwards k = true ->
  walk (v_storage v) (cx_vector_access v oc) k = Some l.
Proof.
  intros (H1 & H2 & t & H3) F. rewrite H3.
  destruct k; try discriminate F; unfold walk, cx_vector_access, returns; cbn [first_of last_of it_type pos converts];
    unfold adds_const; destruct oc; cbn [implb]; cbn iota beta;
    apply (loop_up [] l t); rewrite ?H2; unfold len; cbn; lia.
Qed.
Lemma vector_made {A} cap (v : vector A) l oc : VRep cap v l ->
  walk_made (v_storage v) (cx_vector_access v oc) = Some (rev l).
Proof.
  intros (H1 & H2 & t & H3). rewrite H3.
  unfold walk_made, cx_vector_access, returns; cbn [it_type pos converts];
    unfold adds_const; destruct oc; cbn [implb]; cbn iota beta; unfold make_reverse; cbn [it_type pos]; cbn iota beta;
    apply (loop_down [] l t); rewrite ?H2; unfold len; cbn; lia.
Qed.
Lemma vector_none {A} (v : vector A) oc a : cx_vector_access v oc a = None <-> In a [RBegin; REnd; CRBegin; CREnd].
Proof.
  destruct a, oc; cbn; intuition (try discriminate).
Qed.

Lemma cx_vector_walks A cap (d : A) ts v ops l outs :
  cap < size_mod -> v_make cap d ts = Some v -> spec_run (vlist_step cap) ts ops = Some (l, outs) ->
  exists w, run (v_step cap) v ops = Done w outs [] /\
  (forall oc k, forwards k = true -> walk (v_storage w) (cx_vector_access w oc) k = Some (expected k l)) /\
  (forall oc, walk_made (v_storage w) (cx_vector_access w oc) = Some (rev l)).
Proof.
  intros C M R. destruct (v_run_ok cap ops v ts l outs C (v_make_rep _ _ _ _ M) R) as (w & E & V).
  exists w. split; [exact E|]. split; intros.
  - rewrite (vector_up cap w l) by assumption. destruct k; try discriminate; reflexivity.
  - apply (vector_made cap); assumption.
Qed.

Lemma span_walks A (before l after : list A) ec oc k :
  walk (before ++ l ++ after) (span_access (len before) (len l) ec oc) k = Some (expected k l).
Proof.
  destruct k; unfold walk, span_access, returns; cbn [first_of last_of it_type pos converts expected];
    unfold adds_const; destruct ec; cbn [implb]; cbn iota beta;
    (apply loop_up || apply loop_down); reflexivity.
Qed.

Lemma ct_string_walks (s : list N) oc k :
  walk (s ++ [0]) (ct_string_access (len s + 1) oc) k = Some (expected k s).
Proof.
  assert (L : len s + 1 - 1 = len s) by lia.
  destruct k; unfold walk, ct_string_access; cbn [first_of last_of expected];
    destruct (len s + 1) as [|p] eqn:P; try lia; rewrite L; cbn iota beta;
    (apply (loop_up [] s [0]) || apply (loop_down [] s [0])); unfold len; cbn; lia.
Qed.
