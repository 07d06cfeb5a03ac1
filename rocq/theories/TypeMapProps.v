(** C48 type_map. *)
From Verif Require Import Base BaseLemmas TupleSpec TypeMapModel TypeMapProofs.

Theorem C48_lookup : forall K V same_k same_v (m : list (K * V)) k v d, decides same_k -> decides same_v ->
  NoDup (map fst m) -> In (k, v) m -> lookup same_k same_v m k d = Some v.
Proof. intros K V same_k same_v m k v d Dk Dv. apply lookup_found; assumption. Qed.
Print Assumptions C48_lookup.
(** Whatever the other keys are, as long as the map is one (no pair twice). *)
Theorem C48_missing : forall K V same_k same_v (m : list (K * V)) k d, decides same_k -> decides same_v ->
  NoDup m -> ~ In k (map fst m) -> lookup same_k same_v m k d = Some d.
Proof. intros K V same_k same_v m k d Dk Dv. apply lookup_missing; assumption. Qed.
Print Assumptions C48_missing.
Theorem C48_reverse : forall K V same_k same_v (m : list (K * V)) k v d, decides same_k -> decides same_v ->
  (NoDup (map snd m) -> In (k, v) m -> reverse_lookup same_k same_v m v d = Some k) /\
  (NoDup m -> ~ In v (map snd m) -> reverse_lookup same_k same_v m v d = Some d).
Proof. intros K V same_k same_v m k v d Dk Dv. split; [apply reverse_found; assumption|apply reverse_missing; assumption]. Qed.
Print Assumptions C48_reverse.
(** Looking up a value: the pair's, or the default when there is none or its value is void. *)
Theorem C48_value : forall K V X same_k same_v void (value_of : V -> option X) (m : list (K * V)) k v d,
  decides same_k -> decides same_v ->
  (NoDup (map fst m) -> In (k, v) m -> v <> void -> lookup_v same_k same_v void value_of m k d = value_of v) /\
  (NoDup (map fst m) -> In (k, void) m -> lookup_v same_k same_v void value_of m k d = Some d) /\
  (NoDup m -> ~ In k (map fst m) -> lookup_v same_k same_v void value_of m k d = Some d).
Proof. intros K V X same_k same_v void value_of m k v d Dk Dv. apply lookup_v_ok; assumption. Qed.
Print Assumptions C48_value.
(** A key with two values compiles but looks up as if it were absent. *)
Theorem C48_two_values : forall K V same_k same_v (m : list (K * V)) k v1 v2 d, decides same_k -> decides same_v ->
  NoDup m -> In (k, v1) m -> In (k, v2) m -> v1 <> v2 -> lookup same_k same_v m k d = Some d.
Proof. intros K V same_k same_v m k v1 v2 d Dk Dv. apply lookup_two; assumption. Qed.
Print Assumptions C48_two_values.
(** A repeated pair does not compile. *)
Theorem C48_repeated : forall K V same_k same_v (m : list (K * V)) k d, decides same_k -> decides same_v ->
  ~ NoDup m -> lookup same_k same_v m k d = None.
Proof. intros K V same_k same_v m k d Dk Dv. apply lookup_repeated; assumption. Qed.
Print Assumptions C48_repeated.
Example C48_example : lookup Nat.eqb Nat.eqb [(1, 10); (2, 20)] 2 0 = Some 20 /\ lookup Nat.eqb Nat.eqb [(1, 10); (2, 20)] 3 0 = Some 0 /\
  reverse_lookup Nat.eqb Nat.eqb [(1, 10); (2, 20)] 10 0 = Some 1 /\ lookup Nat.eqb Nat.eqb [(1, 10); (1, 20)] 1 0 = Some 0 /\
  lookup Nat.eqb Nat.eqb [(1, 10); (1, 10)] 1 0 = None /\ NoDup (map fst [(1, 10); (2, 20)]).
Proof. repeat split. repeat constructor; cbn; lia. Qed.
