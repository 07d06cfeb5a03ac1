(** C95 A function given to an algorithm that throws. *)
From Verif Require Import Base BaseLemmas AlgorithmModel AlgorithmSpec AlgThrowModel AlgThrowSpec AlgThrowProofs.
From Verif Require TupleModel TupleProofs.

(** ** Ranges
    For any world and functions acting on it, any of which may throw. *)
Theorem C95_for_each : forall W B size_of (op : W -> list iter -> W * option B) n w first firsts,
  available size_of n (first :: firsts) ->
  stops (each op (first :: firsts)) n w (fun w => w) (fun w => (w, map (shift n) firsts)) (for_each size_of op w first (shift n first) firsts).
Proof. intros. apply go_stops. now apply for_each_ok. Qed.
Print Assumptions C95_for_each.
Theorem C95_for_each_n : forall W B size_of (op : W -> list iter -> W * option B) n w first firsts,
  available size_of (Z.to_nat n) (first :: firsts) ->
  stops (each op (first :: firsts)) (Z.to_nat n) w (fun w => w) (fun w => (w, (shift (Z.to_nat n) first, map (shift (Z.to_nat n)) firsts)))
    (for_each_n size_of op w first n firsts).
Proof. intros. apply go_stops. now apply for_each_n_ok. Qed.
Print Assumptions C95_for_each_n.
(** The results stored before are there; the destination of the call that throws and those after
    are as they were. *)
Theorem C95_transform : forall W B size_of (op : W -> list iter -> W * option B) store n w d first firsts,
  available size_of n (d :: first :: firsts) ->
  stops (each_stored op store (first :: firsts) d) n w (fun w => w) (fun w => (w, (shift n d, shift n first, map (shift n) firsts)))
    (transform size_of op store w first (shift n first) d firsts).
Proof. intros. apply go_stops. now apply transform_ok. Qed.
Print Assumptions C95_transform.
Theorem C95_transform_n : forall W B size_of (op : W -> list iter -> W * option B) store n w d first firsts,
  available size_of (Z.to_nat n) (d :: first :: firsts) ->
  stops (each_stored op store (first :: firsts) d) (Z.to_nat n) w (fun w => w)
    (fun w => (w, (shift (Z.to_nat n) d, shift (Z.to_nat n) first, map (shift (Z.to_nat n)) firsts)))
    (transform_n size_of op store w first n d firsts).
Proof. intros. apply go_stops. now apply transform_n_ok. Qed.
Print Assumptions C95_transform_n.
Theorem C95_butlastn : forall W B size_of (op : W -> list iter -> W * option B) random n m w first firsts,
  (snd first + N.of_nat n <= size_of (fst first))%N -> (Z.of_nat n < 2 ^ 63)%Z -> (0 <= m < 2 ^ 63)%Z ->
  let q := n - Z.to_nat m in
  available size_of q firsts ->
  stops (each op (first :: firsts)) q w (fun w => w) (fun w => (w, (shift q first, map (shift q) firsts)))
    (for_each_butlastn size_of op random w first (shift n first) m firsts).
Proof. intros. apply go_stops. now apply butlastn_ok. Qed.
Print Assumptions C95_butlastn.
Theorem C95_initial_medial_final : forall W size_of (iop mop fop : W -> list iter -> W * option unit) random n w first,
  (snd first + N.of_nat n <= size_of (fst first))%N -> (Z.of_nat n < 2 ^ 63)%Z ->
  stops (initial_or_final iop mop fop first n) n w (fun w => w) (fun w => (w, tt))
    (initial_medial_final size_of iop mop fop random w first (shift n first)).
Proof. intros. apply go_stops. now apply initial_medial_final_ok. Qed.
Print Assumptions C95_initial_medial_final.
Theorem C95_transform_reduce : forall W B T size_of (top : W -> list iter -> W * option B) (rop : W -> T -> B -> W * option T) n w t first firsts,
  available size_of n (first :: firsts) ->
  stops (each_reduced top rop (first :: firsts)) n (w, t) fst (fun s => s) (transform_reduce size_of top rop w first (shift n first) t firsts) /\
  stops (each_reduced top rop (first :: firsts)) n (w, t) fst (fun s => s) (transform_reduce_n size_of top rop w first (Z.of_nat n) t firsts).
Proof. intros. split; apply go_stops; [now apply transform_reduce_ok|now apply transform_reduce_n_ok]. Qed.
Print Assumptions C95_transform_reduce.

(** ** Tuples and packs *)
Theorem C95_tuple_for_each : forall W E R (op : W -> list E -> W * option R) w ts n, shortest ts n ->
  stops (on_row op (row ts)) n w (fun w => w) (fun w => (w, tt)) (tuple_for_each op w ts).
Proof. intros. unfold tuple_for_each. rewrite (pack_rows ts n) by assumption. apply comma_stops. Qed.
Print Assumptions C95_tuple_for_each.
Theorem C95_tuple_enumerate : forall W E R (op : W -> nat -> list E -> W * option R) w ts n, shortest ts n ->
  stops (on_row (fun w ir => op w (fst ir) (snd ir)) (fun i => (i, row ts i))) n w (fun w => w) (fun w => (w, tt)) (tuple_enumerate op w ts).
Proof. intros. rewrite (enumerate_ok op w ts n) by assumption. apply comma_stops. Qed.
Print Assumptions C95_tuple_enumerate.
Theorem C95_for_each_n_args : forall W E R (op : W -> list E -> W * option R) n arity w args,
  let c := if n =? 0 then arity else n in
  (forall m, c > 0 -> length args = m * c ->
    stops (on_row op (batch c args)) m w (fun w => w) (fun w => (w, tt)) (for_each_n_args op n arity w args)) /\
  (c = 0 \/ (forall m, length args <> m * c) -> for_each_n_args op n arity w args = None).
Proof.
  intros W E R op n arity w args c. split.
  - intros m Hc Hm. rewrite (for_each_n_args_ok op n arity w args c m) by (reflexivity || assumption). apply comma_stops.
  - intros H. unfold for_each_n_args. fold c. destruct (Nat.eqb_spec c 0); [reflexivity|]. destruct (Nat.eqb_spec (length args mod c) 0) as [E0|_]; [|reflexivity].
    destruct H as [H|H]; [contradiction|]. exfalso. apply (H (length args / c)). rewrite Nat.mul_comm. rewrite (Nat.div_mod (length args) c) at 1 by assumption. lia.
Qed.
Print Assumptions C95_for_each_n_args.
(** Where the results are kept, those there are are destroyed, the last one first. *)
Theorem C95_tuple_transform : forall W E R (op : W -> list E -> W * option R) drop w ts n, shortest ts n ->
  stops (keeping op (row ts)) n (w, []) (destroyed drop) kept (tuple_transform op drop w ts).
Proof. intros. unfold tuple_transform. rewrite (pack_rows ts n) by assumption. apply braces_stops. Qed.
Print Assumptions C95_tuple_transform.
Theorem C95_make_array : forall W I R (f : W -> I -> W * option R) drop w (is : nat -> I) n,
  stops (keeping f is) n (w, []) (destroyed drop) kept (Some (make_array f drop w (map is (seq 0 n)))).
Proof. intros. apply braces_stops. Qed.
Print Assumptions C95_make_array.
Theorem C95_template_for_each : forall W I R (f : W -> I -> W * option R) w (l : nat -> I) n,
  stops (on_row f l) n w (fun w => w) (fun w => (w, tt)) (Some (template_for_each f w (map l (seq 0 n)))).
Proof. intros. apply comma_stops. Qed.
Print Assumptions C95_template_for_each.
Theorem C95_tuple_predicates : forall W E (f : W -> list E -> W * option bool) w ts n, shortest ts n ->
  searches f (row ts) false n w (tuple_all_of f w ts) /\ searches f (row ts) true n w (tuple_any_of f w ts) /\
  searches f (row ts) true n w (option_map (fun r => (fst r, match snd r with Returned b => Returned (negb b) | Threw => Threw end)) (tuple_none_of f w ts)).
Proof.
  intros W E f w ts n H. unfold tuple_none_of, tuple_all_of, tuple_any_of. rewrite (pack_rows ts n H). split; [apply until_searches|].
  split; [apply until_searches|]. pose proof (until_searches f true (row ts) n w) as Hs.
  match goal with |- searches _ _ _ _ _ ?x => replace x with (Some (until_fold true f w (map (row ts) (seq 0 n)))) end; [exact Hs|].
  destruct (until_fold true f w (map (row ts) (seq 0 n))) as [w' [b|]]; cbn; [now rewrite Bool.negb_involutive|reflexivity].
Qed.
Print Assumptions C95_tuple_predicates.
(** The elements are combined from the left, or from the right. *)
Theorem C95_tuple_folds : forall W V (op : W -> V -> V -> W * option V) w d init t,
  stops (combining op (fun i => nth i t d)) (length t) (w, init) fst (fun s => s) (tuple_fold_left op w t init) /\
  stops (combining (fun w a x => op w x a) (fun i => nth i (rev t) d)) (length t) (w, init) fst (fun s => s) (tuple_fold_right op w t init) /\
  stops (combining op (fun i => nth i t d)) (length t) (w, init) fst (fun s => s) (tuple_join op w (init :: t)).
Proof.
  intros W V op w d init t. unfold tuple_fold_left, tuple_fold_right, tuple_join. rewrite !TupleProofs.pack_get.
  split; [|split]; apply go_stops; [now rewrite (fold_l_ok op d)| |now rewrite (fold_l_ok op d)].
  rewrite fold_r_l. rewrite (fold_l_ok _ d), rev_length. reflexivity.
Qed.
Print Assumptions C95_tuple_folds.

(** A function that throws at its third call: two calls have been made and the third begun. *)
Definition third (w : list nat) (x : list nat) : list nat * option nat := (w ++ x, if length w <? 2 then Some (hd 0 x) else None).
Definition noted (w : list nat) (r : nat) : list nat := w ++ [100 + r].
Example C95_example :
  tuple_transform third noted [] [[1; 2; 3; 4]] = Some ([1; 2; 3; 102; 101], Threw) /\
  tuple_transform third noted [] [[1; 2]] = Some ([1; 2], Returned [1; 2]) /\
  tuple_for_each third [] [[1; 2; 3; 4]] = Some ([1; 2; 3], Threw) /\
  shortest [[1; 2; 3; 4]] 4.
Proof. repeat split; repeat constructor. Qed.
Example C95_range_example :
  let op (w : list (list iter)) x := (w ++ [x], if length w <? 2 then Some tt else None) in
  available (fun _ => 5%N) 4 [(0, 1)%N; (1, 0)%N] /\
  option_map (fun r => (length (fst r), snd r)) (for_each (fun _ => 5%N) op [] (0, 1)%N (shift 4 (0, 1)%N) [(1, 0)%N]) = Some (3, Threw) /\
  option_map (fun r => (length (fst r), snd r)) (for_each (fun _ => 5%N) op [] (0, 1)%N (shift 2 (0, 1)%N) [(1, 0)%N]) = Some (2, Returned [(1, 2)%N]).
Proof. repeat split; try (repeat constructor; cbn; lia). Qed.
