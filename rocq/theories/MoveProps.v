(** C72-C75 copies and moves. *)
From Verif Require Import Base BaseLemmas TupleModel TupleSpec TupleProofs TupleProofs3 CallByNeedModel CallByNeedSpec ArgsModel MoveModel MoveSpec MoveProofs MoveProofs2 MoveProofs3 MoveProofs4.
From Coq Require Import Permutation.

(** The elements of a tuple are different objects, so they meet the conditions below whatever the
    value category of the tuple. *)
Theorem C72_elements : forall T c (t : list (nat * T)), NoDup (map fst t) -> exclusive (elements c t) /\ unaliased (elements c t).
Proof. intros T c t H. split; [now apply exclusive_elements|now apply unaliased_elements]. Qed.
Print Assumptions C72_elements.

(** ** C72 algorithms that make tuples *)
Theorem C72_tuple_cat : forall V T (m : store V) (ts : list (list (ref T))), exclusive (concat ts) ->
  exists m', tuple_cat_m m ts = Some (m', values_of m (concat ts)) /\ left_behind m (concat ts) m'.
Proof. intros V T. exact tuple_cat_m_ok. Qed.
Print Assumptions C72_tuple_cat.
Theorem C72_cons_snoc_tail : forall V T (m : store V) (e : ref T) t, exclusive (e :: t) ->
  (exists m', tuple_cons_m m e t = Some (m', values_of m (e :: t)) /\ left_behind m (e :: t) m') /\
  (exists m', tuple_snoc_m m t e = Some (m', values_of m (t ++ [e])) /\ left_behind m (t ++ [e]) m') /\
  (exists m', tail_m m (e :: t) = Some (m', values_of m t) /\ left_behind m t m').
Proof.
  intros V T m e t X. split; [now apply cons_m_ok|]. split; [apply snoc_m_ok|apply tail_m_ok].
  - apply (exclusive_perm (e :: t)); [apply Permutation_cons_append|exact X].
  - now apply (exclusive_tail e).
Qed.
Print Assumptions C72_cons_snoc_tail.
Theorem C72_make_tuple : forall V T (m : store V) (t : list (ref T)), exclusive t ->
  exists m', make_tuple_m m t = Some (m', values_of m t) /\ left_behind m t m'.
Proof. intros V T. exact make_m_ok. Qed.
Print Assumptions C72_make_tuple.
(** The elements that are left out stay where they are. *)
Theorem C72_filter : forall V T pred (m : store V) (t : list (ref T)), exclusive t ->
  let s := List.filter (fun r => pred (of_type r)) t in
  exists m', filter_m pred m t = Some (m', values_of m s) /\ left_behind m s m'.
Proof. intros V T. exact filter_m_ok. Qed.
Print Assumptions C72_filter.
Theorem C72_to_unsorted_set : forall V T same (m : store V) (t : list (ref T)), decides same -> exclusive t ->
  let s := first_of_type same of_type t in
  exists m', to_unsorted_set_m same m t = Some (m', values_of m s) /\ left_behind m s m'.
Proof. intros V T. exact to_unsorted_m_ok. Qed.
Print Assumptions C72_to_unsorted_set.
Theorem C72_sort : forall V T (proj : T -> T) name std_sort (m : store V) (t : list (ref T)), sorts std_sort -> exclusive t ->
  exists s m', sort_m proj name std_sort m t = Some (m', values_of m s) /\
    Permutation t s /\ ordered (fun r => name (proj (of_type r))) s /\ left_behind m s m'.
Proof. intros V T. exact sort_m_ok. Qed.
Print Assumptions C72_sort.
Theorem C72_chunk_by : forall V T order same (proj : T -> T) (m : store V) (t : list (ref T)), any_order order -> decides same -> exclusive t ->
  exists cs m', chunk_by_m order same proj m t = Some (m', map (values_of m) cs) /\
    chunking (fun r => proj (of_type r)) t cs /\ left_behind m t m'.
Proof. intros V T order same proj m t Ho. exact (chunk_m_ok order Ho same proj m t). Qed.
Print Assumptions C72_chunk_by.
Theorem C72_gather_by : forall V T order same (proj : T -> T) name std_sort (m : store V) (t : list (ref T)),
  any_order order -> sorts std_sort -> decides same -> injective name -> exclusive t ->
  exists cs m', gather_by_m order same proj name std_sort m t = Some (m', map (values_of m) cs) /\
    grouping (fun r => proj (of_type r)) t cs /\
    (forall i j c d x y, i < j -> nth_error cs i = Some c -> nth_error cs j = Some d -> In x c -> In y d ->
       name_lt (name (proj (of_type x))) (name (proj (of_type y)))) /\
    left_behind m t m'.
Proof. intros V T order same proj name std_sort m t Ho. exact (gather_m_ok order Ho same proj name std_sort m t). Qed.
Print Assumptions C72_gather_by.
(** unique and to_sorted_set go through temporary tuples: of an rvalue also the elements that are
    left out are moved from. *)
Theorem C72_unique : forall V T order same (m : store V) (t : list (ref T)), any_order order -> decides same -> exclusive t ->
  exists cs s m', chunking of_type t cs /\ Forall2 (fun c e => nth_error c 0 = Some e) cs s /\
    unique_m order same m t = Some (m', values_of m s) /\ left_behind m t m'.
Proof.
  intros V T order same m t Ho D X. destruct (unique_m_ok order Ho same m t D X) as (cs & s & m' & H1 & H2 & H3 & H4 & _). exists cs, s, m'. auto.
Qed.
Print Assumptions C72_unique.
Theorem C72_to_sorted_set : forall V T order same name std_sort (m : store V) (t : list (ref T)),
  any_order order -> sorts std_sort -> decides same -> injective name -> exclusive t ->
  exists s m', to_sorted_set_m order same name std_sort m t = Some (m', values_of m s) /\
    strictly_ordered (fun r => name (of_type r)) s /\
    (forall r, In r s -> In r t) /\ (forall r, In r t -> exists r', In r' s /\ of_type r' = of_type r) /\ left_behind m t m'.
Proof. intros V T order same name std_sort m t Ho. exact (to_sorted_m_ok order Ho same name std_sort m t). Qed.
Print Assumptions C72_to_sorted_set.
(** Without rvalues everything is copied: any lvalues may be given, also one object twice. *)
Theorem C72_copies : forall V T (m m' : store V) (rs : list (ref T)), Forall (fun r => cat r <> Rvalue) rs ->
  exclusive rs /\ (left_behind m rs m' -> forall l, look m' l = look m l).
Proof.
  intros V T m m' rs F. rewrite Forall_forall in F. split; [intros r I H; now destruct (F r I)|].
  intros L l. apply (untouched _ _ _ L). intros (r & I & H & _). now apply (F r I).
Qed.
Print Assumptions C72_copies.
Definition left_to_right (n : nat) : list nat := seq 0 n.
Definition right_to_left (n : nat) : list nat := rev (seq 0 n).
Lemma left_to_right_ok : any_order left_to_right.
Proof. intros n. reflexivity. Qed.
Lemma right_to_left_ok : any_order right_to_left.
Proof. intros n. apply Permutation_rev. Qed.
Example C72_example :
  let m := [Value 10; Value 11; Value 12; Value 13] in
  let t := [(0, 7); (1, 7); (2, 8); (3, 7)] in
  NoDup (map fst t) /\
  tuple_cat_m m [elements Rvalue [(0, 7); (1, 7)]; elements Lvalue [(2, 8); (3, 7)]] = Some ([Gone; Gone; Value 12; Value 13], m) /\
  filter_m (Nat.eqb 8) m (elements Rvalue t) = Some ([Value 10; Value 11; Gone; Value 13], [Value 12]) /\
  filter_m (Nat.eqb 8) m (elements ConstLvalue t) = Some (m, [Value 12]) /\
  chunk_by_m right_to_left Nat.eqb (fun x => x) m (elements Rvalue t) = Some ([Gone; Gone; Gone; Gone], [[Value 10; Value 11]; [Value 12]; [Value 13]]) /\
  unique_m right_to_left Nat.eqb m (elements Rvalue t) = Some ([Gone; Gone; Gone; Gone], [Value 10; Value 12; Value 13]) /\
  unique_m right_to_left Nat.eqb m (elements Lvalue t) = Some (m, [Value 10; Value 12; Value 13]).
Proof. cbn. split; [repeat constructor; cbn; lia|]. repeat split. Qed.

(** ** C73 functions given by the user *)
(** Every call sees its elements as they were before the algorithm, and what it leaves in them is in
    the tuples afterwards. *)
Theorem C73_transform : forall V T W R (f : user V W R) w (m : store V) (ts : list (list (ref T))),
  unaliased (concat ts) -> present m (concat ts) -> exists rows w' m' ys xss,
  is_rows ts rows /\ transform (call f) (w, m) ts = Some ((w', m'), ys) /\
  runs (fun _ => f) 0 w (map (map (seen m)) rows) w' ys xss /\ updated m rows xss m'.
Proof. intros V T W R. exact transform_m. Qed.
Print Assumptions C73_transform.
Theorem C73_for_each : forall V T W R (f : user V W R) w (m : store V) (ts : list (list (ref T))),
  unaliased (concat ts) -> present m (concat ts) -> exists rows w' m' ys xss,
  is_rows ts rows /\ for_each (call f) (w, m) ts = Some (w', m') /\
  runs (fun _ => f) 0 w (map (map (seen m)) rows) w' ys xss /\ updated m rows xss m'.
Proof. intros V T W R. exact for_each_m. Qed.
Print Assumptions C73_for_each.
Theorem C73_enumerate : forall V T W (f : nat -> user V W unit) w (m : store V) (ts : list (list (ref T))),
  unaliased (concat ts) -> present m (concat ts) -> exists rows w' m' ys xss,
  is_rows ts rows /\ enumerate (fun s i rs => fst (call (f i) s rs)) (w, m) ts = Some (w', m') /\
  runs f 0 w (map (map (seen m)) rows) w' ys xss /\ updated m rows xss m'.
Proof. intros V T W. exact enumerate_m. Qed.
Print Assumptions C73_enumerate.
Theorem C73_all_any_none : forall V T W (f : user V W bool) w (m : store V) (ts : list (list (ref T))),
  unaliased (concat ts) -> present m (concat ts) -> exists rows, is_rows ts rows /\
  (exists w' m' b, all_of (call f) (w, m) ts = Some ((w', m'), b) /\ runs_until false f w m rows w' m' (negb b)) /\
  (exists w' m' b, any_of (call f) (w, m) ts = Some ((w', m'), b) /\ runs_until true f w m rows w' m' b) /\
  (exists w' m' b, none_of (call f) (w, m) ts = Some ((w', m'), b) /\ runs_until true f w m rows w' m' (negb b)).
Proof. intros V T W. exact tests_m. Qed.
Print Assumptions C73_all_any_none.
Theorem C73_for_each_n_args : forall V T W R (f : user V W R) n arity w (m : store V) (args : list (ref T)),
  let c := if n =? 0 then arity else n in
  c > 0 -> length args mod c = 0 -> unaliased args -> present m args -> exists bs w' m' ys xss,
  for_each_n_args (call f) n arity (w, m) args = Some (w', m') /\
  concat bs = args /\ Forall (fun b => length b = c) bs /\
  runs (fun _ => f) 0 w (map (map (seen m)) bs) w' ys xss /\ updated m bs xss m'.
Proof. intros V T W R. exact for_each_n_args_m. Qed.
Print Assumptions C73_for_each_n_args.
(** The folds: one call for each element, from the left or from the right. *)
Theorem C73_folds : forall V T W A (op : W -> A -> category * cell V -> W * A * cell V) w (m : store V) (t : list (ref T)) init,
  unaliased t -> present m t ->
  (exists w' a' xs m', fold_left_m op (w, m) t init = Some ((w', m'), Acc a') /\
     folds op w init (map (seen m) t) w' a' xs /\ updated m (singly t) (singly xs) m') /\
  (exists w' a' xs m', fold_right_m op (w, m) t init = Some ((w', m'), Acc a') /\
     folds op w init (map (seen m) (rev t)) w' a' xs /\ updated m (singly (rev t)) (singly xs) m').
Proof. intros V T W A op w m t init U P. split; [exact (fold_left_m_ok op w m t init U P)|exact (fold_right_m_ok op w m t init U P)]. Qed.
Print Assumptions C73_folds.
(** A function that adds its arguments (a moved-from one counts 100), moves from rvalues, doubles what
    it can and logs what it saw. *)
Definition weight (x : category * cell nat) : nat := match snd x with Value v => v | Gone => 100 end.
Definition greedy : user nat (list (list nat)) nat := fun w xs =>
  (w ++ [map weight xs], List.fold_left Nat.add (map weight xs) 0, map (fun x => match fst x with Rvalue => Gone | _ => Value (2 * weight x) end) xs).
Example C73_example :
  let m := [Value 1; Value 2; Value 3; Value 4; Value 5] in
  let ts := [elements Rvalue [(0, tt); (1, tt)]; elements Lvalue [(2, tt); (3, tt); (4, tt)]] in
  unaliased (concat ts) /\ present m (concat ts) /\
  transform (call greedy) ([], m) ts = Some (([[1; 3]; [2; 4]], [Gone; Gone; Value 6; Value 8; Value 5]), [4; 6]) /\
  for_each_n_args (call greedy) 2 9 ([], m) (elements Rvalue [(3, tt); (0, tt); (1, tt); (2, tt)]) = Some ([[4; 1]; [2; 3]], [Gone; Gone; Gone; Gone; Value 5]).
Proof.
  cbn. split; [|split; [repeat constructor|split; reflexivity]].
  intros r H _. cbn in H. repeat (destruct H as [<-|H]; [reflexivity|]). destruct H.
Qed.

Example C73_folds_example :
  let m := [Value 1; Value 2; Value 3] in let t := elements Lvalue [(0, tt); (1, tt); (2, tt)] in
  let op (w : list nat) a (x : category * cell nat) := (w ++ [a], 10 * a + weight x, Value a) in
  unaliased t /\ present m t /\
  fold_left_m op ([], m) t 0 = Some (([0; 1; 12], [Value 0; Value 1; Value 12]), Acc 123) /\
  fold_right_m op ([], m) t 0 = Some (([0; 3; 32], [Value 32; Value 3; Value 0]), Acc 321).
Proof.
  cbn. split; [|split; [repeat constructor|split; reflexivity]].
  intros r H _. cbn in H. repeat (destruct H as [<-|H]; [reflexivity|]). destruct H.
Qed.

(** ** C74 cartesian_product_copy *)
(** Exactly what it does: of an rvalue element the value is in the combinations with one choice of
    the later elements; in all the others it is the moved-from object. *)
Theorem C74_cartesian_product_copy : forall order, any_order order ->
  exists chosen, (forall n, 0 < n -> chosen n < n) /\
  forall V T (m : store V) (ts : list (list (ref T))), exclusive (concat ts) ->
  exists m' r, cartesian_product_copy_m order m ts = Some (m', r) /\ length r = product (map (@length _) ts) /\
    (forall is, choice ts is -> exists c, nth_error r (rank (map (@length _) ts) is) = Some c /\ length c = length ts /\
       forall k t i e, nth_error ts k = Some t -> nth_error is k = Some i -> nth_error t i = Some e ->
         let later := map (@length _) (skipn (S k) ts) in
         nth_error c k = Some (match cat e with
                               | Rvalue => if rank later (skipn (S k) is) =? chosen (product later) then look m (loc e) else Gone
                               | _ => look m (loc e)
                               end)) /\
    (forall l, ~ given_up (concat ts) l -> look m' l = look m l) /\
    (Forall (fun t => t <> []) ts -> forall l, given_up (concat ts) l -> look m' l = Gone).
Proof.
  intros order Ho. exists (chosen order). split; [exact (chosen_lt order Ho)|]. intros V T m ts X.
  destruct (cartesian_grid order Ho ts m X) as (m' & E & U & G). exists m', (grid order m ts). split; [exact E|]. split; [apply grid_length|]. split; [|split; assumption].
  intros is H. exact (grid_nth order m ts is H).
Qed.
Print Assumptions C74_cartesian_product_copy.
(** Every combination has the values when nothing is an rvalue, or when an rvalue tuple is followed
    by at most one combination of the others (in particular when it is the last one). *)
Theorem C74_values_partial : forall V T order (m : store V) (ts : list (list (ref T))), any_order order -> exclusive (concat ts) ->
  (forall pre t post, ts = pre ++ t :: post -> Forall (fun e => cat e <> Rvalue) t \/ product (map (@length _) post) <= 1) ->
  exists m' combos, cartesian_product ts = Some combos /\ cartesian_product_copy_m order m ts = Some (m', map (values_of m) combos) /\
    forall l, ~ given_up (concat ts) l -> look m' l = look m l.
Proof.
  intros V T order m ts Ho X H. destruct (cartesian_grid order Ho ts m X) as (m' & E & U & _). exists m', (prod_list ts). split; [apply cartesian_list|].
  rewrite E, (grid_full order Ho m ts H). auto.
Qed.
Print Assumptions C74_values_partial.
(** Otherwise: for every rvalue element of the first tuple and two or more combinations of the others,
    all combinations but one get a moved-from object. *)
Theorem C74_values_refuted : forall V T order (m : store V) (first : list (ref T)) rest i e,
  any_order order -> exclusive (concat (first :: rest)) -> nth_error first i = Some e -> cat e = Rvalue ->
  let n := product (map (@length _) rest) in 2 <= n ->
  exists m' r j, cartesian_product_copy_m order m (first :: rest) = Some (m', r) /\ j < n /\
    forall k, k < n -> exists c, nth_error r (i * n + k) = Some c /\ nth_error c 0 = Some (if k =? j then look m (loc e) else Gone).
Proof.
  intros V T order m first rest i e Ho X Hi He n Hn. destruct (cartesian_grid order Ho (first :: rest) m X) as (m' & E & _).
  exists m', (grid order m (first :: rest)), (chosen order n). split; [exact E|]. split; [apply (chosen_lt order Ho); lia|].
  intros k Hk. cbn [grid]. rewrite (flat_map_nth _ n first i k e); [|intros; rewrite row_length; apply grid_length|exact Hi|exact Hk].
  destruct (nth_error (grid order m rest) k) as [sub|] eqn:Es; [|apply nth_error_None in Es; rewrite grid_length in Es; fold n in Es; lia].
  eexists. split; [apply row_nth; exact Es|]. cbn [nth_error]. unfold head_of. rewrite He, grid_length. reflexivity.
Qed.
Print Assumptions C74_values_refuted.
Example C74_example :
  let m := [Value 1; Value 2; Value 3; Value 4] in
  let a := [(0, tt); (1, tt)] in let b := [(2, tt); (3, tt)] in
  cartesian_product_copy_m left_to_right m [elements Lvalue a; elements ConstLvalue b] = Some (m, [[Value 1; Value 3]; [Value 1; Value 4]; [Value 2; Value 3]; [Value 2; Value 4]]) /\
  cartesian_product_copy_m left_to_right m [elements Lvalue a; elements Rvalue b] = Some ([Value 1; Value 2; Gone; Gone], [[Value 1; Value 3]; [Value 1; Value 4]; [Value 2; Value 3]; [Value 2; Value 4]]) /\
  cartesian_product_copy_m left_to_right m [elements Rvalue a; elements Lvalue b] = Some ([Gone; Gone; Value 3; Value 4], [[Value 1; Value 3]; [Gone; Value 4]; [Value 2; Value 3]; [Gone; Value 4]]) /\
  cartesian_product_copy_m right_to_left m [elements Rvalue a; elements Lvalue b] = Some ([Gone; Gone; Value 3; Value 4], [[Gone; Value 3]; [Value 1; Value 4]; [Gone; Value 3]; [Value 2; Value 4]]).
Proof. repeat split. Qed.

(** ** C75 call_by_need *)
(** When no object that can change is given to two functions, every function sees its arguments as
    they were given, and the arguments that are passed on are untouched. *)
Theorem C75_call_by_need_partial : forall V T F W (ok : F -> list (category * T) -> bool) (run : F -> user V W (option (cell V))) fs (args : list (ref T)) w (m : store V) cs,
  Forall2 (CallByNeedSpec.chosen ok (map kind args)) fs cs -> unaliased args -> unshared args cs ->
  exists w' m' rs us, call_by_need_m ok run fs args (w, m) = Some ((w', m'), map Some (map Acc rs ++ map Elem us)) /\
    called (answers run) (map (seen m) args) w fs cs w' rs /\ passed_on args cs us /\
    (forall r, In r us -> look m' (loc r) = look m (loc r)).
Proof. intros V T F W ok run fs args w m cs. exact (need_m_ok ok run fs args w m cs). Qed.
Print Assumptions C75_call_by_need_partial.
(** Two functions that take the same rvalue argument: what the first leaves is what the second sees. *)
Theorem C75_shared_refuted : forall V T F W (ok : F -> list (category * T) -> bool) (run : F -> user V W (option (cell V))) f g (r : ref T) w (m : store V) w1 x1,
  ok f [(Rvalue, of_type r)] = true -> ok g [(Rvalue, of_type r)] = true -> cat r = Rvalue -> loc r < length m ->
  run f w [(Rvalue, look m (loc r))] = (w1, x1, [Gone]) ->
  exists m' rs, call_by_need_m ok run [f; g] [r] (w, m) = Some ((fst (answer (run g) w1 [(Rvalue, Gone)]), m'), rs).
Proof.
  intros V T F W ok run f g r w m w1 x1 Of Og Hr Hl Rf. unfold call_by_need_m.
  assert (Ch : forall h, ok h [(Rvalue, of_type r)] = true -> CallByNeedSpec.chosen (need_ok ok) (map (Elem (A := cell V)) [r]) h (0, 1)).
  { intros h H. split; [cbn; lia|]. split; [change (ok h [(cat r, of_type r)] = true); now rewrite Hr|]. cbn [fst snd length map]. intros b l Hb _. destruct b; [right; lia|left; lia]. }
  destruct (CallByNeedProofs.call_ok (need_ok ok) (need_run run) (map (Elem (A := cell V)) [r]) [f; g] (w, m) [(0, 1); (0, 1)]) as ([w' m'] & rs & us & E & C & _).
  { constructor; [now apply Ch|]. constructor; [now apply Ch|constructor]. }
  assert (Rf' : run f w [(cat r, look m (loc r))] = (w1, x1, [Gone])) by (rewrite Hr; exact Rf).
  assert (N : forall s0 s1 h v, need_run run s0 h (window (map (Elem (A := cell V)) [r]) 0 1) = (s1, v) -> call (run h) s0 [r] = (s1, snd (call (run h) s0 [r]))).
  { intros s0 s1 h v. unfold need_run. cbn. destruct (call (run h) s0 [r]) as [s2 y]. intros H. now injection H as -> _. }
  assert (F2 : forall s1 y, call (run f) (w, m) [r] = (s1, y) -> fst s1 = w1 /\ look (snd s1) (loc r) = Gone).
  { intros s1 y H. destruct (call_parts _ _ _ _ _ H) as (xs & H1 & H2). cbn [fst snd map] in *. unfold seen in H1. rewrite Rf' in H1. injection H1 as <- _ <-. split; [reflexivity|].
    rewrite H2. unfold write_all. cbn. apply write_same; [congruence|exact Hl]. }
  assert (G2 : forall s1 s2 y, fst s1 = w1 -> look (snd s1) (loc r) = Gone -> call (run g) s1 [r] = (s2, y) -> fst s2 = fst (answer (run g) w1 [(Rvalue, Gone)])).
  { intros s1 s2 y A B H. destruct (call_parts _ _ _ _ _ H) as (xs & H1 & _). cbn [map] in H1. unfold seen in H1. rewrite Hr, A, B in H1. unfold answer. now rewrite H1. }
  assert (Fin : w' = fst (answer (run g) w1 [(Rvalue, Gone)])).
  { inversion C; subst; cbn [fst snd] in *; (match goal with H : called _ _ _ [g] _ _ _ |- _ => inversion H; subst; cbn [fst snd] in * end);
      (match goal with H : called _ _ _ [] _ _ _ |- _ => inversion H; subst end);
      (match goal with H : need_run run (w, m) f _ = _ |- _ => apply N in H; apply F2 in H as [A B] end);
      (match goal with H : need_run run ?s g _ = _ |- _ => apply N in H; exact (G2 _ _ _ A B H) end). }
  subst w'. exists m', (map Some (rs ++ us)). exact E.
Qed.
Print Assumptions C75_shared_refuted.
(** Functions are the types of their parameters, with [greedy] as the body. *)
Definition takes (f : list nat) (xs : list (category * nat)) : bool := if list_eq_dec Nat.eq_dec f (map snd xs) then true else false.
Definition body (f : list nat) : user nat (list (list nat)) (option (cell nat)) := fun w xs =>
  let '(w', r, ys) := greedy w xs in (w', if length f =? 0 then None else Some (Value r), ys).
Example C75_example :
  let m := [Value 10; Value 20; Value 30] in
  let args := elements Rvalue [(0, 1); (1, 2); (2, 3)] in
  call_by_need_m takes body [[2]; [1]] args ([], m) = Some (([[20]; [10]], [Gone; Gone; Value 30]), [Some (Acc (Value 20)); Some (Acc (Value 10)); Some (Elem (Ref Rvalue 2 3))]) /\
  call_by_need_m takes body [[2]; [2; 3]] args ([], m) = Some (([[20]; [100; 30]], [Value 10; Gone; Gone]), [Some (Acc (Value 20)); Some (Acc (Value 130)); Some (Elem (Ref Rvalue 0 1))]).
Proof. split; reflexivity. Qed.
Example C75_unshared_example : unshared (elements Rvalue [(0, 1); (1, 2); (2, 3)]) [(1, 1); (0, 1)] /\ unaliased (elements Rvalue [(0, 1); (1, 2); (2, 3)]).
Proof.
  split.
  - intros i r a b p q _ _ Ha Hb Hp Hq. unfold covers in *.
    destruct a as [|[|[|a]]]; try discriminate; destruct b as [|[|[|b]]]; try discriminate; injection Ha as <-; injection Hb as <-; cbn in *; lia.
  - apply unaliased_elements. repeat constructor; cbn; lia.
Qed.
