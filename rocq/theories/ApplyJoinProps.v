(** C144: apply and join. *)
From Verif Require Import Base TupleModel MoveModel MoveSpec MoveProofs MoveProofs4 ApplyJoinModel ApplyJoinSpec ApplyJoinProofs.
From Coq Require Import Permutation.

(** ** apply *)
(** For one tuple, the caller gets exactly what the function returns, reference or object. *)
Theorem C144_apply_tuple : forall V T W copies (f : callable V T W) w (m : store V) t, unaliased t -> present m t ->
  exists w' m' r, apply_any copies f (w, m) [StdxTuple t] = Some ((w', m'), r) /\ called_once f w m t w' r m'.
Proof.
  intros V T W copies f w m t U P. destruct (invoke f (w, m) t) as [[w' m'] r] eqn:E. exists w', m', r. rewrite apply_one_ok, E. split; [reflexivity|].
  exact (invoke_ok f w m t (w', m') r U P E).
Qed.
Print Assumptions C144_apply_tuple.
(** For any tuples, arrays and pairs, the function is called once, with all their elements in order;
    the caller gets the object it returns. *)
Theorem C144_apply_partial : forall V T W copies (f : callable V T W) w (m : store V) ts,
  unaliased (all_elements ts) -> present m (all_elements ts) ->
  exists w' m' r, called_once f w m (all_elements ts) w' r m' /\ (forall x, r = Object x -> apply_any copies f (w, m) ts = Some ((w', m'), Object x)).
Proof.
  intros V T W copies f w m ts U P. destruct (invoke f (w, m) (all_elements ts)) as [[w' m'] r] eqn:E. exists w', m', r.
  split; [exact (invoke_ok f w m _ (w', m') r U P E)|]. intros x ->.
  assert (D : one_tuple ts \/ ~ one_tuple ts).
  { destruct ts as [|[t|t] [|]]; try (right; intros [? ?]; discriminate). left. now exists t. }
  destruct D as [[t ->]|D].
  - rewrite apply_one_ok. unfold all_elements in E. cbn [flat_map] in E. rewrite app_nil_r in E. now rewrite E.
  - rewrite apply_any_ok, E by exact D. reflexivity.
Qed.
Print Assumptions C144_apply_partial.
(** If it returns a reference, the caller does not get the reference but a new object, except for one
    tuple: a copy, which must exist, or what is moved out of the object. *)
Theorem C144_apply_reference_refuted : forall V T W copies (f : callable V T W) w (m : store V) ts w' r xs,
  ~ one_tuple ts -> unaliased (all_elements ts) -> present m (all_elements ts) -> f (all_elements ts) w (map (seen m) (all_elements ts)) = (w', Refer r, xs) ->
  exists m1, updated m [all_elements ts] [xs] m1 /\
  (cat r <> Rvalue -> copies (of_type r) = false -> apply_any copies f (w, m) ts = None) /\
  (cat r <> Rvalue -> copies (of_type r) = true -> apply_any copies f (w, m) ts = Some ((w', m1), Object (look m1 (loc r)))) /\
  (cat r = Rvalue -> exists m2, apply_any copies f (w, m) ts = Some ((w', m2), Object (look m1 (loc r))) /\ left_behind m1 [r] m2).
Proof.
  intros V T W copies f w m ts w' r xs D U P Ef. destruct (invoke f (w, m) (all_elements ts)) as [[w1 m1] q] eqn:E.
  pose proof (invoke_ok f w m _ _ _ U P E) as (ys & Ef' & Up). cbn [fst snd] in *. rewrite Ef in Ef'. injection Ef' as <- <- <-.
  exists m1. split; [exact Up|]. rewrite apply_any_ok, E by exact D. unfold return_auto, initialize. cbn [fst snd]. repeat split.
  - intros C K. rewrite K. now destruct (cat r).
  - intros C K. rewrite K. now destruct (cat r).
  - intros C. rewrite C. exists (set_nth (loc r) Gone m1). split; [reflexivity|]. split; intros l.
    + intros (s & [<-|[]] & _ & <-). apply look_gone.
    + intros H. apply look_set. intros ->. apply H. exists r. cbn. auto.
Qed.
Print Assumptions C144_apply_reference_refuted.

(** ** join *)
(** Every element is copied, or moved from if it is an rvalue, once; the operation is given the copies,
    from left to right; so it cannot change the tuple. *)
Theorem C144_join : forall V T W copies order (op : operation V W) w (m : store V) (r : ref T) rs, any_order order ->
  exclusive (r :: rs) -> obtainable copies (r :: rs) ->
  exists w' m' b, join_m copies order op (w, m) (r :: rs) = Some ((w', m'), b) /\
    joins op w (look m (loc r)) (values_of m rs) w' b /\ left_behind m (r :: rs) m'.
Proof. intros V T W copies order op w m r rs Ho. exact (join_ok copies order Ho op w m r rs). Qed.
Print Assumptions C144_join.
(** With an initial value: that value for an empty tuple, otherwise it is ignored. *)
Theorem C144_join_init : forall V T W copies order (op : operation V W) (s : W * store V) init,
  join_init_m copies order op s (@nil (ref T)) init = Some (s, init) /\ join_m copies order op s (@nil (ref T)) = None /\
  forall (r : ref T) rs, join_init_m copies order op s (r :: rs) init = join_m copies order op s (r :: rs).
Proof.
  intros. repeat split. unfold join_m. cbn [forallb]. destruct (unordered order initialize (snd s) []) as [[m1 ys]|] eqn:E; [|reflexivity]. cbn iota beta. cbn [fst snd].
  assert (Y : ys = []). { unfold unordered in E. cbn [length seq mapo] in E. destruct (mapo (nth_error []) (order 0)); [|discriminate]. cbn iota beta in E. destruct (effects initialize (snd s) l). cbn in E. now injection E as _ <-. }
  now subst ys.
Qed.
Print Assumptions C144_join_init.
(** It gives what fold_left gives, starting from the first element, if the operation does not tell
    lvalues from rvalues. *)
Theorem C144_join_fold_partial : forall V T W copies order (op : operation V W) w (m : store V) (r : ref T) rs, any_order order ->
  unaliased (r :: rs) -> present m rs -> obtainable copies (r :: rs) -> category_blind op ->
  exists w' m1 m2 b, join_m copies order op (w, m) (r :: rs) = Some ((w', m1), b) /\
    fold_left_m (leaving op) (w, m) rs (look m (loc r)) = Some ((w', m2), Acc b) /\ (forall l, look m2 l = look m l).
Proof.
  intros V T W copies order op w m r rs Ho U P O B.
  assert (X : exclusive (r :: rs)). { intros q I C. apply U; [exact I|congruence]. }
  destruct (unaliased_tail r rs U) as [U' _].
  destruct (join_ok copies order Ho op w m r rs X O) as (w1 & m1 & b & E & J & _).
  destruct (fold_left_m_ok (leaving op) w m rs (look m (loc r)) U' P) as (w2 & c & xs & m2 & F & G & K).
  apply folds_joins in G as [G ->]; [|exact B]. destruct (joins_fun op _ _ _ _ _ _ _ J G) as [-> ->].
  exists w2, m1, m2, c. repeat split; try assumption. intros l.
  destruct (in_dec Nat.eq_dec l (map loc (List.filter (fun q => match cat q with ConstLvalue => false | _ => true end) rs))) as [I|I].
  - apply in_map_iff in I as (q & <- & I). apply filter_In in I as [I Hq]. destruct (In_nth_error _ _ I) as [i Hi].
    apply (written _ _ _ _ K i 0 [q] q [look m (loc q)]); try reflexivity.
    + unfold singly. now rewrite nth_error_map, Hi.
    + now destruct (cat q).
    + unfold singly, values_of. now rewrite !nth_error_map, Hi.
  - apply (kept _ _ _ _ K). intros q Iq Hq E'. apply I. apply in_map_iff. exists q. split; [exact E'|]. apply filter_In. unfold singly in Iq. rewrite <- flat_map_concat_map in Iq.
    apply in_flat_map in Iq as (q' & I' & [<-|[]]). split; [exact I'|]. now destruct (cat q').
Qed.
Print Assumptions C144_join_fold_partial.
(** Otherwise not: to the operation of join every element of an lvalue tuple is an rvalue, to that of
    fold_left it is what it is. *)
Theorem C144_join_category_refuted : forall V T copies order (m : store V) (r : ref T) rs, any_order order ->
  unaliased (r :: rs) -> present m rs -> obtainable copies (r :: rs) ->
  (exists m1, join_m copies order noting ([], m) (r :: rs) = Some ((repeat Rvalue (length rs), m1), look m (loc r))) /\
  (exists m2, fold_left_m (leaving noting) ([], m) rs (look m (loc r)) = Some ((map cat rs, m2), Acc (look m (loc r)))).
Proof.
  intros V T copies order m r rs Ho U P O.
  assert (X : exclusive (r :: rs)). { intros q I C. apply U; [exact I|congruence]. }
  destruct (unaliased_tail r rs U) as [U' _]. split.
  - destruct (join_ok copies order Ho noting [] m r rs X O) as (w1 & m1 & b & E & J & _). apply noted_joins in J as [-> ->]. exists m1. rewrite E. unfold values_of. now rewrite map_length.
  - destruct (fold_left_m_ok (leaving noting) [] m rs (look m (loc r)) U' P) as (w2 & c & xs & m2 & F & G & K). apply noted_folds in G as [-> ->]. now exists m2.
Qed.
Print Assumptions C144_join_category_refuted.
(** A tuple with an element that cannot be copied can be folded, but not joined unless it is an rvalue. *)
Theorem C144_join_noncopyable_refuted : forall V T W copies order (op : operation V W) w (m : store V) (rs : list (ref T)),
  (exists r, In r rs /\ cat r <> Rvalue /\ copies (of_type r) = false) -> unaliased rs -> present m rs ->
  join_m copies order op (w, m) rs = None /\
  forall init, exists w' m' b xs, fold_left_m (leaving op) (w, m) rs init = Some ((w', m'), Acc b) /\ folds (leaving op) w init (map (seen m) rs) w' b xs.
Proof.
  intros V T W copies order op w m rs N U P. split; [now apply join_refused|]. intros init.
  destruct (fold_left_m_ok (leaving op) w m rs init U P) as (w' & b & xs & m' & F & G & _). now exists w', m', b, xs.
Qed.
Print Assumptions C144_join_noncopyable_refuted.

(** ** Examples *)
(** Types: 0 can be copied, others not.  The function adds up its arguments, adds one to those that are
    lvalues, and returns its first argument. *)
Definition copyable (t : nat) : bool := t =? 0.
Definition number (c : cell nat) : nat := match c with Value n => n | Gone => 0 end.
Definition first_of : callable nat nat nat := fun rs w xs =>
  (w + list_sum (map (fun x => number (snd x)) xs), match rs with [] => Object (Value 7) | r :: _ => Refer r end,
   map (fun x => match fst x with Lvalue => Value (S (number (snd x))) | _ => snd x end) xs).
Example C144_apply_example :
  let m := [Value 1; Value 2; Value 3] in
  let a c := elements c [(0, 0); (1, 0)] in let b c := elements c [(2, 1)] in
  apply_any copyable first_of (0, m) [StdxTuple (a Lvalue)] = Some ((3, [Value 2; Value 3; Value 3]), Refer (Ref Lvalue 0 0)) /\
  apply_any copyable first_of (0, m) [StdTuple (a Lvalue)] = Some ((3, [Value 2; Value 3; Value 3]), Object (Value 2)) /\
  apply_any copyable first_of (0, m) [StdxTuple (a Rvalue); StdxTuple (b Lvalue)] = Some ((6, [Gone; Value 2; Value 4]), Object (Value 1)) /\
  apply_any copyable first_of (0, m) [StdxTuple (b Lvalue); StdxTuple (a Lvalue)] = None /\
  apply_any copyable first_of (0, m) [StdxTuple (b Lvalue)] = Some ((3, [Value 1; Value 2; Value 4]), Refer (Ref Lvalue 2 1)) /\
  apply_any copyable first_of (0, m) [] = Some ((0, m), Object (Value 7)).
Proof. repeat split. Qed.
Definition minus : operation nat nat := fun w a b => (S w, Value (number (snd a) - number (snd b))).
Definition backwards (n : nat) : list nat := rev (seq 0 n).
Example C144_join_example :
  let m := [Value 10; Value 2; Value 3] in
  let t c := elements c [(0, 0); (1, 0); (2, 0)] in let u c := elements c [(0, 0); (2, 1)] in
  join_m copyable backwards minus (0, m) (t ConstLvalue) = Some ((2, m), Value 5) /\
  join_m copyable backwards minus (0, m) (t Rvalue) = Some ((2, [Gone; Gone; Gone]), Value 5) /\
  join_m copyable backwards minus (0, m) (u Rvalue) = Some ((1, [Gone; Value 2; Gone]), Value 7) /\
  join_m copyable backwards minus (0, m) (u ConstLvalue) = None /\
  join_m copyable backwards noting ([], m) (t ConstLvalue) = Some (([Rvalue; Rvalue], m), Value 10) /\
  fold_left_m (leaving minus) (0, m) (u ConstLvalue) (Value 20) = Some ((2, m), Acc (Value 7)) /\
  join_init_m copyable backwards minus (0, m) (@nil (ref nat)) (Value 4) = Some ((0, m), Value 4).
Proof. repeat split. Qed.
Example C144_hypotheses : let t := elements Rvalue [(0, 0); (2, 1)] in
  any_order backwards /\ exclusive t /\ unaliased t /\ present [Value 10; Value 2; Value 3] t /\ obtainable copyable t /\ category_blind minus /\
  ~ one_tuple [StdxTuple t; StdTuple (elements Lvalue [(1, 0)])] /\
  called_once first_of 0 [Value 1; Value 2; Value 3] (elements Lvalue [(0, 0); (1, 0)]) 3 (Refer (Ref Lvalue 0 0)) [Value 2; Value 3; Value 3].
Proof.
  assert (N : NoDup (map fst [(0, 0); (2, 1)])) by (repeat constructor; cbn; lia).
  split. { intros n. unfold backwards. apply Permutation_rev. }
  split; [now apply exclusive_elements|]. split; [now apply unaliased_elements|]. split; [repeat constructor|]. split; [intros r [<-|[<-|[]]]; now left|]. split; [intros ? ? ? ? ? ? ?; reflexivity|].
  split; [intros [t E]; discriminate|].
  assert (N2 : NoDup (map fst [(0, 0); (1, 0)])) by (repeat constructor; cbn; lia).
  apply (invoke_ok first_of 0 [Value 1; Value 2; Value 3] (elements Lvalue [(0, 0); (1, 0)]) (3, [Value 2; Value 3; Value 3])); [now apply unaliased_elements|repeat constructor|reflexivity].
Qed.
