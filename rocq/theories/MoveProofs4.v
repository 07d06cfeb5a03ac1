(** Proofs about the functions given by the user. *)
From Verif Require Import Base BaseLemmas TupleModel TupleSpec TupleProofs CallByNeedModel CallByNeedSpec CallByNeedProofs ArgsModel ArgsProofs MoveModel MoveSpec MoveProofs.
From Coq Require Import Permutation.

Lemma set_nth_len {X} k (x : X) l : length (set_nth k x l) = length l.
Proof. revert k. induction l as [|y l IH]; intros [|k]; cbn; congruence. Qed.
Lemma set_nth_same {V} (m : store V) k x : k < length m -> look (set_nth k x m) k = x.
Proof. revert k. induction m as [|y m IH]; intros [|k] H; cbn in *; try lia; [reflexivity|]. apply IH. lia. Qed.

Section Calls.
Context {V T W R : Type}.
Notation store := (store V).
Notation ref := (ref T).
Implicit Types (m : store) (rs row : list ref) (rows ts : list (list ref)).

Lemma write_kept m (r : ref) x l : ~ (cat r <> ConstLvalue /\ loc r = l) -> look (write m r x) l = look m l.
Proof. intros H. unfold write. destruct (cat r); [reflexivity|..]; apply look_set; intros ->; apply H; split; congruence. Qed.
Lemma write_len m (r : ref) x : length (write m r x) = length m.
Proof. unfold write. destruct (cat r); [reflexivity|..]; apply set_nth_len. Qed.
Lemma write_same m (r : ref) x : cat r <> ConstLvalue -> loc r < length m -> look (write m r x) (loc r) = x.
Proof. intros H1 H2. unfold write. destruct (cat r); [congruence|..]; now apply set_nth_same. Qed.
Lemma write_all_cons m (r : ref) rs x xs : write_all m (r :: rs) (x :: xs) = write_all (write m r x) rs xs.
Proof. reflexivity. Qed.
Lemma write_all_nil m rs : write_all m rs [] = m.
Proof. unfold write_all. now destruct rs. Qed.
Lemma write_all_len rs : forall m xs, length (write_all m rs xs) = length m.
Proof.
  induction rs as [|r rs IH]; intros m [|x xs]; try reflexivity. rewrite write_all_cons, IH. apply write_len.
Qed.
Lemma write_all_kept rs : forall m xs l, (forall r, In r rs -> cat r <> ConstLvalue -> loc r <> l) -> look (write_all m rs xs) l = look m l.
Proof.
  induction rs as [|r rs IH]; intros m [|x xs] l H; try reflexivity. rewrite write_all_cons, IH.
  - apply write_kept. intros [H1 H2]. now apply (H r (or_introl eq_refl)).
  - intros s I. apply H. now right.
Qed.
Lemma unaliased_tail (r : ref) rs : unaliased (r :: rs) -> unaliased rs /\ forall s, In s rs -> cat r <> ConstLvalue \/ cat s <> ConstLvalue -> loc s <> loc r.
Proof.
  intros U. split.
  - apply (unaliased_part (r :: rs) rs [r]); [|exact U]. apply Permutation_cons_append.
  - intros s I [H|H] E.
    + specialize (U r (or_introl eq_refl) H). cbn [map count_occ] in U. destruct (Nat.eq_dec (loc r) (loc r)); [|congruence].
      pose proof (cnt_in s rs I) as K. rewrite E in K. lia.
    + specialize (U s (or_intror I) H). cbn [map count_occ] in U. destruct (Nat.eq_dec (loc r) (loc s)); [|congruence]. pose proof (cnt_in s rs I). lia.
Qed.
Lemma write_all_written rs : forall m xs j r x, unaliased rs -> present m rs -> nth_error rs j = Some r -> cat r <> ConstLvalue -> nth_error xs j = Some x ->
  look (write_all m rs xs) (loc r) = x.
Proof.
  induction rs as [|s rs IH]; intros m [|y xs] [|j] r x U P Hr Hc Hx; try discriminate; cbn [nth_error] in *.
  - injection Hr as ->. injection Hx as ->. inversion P; subst. destruct (unaliased_tail r rs U) as [_ D]. rewrite write_all_cons, write_all_kept; [now apply write_same|].
    intros s I Hs. apply (D s I). now left.
  - inversion P; subst. destruct (unaliased_tail s rs U) as [U' _]. rewrite write_all_cons. apply (IH (write m s y) xs j); try assumption. unfold present. rewrite write_len. assumption.
Qed.
Lemma call_parts (f : user V W R) (s s' : W * store) rs r : call f s rs = (s', r) -> exists xs, f (fst s) (map (seen (snd s)) rs) = (fst s', r, xs) /\ snd s' = write_all (snd s) rs xs.
Proof. unfold call. destruct (f (fst s) (map (seen (snd s)) rs)) as [[w y] xs] eqn:E. intros H. injection H as <- <-. now exists xs. Qed.

Lemma transfer (f : nat -> user V W R) rows : forall i (s s' : W * store) ys,
  calls (fun s ir => call (f (fst ir)) s (snd ir)) s (combine (seq i (length rows)) rows) s' ys -> unaliased (concat rows) -> present (snd s) (concat rows) ->
  exists xss, runs f i (fst s) (map (map (seen (snd s))) rows) (fst s') ys xss /\ updated (snd s) rows xss (snd s').
Proof.
  induction rows as [|row rows IH]; intros i s s' ys C U P; cbn [length seq combine] in C; inversion C; subst.
  - exists []. split; [constructor|]. split; [intros [|k]; discriminate|reflexivity].
  - match goal with H : call _ _ _ = _ |- _ => cbn [fst snd] in H; destruct (call_parts _ _ _ _ _ H) as (xs & Ef & Em) end.
    match goal with H : calls _ ?w _ _ _ |- _ => rename H into C'; set (s1 := w) in * end. cbn [concat] in U, P. apply Forall_app in P as [P1 P2].
    assert (U1 : unaliased row) by (apply (unaliased_part (row ++ concat rows) row (concat rows)); [reflexivity|exact U]).
    assert (U2 : unaliased (concat rows)) by (apply (unaliased_part (row ++ concat rows) (concat rows) row); [apply Permutation_app_comm|exact U]).
    assert (D : forall r q, In r row -> In q (concat rows) -> cat r <> ConstLvalue \/ cat q <> ConstLvalue -> loc r <> loc q).
    { intros r q Ir Iq H E. pose proof (cnt_in r _ Ir) as K1. pose proof (cnt_in q _ Iq) as K2. destruct H as [H|H].
      - specialize (U r (in_or_app _ _ _ (or_introl Ir)) H). rewrite cnt_app in U. rewrite E in U, K1. lia.
      - specialize (U q (in_or_app _ _ _ (or_intror Iq)) H). rewrite cnt_app in U. rewrite E in K1. lia. }
    destruct (IH (S i) s1 s' _ C' U2) as (xss & Rn & Up). { unfold present. now rewrite Em, write_all_len. }
    exists (xs :: xss). split.
    + cbn [map]. econstructor; [exact Ef|]. replace (map (map (seen (snd s))) rows) with (map (map (seen (snd s1))) rows); [exact Rn|].
      apply map_ext_in. intros c Ic. apply map_ext_in. intros r Ir. unfold seen. f_equal. rewrite Em. apply write_all_kept. intros q Iq Hq.
      apply D; [exact Iq|apply in_concat; eauto|now left].
    + split.
      * intros [|a] j c r zs x Hc Hr Hq Hz Hx; cbn [nth_error] in *; [|now apply (written _ _ _ _ Up a j c r zs x)].
        injection Hc as <-. injection Hz as <-. rewrite (kept _ _ _ _ Up).
        -- rewrite Em. now apply (write_all_written row (snd s) xs j).
        -- intros q Iq Hq' E. apply (D r q (nth_error_In _ _ Hr) Iq); [now left|congruence].
      * intros l H. rewrite (kept _ _ _ _ Up).
        -- rewrite Em. apply write_all_kept. intros r I. apply H. cbn [concat]. apply in_or_app. now left.
        -- intros r I. apply H. cbn [concat]. apply in_or_app. now right.
Qed.
Lemma calls_tag {X Y S} (f : S -> X -> S * Y) xs : forall i s s' ys, calls f s xs s' ys -> calls (fun s ix => f s (snd ix)) s (combine (seq i (length xs)) xs) s' ys.
Proof. induction xs as [|x xs IH]; intros i s s' ys C; inversion C; subst; cbn [length seq combine]; econstructor; cbn [snd]; eauto. Qed.
Lemma transfer_same (f : user V W R) rows (s s' : W * store) ys : calls (call f) s rows s' ys -> unaliased (concat rows) -> present (snd s) (concat rows) ->
  exists xss, runs (fun _ => f) 0 (fst s) (map (map (seen (snd s))) rows) (fst s') ys xss /\ updated (snd s) rows xss (snd s').
Proof. intros C. apply (transfer (fun _ => f) rows 0). apply (calls_tag (call f)) with (i := 0) in C. exact C. Qed.
Lemma runs_answer (f : user V W R) : forall i w argss w' ys xss, runs (fun _ => f) i w argss w' ys xss -> calls (answer f) w argss w' ys.
Proof. induction 1 as [|i w args w1 r xs argss w2 rs xss E _ IH]; econstructor; eauto. unfold answer. now rewrite E. Qed.

Lemma rows_part {E} (rows : list (list E)) : forall ts : list (list E), (forall i r, nth_error rows i = Some r -> is_row ts i r) -> exists rest, Permutation (concat ts) (concat rows ++ rest).
Proof.
  induction rows as [|r rows IH]; intros ts H; [exists (concat ts); reflexivity|]. cbn [concat].
  destruct (IH (map (@tl E) ts)) as [rest P].
  - intros i q Hq. specialize (H (S i) q Hq). unfold is_row in *. clear -H. induction H as [|t e ts q Ht _ IH]; [constructor|]. cbn [map]. constructor; [|exact IH]. destruct t; [discriminate|exact Ht].
  - exists rest. rewrite <- app_assoc, <- P. specialize (H 0 r eq_refl). unfold is_row in H. clear -H. induction H as [|t e ts q Ht _ IH]; [constructor|].
    destruct t as [|x t]; [discriminate|]. injection Ht as ->. cbn [map concat app tl]. constructor. rewrite IH. rewrite !app_assoc. apply Permutation_app_tail, Permutation_app_comm.
Qed.
Lemma rows_unaliased (ts rows : list (list ref)) : is_rows ts rows -> unaliased (concat ts) -> unaliased (concat rows).
Proof. intros [H _] U. destruct (rows_part rows ts H) as [rest P]. now apply (unaliased_part (concat ts) _ rest). Qed.
Lemma rows_present m (ts rows : list (list ref)) : is_rows ts rows -> present m (concat ts) -> present m (concat rows).
Proof. intros [H _] U. destruct (rows_part rows ts H) as [rest P]. unfold present in *. rewrite P in U. now apply Forall_app in U as [U _]. Qed.
Lemma rows_firstn {X} k (rows : list (list X)) : concat rows = concat (firstn k rows) ++ concat (skipn k rows).
Proof. rewrite <- concat_app. now rewrite firstn_skipn. Qed.

Lemma transform_m (f : user V W R) w m ts : unaliased (concat ts) -> present m (concat ts) -> exists rows w' m' ys xss,
  is_rows ts rows /\ transform (call f) (w, m) ts = Some ((w', m'), ys) /\ runs (fun _ => f) 0 w (map (map (seen m)) rows) w' ys xss /\ updated m rows xss m'.
Proof.
  intros U P. destruct (transform_ok (call f) (w, m) ts) as (rows & [w' m'] & ys & H1 & H2 & H3).
  destruct (transfer_same f rows _ _ _ H3 (rows_unaliased _ _ H1 U) (rows_present _ _ _ H1 P)) as (xss & G1 & G2). exists rows, w', m', ys, xss. auto.
Qed.
Lemma for_each_m (f : user V W R) w m ts : unaliased (concat ts) -> present m (concat ts) -> exists rows w' m' ys xss,
  is_rows ts rows /\ for_each (call f) (w, m) ts = Some (w', m') /\ runs (fun _ => f) 0 w (map (map (seen m)) rows) w' ys xss /\ updated m rows xss m'.
Proof.
  intros U P. destruct (for_each_ok (call f) (w, m) ts) as (rows & [w' m'] & ys & H1 & H2 & H3).
  destruct (transfer_same f rows _ _ _ H3 (rows_unaliased _ _ H1 U) (rows_present _ _ _ H1 P)) as (xss & G1 & G2). exists rows, w', m', ys, xss. auto.
Qed.
Lemma for_each_n_args_m (f : user V W R) n arity w m (args : list ref) : let c := if n =? 0 then arity else n in
  c > 0 -> length args mod c = 0 -> unaliased args -> present m args -> exists bs w' m' ys xss,
  for_each_n_args (call f) n arity (w, m) args = Some (w', m') /\ concat bs = args /\ Forall (fun b => length b = c) bs /\
  runs (fun _ => f) 0 w (map (map (seen m)) bs) w' ys xss /\ updated m bs xss m'.
Proof.
  intros c H1 H2 U P. destruct (batches_ok (call f) n arity (w, m) args H1 H2) as (bs & [w' m'] & ys & E & Ec & F & C). subst args.
  destruct (transfer_same f bs _ _ _ C U P) as (xss & G1 & G2). exists bs, w', m', ys, xss. auto 6.
Qed.
End Calls.

Section Tests.
Context {V T W : Type}.
Notation store := (store V).
Notation ref := (ref T).
Implicit Types (m : store) (rs row : list ref) (rows ts : list (list ref)).
Lemma not_repeat stop n : ~ In stop (repeat (negb stop) n).
Proof. intros H. apply repeat_spec in H. now destruct stop. Qed.
Lemma until_m stop (f : user V W bool) w m rows w' m' found : until stop (call f) (w, m) rows (w', m') found -> unaliased (concat rows) -> present m (concat rows) ->
  runs_until stop f w m rows w' m' found.
Proof.
  intros (k & Hk & H) U P. unfold runs_until. destruct found.
  - destruct H as (j & -> & C). rewrite (rows_firstn (S j) rows) in U, P. apply Forall_app in P as [P _].
    assert (U' : unaliased (concat (firstn (S j) rows))) by (eapply unaliased_part; [reflexivity|exact U]).
    destruct (transfer_same f _ _ _ _ C U' P) as (xss & G1 & G2). cbn [fst snd] in *.
    exists (firstn (S j) rows), (skipn (S j) rows), (repeat (negb stop) j ++ [stop]), xss. split; [now rewrite firstn_skipn|].
    split; [exact G1|]. split; [exact G2|]. exists (repeat (negb stop) j). split; [reflexivity|apply not_repeat].
  - destruct H as [-> C]. destruct (transfer_same f _ _ _ _ C U P) as (xss & G1 & G2). cbn [fst snd] in *.
    exists rows, [], (repeat (negb stop) (length rows)), xss. split; [now rewrite app_nil_r|]. split; [exact G1|]. split; [exact G2|]. split; [reflexivity|apply not_repeat].
Qed.
Lemma tests_m (f : user V W bool) w m ts : unaliased (concat ts) -> present m (concat ts) -> exists rows, is_rows ts rows /\
  (exists w' m' b, all_of (call f) (w, m) ts = Some ((w', m'), b) /\ runs_until false f w m rows w' m' (negb b)) /\
  (exists w' m' b, any_of (call f) (w, m) ts = Some ((w', m'), b) /\ runs_until true f w m rows w' m' b) /\
  (exists w' m' b, none_of (call f) (w, m) ts = Some ((w', m'), b) /\ runs_until true f w m rows w' m' (negb b)).
Proof.
  intros U P. destruct (all_of_ok (call f) (w, m) ts) as (r1 & [w1 m1] & b1 & H1 & H2 & H3), (any_of_ok (call f) (w, m) ts) as (r2 & [w2 m2] & b2 & G1 & G2 & G3), (none_of_ok (call f) (w, m) ts) as (r3 & [w3 m3] & b3 & K1 & K2 & K3).
  pose proof (is_rows_unique _ _ _ G1 H1) as ->. pose proof (is_rows_unique _ _ _ K1 H1) as ->. pose proof (rows_unaliased _ _ H1 U) as U'. pose proof (rows_present _ _ _ H1 P) as P'.
  exists r1. split; [exact H1|]. split; [exists w1, m1, b1|split; [exists w2, m2, b2|exists w3, m3, b3]]; (split; [assumption|now apply until_m]).
Qed.
Lemma enumerate_m (f : nat -> user V W unit) w m ts : unaliased (concat ts) -> present m (concat ts) -> exists rows w' m' ys xss,
  is_rows ts rows /\ enumerate (fun s i rs => fst (call (f i) s rs)) (w, m) ts = Some (w', m') /\ runs f 0 w (map (map (seen m)) rows) w' ys xss /\ updated m rows xss m'.
Proof.
  intros U P. destruct (enumerate_ok (fun s i (rs : list ref) => fst (call (f i) s rs)) (w, m) ts) as (rows & [w' m'] & ys & H1 & H2 & H3).
  assert (C : calls (fun s (ir : nat * list ref) => call (f (fst ir)) s (snd ir)) (w, m) (combine (seq 0 (length rows)) rows) (w', m') ys).
  { clear -H3. revert H3. generalize (combine (seq 0 (length rows)) rows) (w, m). induction ys as [|y ys IH]; intros l s H; inversion H; subst; [constructor|].
    econstructor; [|apply IH; eassumption]. match goal with E : (_, tt) = (_, _) |- _ => injection E as <- <- end. destruct (call (f (fst x)) s (snd x)) as [s1 []]. reflexivity. }
  destruct (transfer f rows 0 _ _ _ C (rows_unaliased _ _ H1 U) (rows_present _ _ _ H1 P)) as (xss & G1 & G2). exists rows, w', m', ys, xss. auto.
Qed.
End Tests.

Section Folds.
Context {V T W A : Type}.
Notation store := (store V).
Notation ref := (ref T).
Implicit Types (m : store) (rs : list ref).
Variable op : W -> A -> category * cell V -> W * A * cell V.
Lemma fold_left_go rs : forall w m a, unaliased rs -> present m rs -> exists w' a' xs m',
  List.fold_left (fun s x => fold_op op (fst s) (snd s) x) (map Elem rs) ((w, m), Acc a) = ((w', m'), Acc a') /\
  folds op w a (map (seen m) rs) w' a' xs /\ updated m (singly rs) (singly xs) m'.
Proof.
  induction rs as [|r rs IH]; intros w m a U P.
  { exists w, a, [], m. split; [reflexivity|]. split; [constructor|]. split; [intros [|i]; discriminate|reflexivity]. }
  destruct (unaliased_tail r rs U) as [U' D]. inversion P as [|? ? Pr P']; subst. cbn [map List.fold_left fst snd fold_op].
  destruct (op w a (seen m r)) as [[w1 a1] x1] eqn:Eo.
  destruct (IH w1 (write m r x1) a1 U') as (w' & a' & xs & m' & E & F & K). { unfold present. rewrite write_len. exact P'. }
  rewrite E. assert (Es : map (seen (write m r x1)) rs = map (seen m) rs).
  { apply map_ext_in. intros q I. unfold seen. f_equal. apply write_kept. intros [H1 H2]. apply (D q I); [now left|congruence]. }
  rewrite Es in F. exists w', a', (x1 :: xs), m'. split; [reflexivity|]. split; [econstructor; eassumption|]. unfold singly in *. split.
  - intros [|i] j row q ys x Hrow Hq Hc Hys Hx; cbn [map nth_error] in *.
    + injection Hrow as <-. injection Hys as <-. destruct j as [|j]; [|destruct j; discriminate]. injection Hq as <-. injection Hx as <-.
      rewrite (kept _ _ _ _ K); [now apply write_same|]. intros q I Hq'. rewrite <- flat_map_concat_map in I. apply in_flat_map in I.
      destruct I as (q' & I & [<-|[]]). apply (D q' I). now left.
    + exact (written _ _ _ _ K _ _ _ _ _ _ Hrow Hq Hc Hys Hx).
  - intros l H. cbn [map concat app] in H. rewrite (kept _ _ _ _ K) by (intros q I; apply H; now right).
    apply write_kept. intros [H1 H2]. now apply (H r (or_introl eq_refl)).
Qed.
Lemma fold_left_m_ok w m rs init : unaliased rs -> present m rs -> exists w' a' xs m',
  fold_left_m op (w, m) rs init = Some ((w', m'), Acc a') /\ folds op w init (map (seen m) rs) w' a' xs /\ updated m (singly rs) (singly xs) m'.
Proof.
  intros U P. unfold fold_left_m. rewrite fold_left_ok. destruct (fold_left_go rs w m init U P) as (w' & a' & xs & m' & E & F & K).
  exists w', a', xs, m'. now rewrite E.
Qed.
Lemma fold_swap rs : forall (s : W * store) a,
  List.fold_left (fun s x => fold_op op (fst s) x (snd s)) (map Elem rs) (s, Acc a)
  = List.fold_left (fun s x => fold_op op (fst s) (snd s) x) (map Elem rs) (s, Acc a).
Proof.
  induction rs as [|r rs IH]; intros s a; [reflexivity|]. cbn [map List.fold_left fst snd fold_op].
  destruct (op (fst s) a (seen (snd s) r)) as [[w1 a1] x1]. apply IH.
Qed.
Lemma fold_right_m_ok w m rs init : unaliased rs -> present m rs -> exists w' a' xs m',
  fold_right_m op (w, m) rs init = Some ((w', m'), Acc a') /\ folds op w init (map (seen m) (rev rs)) w' a' xs /\ updated m (singly (rev rs)) (singly xs) m'.
Proof.
  intros U P. unfold fold_right_m. rewrite fold_right_ok. rewrite <- (rev_involutive (map Elem rs)), fold_left_rev_right, <- map_rev, fold_swap.
  destruct (fold_left_go (rev rs) w m init) as (w' & a' & xs & m' & E & F & K).
  - apply (unaliased_part rs (rev rs) []); [|exact U]. rewrite app_nil_r. apply Permutation_rev.
  - unfold present. apply Forall_rev. exact P.
  - exists w', a', xs, m'. now rewrite E.
Qed.
End Folds.

Section Need.
Context {V T F W : Type}.
Notation store := (store V).
Notation ref := (ref T).
Variable ok : F -> list (category * T) -> bool.
Variable run : F -> user V W (option (cell V)).
Notation answers := (answers run).
Let E (r : ref) : operand (cell V) := Elem r.

Lemma window_map {X Y} (g : X -> Y) args b l : window (map g args) b l = map g (window args b l).
Proof. unfold window. now rewrite skipn_map, firstn_map. Qed.
Lemma elems rs : flat_map (fun x : operand (cell V) => match x with Elem r => [r] | Acc _ => [] end) (map E rs) = rs.
Proof. induction rs as [|r rs IH]; [reflexivity|]. cbn. now rewrite IH. Qed.
Lemma kinds rs : flat_map (fun x : operand (cell V) => match x with Elem r => [(cat r, of_type r)] | Acc _ => [] end) (map E rs) = map kind rs.
Proof. induction rs as [|r rs IH]; [reflexivity|]. cbn. now rewrite IH. Qed.
Lemma chosen_elems (args : list ref) f bl : CallByNeedSpec.chosen ok (map kind args) f bl -> CallByNeedSpec.chosen (need_ok ok) (map E args) f bl.
Proof.
  unfold CallByNeedSpec.chosen, need_ok. rewrite !map_length, !window_map, kinds. intros (H1 & H2 & H3). split; [exact H1|]. split; [exact H2|].
  intros b l. rewrite window_map, kinds, <- window_map. apply H3.
Qed.
Lemma passed_elems (args : list ref) cs us : passed_on (map E args) cs us -> exists us', us = map E us' /\ passed_on args cs us'.
Proof.
  intros (is & H1 & H2 & H3). rewrite map_length in H1.
  assert (G : exists us', us = map E us' /\ map Some us' = map (nth_error args) is).
  { clear H1 H2. revert us H3. induction is as [|i is IH]; intros [|u us] H; try discriminate H; [exists []; split; reflexivity|]. cbn [map] in H. injection H as Hu H.
    destruct (IH us H) as (us' & -> & K). rewrite nth_error_map in Hu. destruct (nth_error args i) as [r|] eqn:Er; [|discriminate Hu]. cbn [option_map] in Hu. injection Hu as ->.
    exists (r :: us'). split; [reflexivity|]. cbn [map]. now rewrite K, Er. }
  destruct G as (us' & -> & K). exists us'. split; [reflexivity|]. exists is. auto.
Qed.
Lemma count_one {X} dec (l : list X) x i j : count_occ dec l x = 1 -> nth_error l i = Some x -> nth_error l j = Some x -> i = j.
Proof.
  revert i j. induction l as [|y l IH]; intros i j C Hi Hj; [destruct i; discriminate|]. cbn [count_occ] in C. destruct (dec y x) as [->|N].
  - assert (Nx : ~ In x l) by (apply (count_occ_not_In dec); lia). destruct i as [|i], j as [|j]; cbn in Hi, Hj; [reflexivity| | |]; exfalso; apply Nx; eapply nth_error_In; eassumption.
  - destruct i as [|i], j as [|j]; cbn in Hi, Hj; try congruence. f_equal. now apply IH.
Qed.
Lemma nth_fst {X} (l : list X) n k : k < n -> nth_error (firstn n l) k = nth_error l k.
Proof. revert n k. induction l as [|x l IH]; intros [|n] [|k] H; try lia; try reflexivity. cbn. apply IH. lia. Qed.
Lemma nth_skp {X} (l : list X) n k : nth_error (skipn n l) k = nth_error l (n + k).
Proof. revert n. induction l as [|x l IH]; intros [|n]; try reflexivity; [now destruct k|]. cbn. apply IH. Qed.
Lemma window_in {X} (args : list X) b l x : In x (window args b l) -> exists i, b <= i < b + l /\ nth_error args i = Some x.
Proof.
  intros I. apply In_nth_error in I as [k Hk]. unfold window in Hk. assert (H : k < l). { assert (k < length (firstn l (skipn b args))) by (apply nth_error_Some; congruence). rewrite firstn_length in *. lia. }
  rewrite (nth_fst _ _ _ H), nth_skp in Hk. exists (b + k). split; [lia|exact Hk].
Qed.
Lemma called_transfer (args : list ref) m0 : unaliased args -> forall s fs cs s' rs, called (need_run run) (map E args) s fs cs s' rs -> unshared args cs ->
  (forall p r, In p cs -> In r (window args (fst p) (snd p)) -> look (snd s) (loc r) = look m0 (loc r)) ->
  exists rs', rs = map Acc rs' /\ called answers (map (seen m0) args) (fst s) fs cs (fst s') rs' /\
    (forall l, (forall p r, In p cs -> In r (window args (fst p) (snd p)) -> cat r <> ConstLvalue -> loc r <> l) -> look (snd s') l = look (snd s) l).
Proof.
  intros U. 
  assert (Step : forall (s s1 : W * store) f bl cs v, need_run run s f (window (map E args) (fst bl) (snd bl)) = (s1, v) -> unshared args (bl :: cs) ->
    (forall p r, In p (bl :: cs) -> In r (window args (fst p) (snd p)) -> look (snd s) (loc r) = look m0 (loc r)) ->
    exists v', answers (fst s) f (window (map (seen m0) args) (fst bl) (snd bl)) = (fst s1, v') /\ v = match v' with Some x => Some (Acc x) | None => None end /\
      unshared args cs /\ (forall p r, In p cs -> In r (window args (fst p) (snd p)) -> look (snd s1) (loc r) = look m0 (loc r)) /\
      (forall l, (forall r, In r (window args (fst bl) (snd bl)) -> cat r <> ConstLvalue -> loc r <> l) -> look (snd s1) l = look (snd s) l)).
  { intros s s1 f bl cs v H Sh Ag. unfold need_run in H. rewrite window_map, elems in H.
    destruct (call (run f) s (window args (fst bl) (snd bl))) as [s2 v'] eqn:C. injection H as -> <-. destruct (call_parts _ _ _ _ _ C) as (xs & Ef & Em).
    assert (Kp : forall l, (forall r, In r (window args (fst bl) (snd bl)) -> cat r <> ConstLvalue -> loc r <> l) -> look (snd s1) l = look (snd s) l) by (intros l Hl; rewrite Em; now apply write_all_kept).
    exists v'. split; [|split; [reflexivity|split; [|split; [|exact Kp]]]].
    - unfold answers, answer. rewrite window_map. replace (map (seen m0) (window args (fst bl) (snd bl))) with (map (seen (snd s)) (window args (fst bl) (snd bl))); [now rewrite Ef|].
      apply map_ext_in. intros r I. unfold seen. f_equal. apply (Ag bl); [now left|exact I].
    - intros i r a b p q Hi Hr Ha Hb Hp Hq. pose proof (Sh i r (S a) (S b) p q Hi Hr Ha Hb Hp Hq). lia.
    - intros p r Ip Ir. rewrite <- (Ag p r (or_intror Ip) Ir). apply Kp. intros q Iq Hq El.
      destruct (window_in _ _ _ _ Ir) as (i & Ci & Ni), (window_in _ _ _ _ Iq) as (j & Cj & Nj).
      assert (j = i). { specialize (U q (nth_error_In _ _ Nj) Hq). apply (count_one Nat.eq_dec _ _ j i U); rewrite nth_error_map; [now rewrite Nj|rewrite Ni; cbn; now rewrite El]. }
      subst j. apply In_nth_error in Ip as [k Hk]. pose proof (Sh i q 0 (S k) bl p Nj Hq eq_refl Hk Cj Ci). lia. }
  induction 1 as [s|s f bl s1 fs cs s2 rs H _ IH|s f bl s1 v fs cs s2 rs H _ IH]; intros Sh Ag.
  - exists []. repeat split. constructor.
  - destruct (Step _ _ _ _ _ _ H Sh Ag) as (v' & A & Ev & Sh' & Ag' & Kp). destruct v'; [discriminate Ev|]. destruct (IH Sh' Ag') as (rs' & -> & C & K). exists rs'. split; [reflexivity|]. split; [econstructor; eauto|].
    intros l Hl. rewrite K by (intros p r Ip; apply (Hl p r); now right). apply Kp. intros r. apply (Hl bl r). now left.
  - destruct (Step _ _ _ _ _ _ H Sh Ag) as (v' & A & Ev & Sh' & Ag' & Kp). destruct v' as [x|]; [|discriminate Ev]. injection Ev as ->. destruct (IH Sh' Ag') as (rs' & -> & C & K). exists (x :: rs'). split; [reflexivity|]. split; [eapply called_value; eauto|].
    intros l Hl. rewrite K by (intros p r Ip; apply (Hl p r); now right). apply Kp. intros r. apply (Hl bl r). now left.
Qed.
Lemma need_m_ok fs (args : list ref) w m cs : Forall2 (CallByNeedSpec.chosen ok (map kind args)) fs cs -> unaliased args -> unshared args cs ->
  exists w' m' rs us, call_by_need_m ok run fs args (w, m) = Some ((w', m'), map Some (map Acc rs ++ map Elem us)) /\
    called answers (map (seen m) args) w fs cs w' rs /\ passed_on args cs us /\ (forall r, In r us -> look m' (loc r) = look m (loc r)).
Proof.
  intros H U Sh. assert (H' : Forall2 (CallByNeedSpec.chosen (need_ok ok) (map E args)) fs cs) by (clear -H; induction H; constructor; [now apply chosen_elems|assumption]).
  destruct (call_ok (need_ok ok) (need_run run) (map E args) fs (w, m) cs H') as ([w' m'] & rs & us & Ec & C & P).
  destruct (called_transfer args m U _ _ _ _ _ C Sh (fun _ _ _ _ => eq_refl)) as (rs' & -> & C' & K). destruct (passed_elems _ _ _ P) as (us' & -> & P'). cbn [fst snd] in *.
  exists w', m', rs', us'. split; [exact Ec|]. split; [exact C'|]. split; [exact P'|]. intros r Ir. apply K. intros p q Ip Iq Hq El.
  destruct P' as (is & Q1 & _ & Q3). apply (in_map Some) in Ir. rewrite Q3 in Ir. apply in_map_iff in Ir as (i & Ni & Ii). apply Q1 in Ii as [_ Un].
  destruct (window_in _ _ _ _ Iq) as (j & Cj & Nj). specialize (U q (nth_error_In _ _ Nj) Hq).
  assert (j = i) by (apply (count_one Nat.eq_dec _ _ j i U); rewrite nth_error_map; [now rewrite Nj|rewrite Ni; cbn; now rewrite El]). subst j.
  unfold unused in Un. rewrite Forall_forall in Un. now apply (Un p Ip).
Qed.
End Need.
