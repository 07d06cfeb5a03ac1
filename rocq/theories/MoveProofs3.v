(** Proofs about cartesian_product_copy on references. *)
From Verif Require Import Base BaseLemmas TupleModel TupleSpec TupleProofs TupleProofs2 TupleProofs3 MoveModel MoveSpec MoveProofs MoveProofs2.
From Coq Require Import Permutation.

Section Product.
Context {V T : Type}.
Notation store := (store V).
Notation ref := (ref T).
Implicit Types (m : store) (t rs : list ref).
Variable order : nat -> list nat.
Hypothesis Ho : any_order order.

Definition chosen (n : nat) : nat := hd 0 (order n).
Lemma chosen_lt n : 0 < n -> chosen n < n.
Proof.
  intros H. unfold chosen. pose proof (Ho n) as P. destruct (order n) as [|i is] eqn:E.
  - apply Permutation_length in P. rewrite seq_length in P. cbn in P. lia.
  - assert (I : In i (seq 0 n)) by (apply (Permutation_in i (Permutation_sym P)); now left). apply in_seq in I. cbn. lia.
Qed.
Definition head_of (e : ref) (v : cell V) (n k : nat) : cell V := match cat e with Rvalue => if k =? chosen n then v else Gone | _ => v end.
Definition row (e : ref) (v : cell V) (c : list (list (cell V))) : list (list (cell V)) :=
  map (fun p => head_of e v (length c) (fst p) :: snd p) (combine (seq 0 (length c)) c).
Lemma row_length e v c : length (row e v c) = length c.
Proof. unfold row. rewrite map_length, combine_length, seq_length. apply Nat.min_id. Qed.
Lemma row_nth e v c k sub : nth_error c k = Some sub -> nth_error (row e v c) k = Some (head_of e v (length c) k :: sub).
Proof. intros H. unfold row. rewrite nth_error_map, nth_error_combine_seq, H. reflexivity. Qed.
Lemma row_all e v c : (cat e <> Rvalue \/ length c <= 1) -> row e v c = map (cons v) c.
Proof.
  intros H. apply nth_error_eq. intros k. rewrite nth_error_map. destruct (nth_error c k) as [sub|] eqn:E.
  - rewrite (row_nth _ _ _ _ _ E). cbn [option_map]. do 2 f_equal. unfold head_of. destruct H as [H|H]; [now destruct (cat e)|].
    assert (k < length c) by (apply nth_error_Some; congruence). assert (chosen (length c) < length c) by (apply chosen_lt; lia).
    replace (k =? chosen (length c)) with true by (symmetry; apply Nat.eqb_eq; lia). now destruct (cat e).
  - cbn [option_map]. apply nth_error_None. rewrite row_length. now apply nth_error_None.
Qed.

Let step (e : ref) (m : store) (sub : list (cell V)) := let (m', x) := initialize m e in (m', x :: sub).
Lemma step_lvalue (e : ref) m args : cat e <> Rvalue -> effects (step e) m args = (m, map (cons (look m (loc e))) args).
Proof.
  intros H. induction args as [|a args IH]; [reflexivity|]. cbn [effects map]. unfold step at 1, initialize. destruct (cat e) eqn:E; try congruence; rewrite IH; reflexivity.
Qed.
Lemma step_gone (e : ref) m args : cat e = Rvalue -> look m (loc e) = Gone -> snd (effects (step e) m args) = map (cons Gone) args /\ forall l, look (fst (effects (step e) m args)) l = look m l.
Proof.
  intros H. revert m. induction args as [|a args IH]; intros m G; [split; reflexivity|]. cbn [effects map]. unfold step at 1 3, initialize. rewrite H.
  destruct (IH (set_nth (loc e) Gone m)) as [A B]; [apply look_gone|]. destruct (effects (step e) (set_nth (loc e) Gone m) args) as [m' ys]. cbn [fst snd] in *. subst ys. rewrite G. split; [reflexivity|].
  intros l. rewrite B. destruct (Nat.eq_dec l (loc e)) as [->|N]; [now rewrite look_gone, G|now apply look_set].
Qed.
Lemma prepend_ok m (e : ref) c : exists m', prepend order m e c = Some (m', row e (look m (loc e)) c) /\
  (forall l, ~ (cat e = Rvalue /\ loc e = l) -> look m' l = look m l) /\ (cat e = Rvalue -> c <> [] -> look m' (loc e) = Gone) /\ (c = [] -> m' = m).
Proof.
  unfold prepend. change (fun (m0 : MoveModel.store V) (sub : list (cell V)) => _) with (step e).
  assert (D : cat e = Rvalue \/ cat e <> Rvalue) by (destruct (cat e); auto; right; discriminate). destruct D as [D|D].
  - destruct (pick_ok order Ho c) as (args & E & P & La & Lo). unfold unordered. rewrite E. pose proof (chosen_lt (length c)) as CL.
    assert (Inc : forall i, i < length c -> In i (order (length c))) by (intros i Hi; apply (Permutation_in i (Ho (length c))), in_seq; lia).
    pose proof (Permutation_NoDup (Ho (length c)) (seq_NoDup _ _)) as ND.
    destruct (effects (step e) m args) as [m' ys] eqn:Ef. exists m'.
    assert (Arr : mapo (fun i => assoc i (combine (order (length c)) ys)) (seq 0 (length c)) = Some (row e (look m (loc e)) c)).
    { change (pack (length c) (fun i => assoc i (combine (order (length c)) ys)) = Some (row e (look m (loc e)) c)). apply pack_ok; [apply row_length|]. intros i Hi.
      destruct (nth_error c i) as [sub|] eqn:Es; [|apply nth_error_None in Es; lia]. rewrite (row_nth _ _ _ _ _ Es). specialize (Inc i Hi). unfold head_of, chosen. rewrite D.
      destruct (order (length c)) as [|i0 is]; [destruct Inc|]. cbn [mapo] in E. destruct (nth_error c i0) as [a0|] eqn:E0; [|discriminate E]. destruct (mapo (nth_error c) is) as [args'|] eqn:E'; [|discriminate E]. injection E as <-.
      cbn [effects] in Ef. unfold step at 1, initialize in Ef. rewrite D in Ef. destruct (step_gone e (set_nth (loc e) Gone m) args' D (look_gone _ _)) as [A _].
      destruct (effects (step e) (set_nth (loc e) Gone m) args') as [m2 ys']. cbn [snd] in A. subst ys'. injection Ef as _ <-. cbn [combine assoc hd].
      rewrite (Nat.eqb_sym i0 i). destruct (Nat.eqb_spec i i0) as [->|N]; [rewrite E0 in Es; congruence|]. destruct Inc as [->|Inc]; [congruence|]. now apply (assoc_pick c (cons Gone) is args'). }
    rewrite Arr. split; [reflexivity|]. destruct args as [|a args].
    + cbn in Ef. injection Ef as <- _. destruct c; [|discriminate La]. repeat split; auto. congruence.
    + cbn [effects] in Ef. unfold step at 1, initialize in Ef. rewrite D in Ef. destruct (step_gone e (set_nth (loc e) Gone m) args D (look_gone _ _)) as [_ B].
      destruct (effects (step e) (set_nth (loc e) Gone m) args) as [m2 ys']. cbn [fst] in B. injection Ef as <- _. split; [|split].
      * intros l H. rewrite B. apply look_set. intros ->. now apply H.
      * intros _ _. rewrite B. apply look_gone.
      * intros ->. discriminate La.
  - destruct (unordered_ok order Ho (step e) (cons (look m (loc e))) m c) as (args & P & E); [intros args _; now rewrite step_lvalue|].
    rewrite step_lvalue in E by exact D. exists m. rewrite E, row_all by (now left). cbn [fst]. repeat split; auto. congruence.
Qed.

Lemma effects_prepend c args : forall m, exclusive args -> exists m',
  effects_o (fun m e => prepend order m e c) m args = Some (m', map (fun e => row e (look m (loc e)) c) args) /\
  (forall l, ~ given_up args l -> look m' l = look m l) /\ (c <> [] -> forall l, given_up args l -> look m' l = Gone).
Proof.
  induction args as [|e args IH]; intros m X.
  - exists m. split; [reflexivity|]. split; [reflexivity|]. intros _ l (r & [] & _).
  - destruct (exclusive_tail e args X) as [X' D]. destruct (prepend_ok m e c) as (m1 & E1 & U1 & G1 & _). destruct (IH m1 X') as (m2 & E2 & U2 & G2).
    exists m2. cbn [effects_o]. rewrite E1. cbn [fst snd]. rewrite E2. cbn [fst snd map]. split; [|split].
    + do 3 f_equal. apply map_ext_in. intros r I. f_equal. apply U1. intros [H1 H2]. now apply (D r I H1).
    + intros l H. rewrite U2 by (intros K; apply H; apply given_up_cons; now right). apply U1. intros K. apply H, given_up_cons. now left.
    + intros Hc l H. destruct (given_up_dec args l) as [K|K]; [now apply G2|]. apply given_up_cons in H as [[H1 <-]|H]; [|contradiction].
      rewrite U2 by exact K. now apply G1.
Qed.
Lemma unordered_prepend c m rs : exclusive rs -> exists m',
  unordered_o order (fun m e => prepend order m e c) m rs = Some (m', map (fun e => row e (look m (loc e)) c) rs) /\
  (forall l, ~ given_up rs l -> look m' l = look m l) /\ (c <> [] -> forall l, given_up rs l -> look m' l = Gone).
Proof.
  intros X. destruct (pick_ok order Ho rs) as (args & E & P & _). destruct (effects_prepend c args m (exclusive_perm rs args P X)) as (m' & E' & U & G).
  exists m'. unfold unordered_o. rewrite E, E'. cbn [fst snd]. rewrite (arrange_ok order Ho rs _ args E). split; [reflexivity|]. split.
  - intros l H. apply U. intros K. apply H. now apply (given_up_perm args); [apply Permutation_sym|].
  - intros Hc l H. apply (G Hc). now apply (given_up_perm rs).
Qed.

Fixpoint grid m (ts : list (list ref)) : list (list (cell V)) :=
  match ts with [] => [[]] | t :: r => flat_map (fun e => row e (look m (loc e)) (grid m r)) t end.
Lemma grid_length m ts : length (grid m ts) = product (map (@length ref) ts).
Proof. induction ts as [|t ts IH]; [reflexivity|]. cbn [grid map]. rewrite product_cons. apply flat_map_length'. intros x _. rewrite row_length. exact IH. Qed.
Lemma cartesian_grid ts : forall m, exclusive (concat ts) -> exists m',
  cartesian_product_copy_m order m ts = Some (m', grid m ts) /\ (forall l, ~ given_up (concat ts) l -> look m' l = look m l) /\
  (Forall (fun t => t <> []) ts -> forall l, given_up (concat ts) l -> look m' l = Gone).
Proof.
  induction ts as [|t ts IH]; intros m X.
  - exists m. split; [reflexivity|]. split; [reflexivity|]. intros _ l (r & [] & _).
  - cbn [concat] in X. assert (X1 : exclusive t) by (apply (exclusive_part (t ++ concat ts) t (concat ts)); [reflexivity|exact X]).
    assert (X2 : exclusive (concat ts)) by (apply (exclusive_part (t ++ concat ts) (concat ts) t); [apply Permutation_app_comm|exact X]).
    destruct (IH m X2) as (m1 & E1 & U1 & G1). cbn [cartesian_product_copy_m]. rewrite E1. cbn [fst snd].
    destruct (unordered_prepend (grid m ts) m1 t X1) as (m2 & E2 & U2 & G2). rewrite E2. cbn [fst snd]. rewrite tuple_cat_ok.
    assert (D : forall r, In r t -> ~ given_up (concat ts) (loc r)).
    { intros r Ir (s & Is & Cs & Ls). assert (Is' : In s (t ++ concat ts)) by (apply in_or_app; now right). specialize (X s Is' Cs). rewrite cnt_app in X.
      pose proof (cnt_in s _ Is). pose proof (cnt_in r _ Ir) as K. rewrite <- Ls in K. lia. }
    exists m2. split; [|split].
    + cbn [grid]. rewrite flat_map_concat_map. do 3 f_equal. apply map_ext_in. intros r Ir. f_equal. now apply U1, D.
    + intros l H. rewrite U2 by (intros (r & I & K); apply H; exists r; split; [apply in_or_app; now left|exact K]). apply U1. intros (r & I & K). apply H. exists r. split; [apply in_or_app; now right|exact K].
    + intros F l H. inversion F as [|? ? Ft Fs]; subst. destruct (given_up_dec t l) as [K|K].
      * apply G2; [|exact K]. intros Eg. apply (f_equal (@length _)) in Eg. rewrite grid_length in Eg. cbn [length] in Eg. clear -Eg Fs.
        induction Fs as [|u us Hu _ IH]; [discriminate Eg|]. cbn [map] in Eg. rewrite product_cons in Eg. destruct u; [congruence|]. cbn [length] in Eg. apply IH. nia.
      * rewrite U2 by exact K. apply G1; [exact Fs|]. destruct H as (r & I & H). apply in_app_or in I as [I|I]; [exfalso; apply K; now exists r|now exists r].
Qed.
(** What combination [is] holds for the tuple [k]. *)
Lemma grid_nth m ts is : choice ts is -> exists c, nth_error (grid m ts) (rank (map (@length ref) ts) is) = Some c /\ length c = length ts /\
  forall k t i e, nth_error ts k = Some t -> nth_error is k = Some i -> nth_error t i = Some e ->
    let later := map (@length ref) (skipn (S k) ts) in
    nth_error c k = Some (match cat e with Rvalue => if rank later (skipn (S k) is) =? chosen (product later) then look m (loc e) else Gone | _ => look m (loc e) end).
Proof.
  induction 1 as [|t i ts is Hi Hc (c & E & Lc & IH)].
  - exists []. split; [reflexivity|]. split; [reflexivity|]. intros [|k]; discriminate.
  - destruct (nth_error t i) as [e|] eqn:Ee; [|apply nth_error_None in Ee; lia]. cbn [map rank grid].
    exists (head_of e (look m (loc e)) (length (grid m ts)) (rank (map (@length ref) ts) is) :: c). split; [|split].
    + rewrite <- grid_length with (m := m). erewrite flat_map_nth; [apply row_nth; exact E|intros; apply row_length|exact Ee|rewrite grid_length; now apply rank_lt].
    + cbn [length]. now rewrite Lc.
    + intros [|k] t' i' e' Ht Hi' He.
      * cbn [nth_error skipn] in *. injection Ht as <-. injection Hi' as <-. rewrite Ee in He. injection He as <-. unfold head_of. now rewrite grid_length.
      * exact (IH k t' i' e' Ht Hi' He).
Qed.
(** When no rvalue is needed twice. *)
Lemma grid_full m ts : (forall pre t post, ts = pre ++ t :: post -> Forall (fun e => cat e <> Rvalue) t \/ product (map (@length ref) post) <= 1) ->
  grid m ts = map (values_of m) (prod_list ts).
Proof.
  induction ts as [|t ts IH]; intros H; [reflexivity|]. cbn [grid prod_list].
  assert (IH' : grid m ts = map (values_of m) (prod_list ts)) by (apply IH; intros pre u post ->; apply (H (t :: pre) u post eq_refl)).
  specialize (H [] t ts eq_refl). cbn [app] in H. rewrite !flat_map_concat_map, concat_map, map_map. f_equal. apply map_ext_in. intros e I.
  rewrite row_all by (destruct H as [H|H]; [left; exact (proj1 (Forall_forall _ _) H e I)|right; now rewrite grid_length]). rewrite IH', !map_map. reflexivity.
Qed.
End Product.
