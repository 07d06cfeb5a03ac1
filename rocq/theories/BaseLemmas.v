From Verif Require Import Base.

Lemma len_app {A} (l1 l2 : list A) : len (l1 ++ l2) = (len l1 + len l2)%N.
Proof. unfold len. rewrite app_length. lia. Qed.

Lemma len_cons {A} (x : A) l : len (x :: l) = (len l + 1)%N.
Proof. unfold len. cbn [length]. lia. Qed.

Lemma len_nil {A} : len (@nil A) = 0%N.
Proof. reflexivity. Qed.

Lemma rd_Some_lt {A} (l : list A) i x : rd l i = Some x -> (i < len l)%N.
Proof. unfold rd. destruct (N.ltb_spec i (len l)); [auto|discriminate]. Qed.

Lemma rd_lt_Some {A} (l : list A) i : (i < len l)%N -> exists x, rd l i = Some x.
Proof.
  intros H. unfold rd. destruct (N.ltb_spec i (len l)); [|lia].
  destruct (nth_error l (N.to_nat i)) eqn:E; [eauto|].
  apply nth_error_None in E. unfold len in *. lia.
Qed.

Lemma rd_ge_None {A} (l : list A) i : (len l <= i)%N -> rd l i = None.
Proof. intros H. unfold rd. destruct (N.ltb_spec i (len l)); [lia|reflexivity]. Qed.

Lemma rd_nth_error {A} (l : list A) i : rd l i = nth_error l (N.to_nat i).
Proof.
  unfold rd. destruct (N.ltb_spec i (len l)) as [H|H]; [reflexivity|].
  symmetry. apply nth_error_None. unfold len in H. lia.
Qed.

Lemma wr_lt_Some {A} (l : list A) i v : (i < len l)%N -> exists l', wr l i v = Some l'.
Proof. intros H. unfold wr. destruct (N.ltb_spec i (len l)); [eauto|lia]. Qed.

Lemma wr_Some_lt {A} (l l' : list A) i v : wr l i v = Some l' -> (i < len l)%N.
Proof. unfold wr. destruct (N.ltb_spec i (len l)); [auto|discriminate]. Qed.

Lemma wr_ge_None {A} (l : list A) i v : (len l <= i)%N -> wr l i v = None.
Proof. intros H. unfold wr. destruct (N.ltb_spec i (len l)); [lia|reflexivity]. Qed.

Lemma set_nth_length {A} n (v : A) l : length (set_nth n v l) = length l.
Proof. revert n. induction l as [|x l IH]; intros [|n]; cbn; auto. Qed.

Lemma nth_error_set_nth {A} n (v : A) l m :
  (n < length l)%nat ->
  nth_error (set_nth n v l) m = if Nat.eqb m n then Some v else nth_error l m.
Proof.
  revert n m. induction l as [|x l IH]; intros [|n] [|m] H; cbn in *; try lia; try reflexivity.
  apply IH. lia.
Qed.

Lemma wr_len {A} (l l' : list A) i v : wr l i v = Some l' -> len l' = len l.
Proof.
  unfold wr. destruct (N.ltb_spec i (len l)) as [H|H]; [|discriminate].
  intros E; injection E as <-. unfold len in *. rewrite set_nth_length. reflexivity.
Qed.

Lemma rd_wr {A} (l l' : list A) i v j :
  wr l i v = Some l' -> rd l' j = if (j =? i)%N then Some v else rd l j.
Proof.
  unfold wr. destruct (N.ltb_spec i (len l)) as [H|H]; [|discriminate].
  intros E; injection E as <-. rewrite !rd_nth_error. unfold len in *.
  rewrite nth_error_set_nth by lia.
  destruct (N.eqb_spec j i), (Nat.eqb_spec (N.to_nat j) (N.to_nat i)); try reflexivity; lia.
Qed.

Lemma rd_app1 {A} (l1 l2 : list A) i : (i < len l1)%N -> rd (l1 ++ l2) i = rd l1 i.
Proof. intros H. rewrite !rd_nth_error. apply nth_error_app1. unfold len in H. lia. Qed.

Lemma rd_app2 {A} (l1 l2 : list A) i :
  (len l1 <= i)%N -> rd (l1 ++ l2) i = rd l2 (i - len l1).
Proof.
  intros H. rewrite !rd_nth_error. unfold len in *.
  rewrite nth_error_app2 by lia. f_equal. lia.
Qed.

Lemma rd_cons0 {A} (x : A) l : rd (x :: l) 0 = Some x.
Proof. rewrite rd_nth_error. reflexivity. Qed.

Lemma rd_consS {A} (x : A) l i : rd (x :: l) (i + 1) = rd l i.
Proof. rewrite !rd_nth_error. replace (N.to_nat (i + 1)) with (S (N.to_nat i)) by lia. reflexivity. Qed.

Lemma rd_cons_pos {A} (x : A) l i : (0 < i)%N -> rd (x :: l) i = rd l (i - 1).
Proof. intros H. rewrite <- (rd_consS x l (i - 1)). f_equal. lia. Qed.

Lemma rd_ext {A} (l1 l2 : list A) :
  len l1 = len l2 -> (forall i, (i < len l1)%N -> rd l1 i = rd l2 i) -> l1 = l2.
Proof.
  intros Hl H. revert l2 Hl H. induction l1 as [|x l1 IH]; intros [|y l2] Hl H;
    rewrite ?len_cons, ?len_nil in Hl; try lia; try reflexivity.
  f_equal.
  - assert (E := H 0%N ltac:(rewrite len_cons; lia)). rewrite !rd_cons0 in E. congruence.
  - apply IH; [lia|]. intros i Hi.
    assert (E := H (i + 1)%N ltac:(rewrite len_cons; lia)).
    rewrite !rd_consS in E. exact E.
Qed.

Lemma rd_firstn {A} (l : list A) n i :
  (i < N.of_nat n)%N -> rd (firstn n l) i = rd l i.
Proof.
  intros H. rewrite !rd_nth_error. assert (Hn : (N.to_nat i < n)%nat) by lia.
  generalize (N.to_nat i) Hn. clear. revert n. induction l as [|x l IH]; intros n m Hm;
    destruct n, m; cbn; try reflexivity; try lia. apply IH. lia.
Qed.

Lemma len_firstn {A} (l : list A) n :
  (N.of_nat n <= len l)%N -> len (firstn n l) = N.of_nat n.
Proof. unfold len. rewrite firstn_length. lia. Qed.

Lemma len_repeat {A} (x : A) n : len (repeat x n) = N.of_nat n.
Proof. unfold len. rewrite repeat_length. reflexivity. Qed.

Lemma run_app {P S Op O} (step : S -> Op -> outcome P S O) s ops1 ops2 s1 o1 p1 :
  run step s ops1 = Done s1 o1 p1 ->
  run step s (ops1 ++ ops2) =
  match run step s1 ops2 with
  | Done s2 o2 p2 => Done s2 (o1 ++ o2) (p1 ++ p2)
  | Stopped s2 p => Stopped s2 p
  | Undef => Undef
  end.
Proof.
  revert s s1 o1 p1. induction ops1 as [|op ops1 IH]; intros s s1 o1 p1; cbn.
  - intros E; injection E as <- <- <-. destruct (run step s ops2); reflexivity.
  - destruct (step s op) as [s' o ps|s' p|]; try discriminate.
    destruct (run step s' ops1) as [s'' os ps'|s'' p'|] eqn:E1; try discriminate.
    intros E; injection E as <- <- <-. rewrite (IH _ _ _ _ E1).
    destruct (run step s'' ops2) as [s3 o3 p3|s3 p3|]; try reflexivity.
    cbn. rewrite app_assoc. reflexivity.
Qed.

Lemma sz_inc_small x : (x + 1 < size_mod)%N -> sz_inc x = (x + 1)%N.
Proof. intros H. unfold sz_inc. apply N.mod_small. exact H. Qed.

Lemma sz_dec_pos x : (0 < x)%N -> (x < size_mod)%N -> sz_dec x = (x - 1)%N.
Proof.
  intros H1 H2. unfold sz_dec.
  replace (x + (size_mod - 1))%N with ((x - 1) + 1 * size_mod)%N by lia.
  rewrite N.mod_add by (unfold size_mod; discriminate).
  apply N.mod_small. lia.
Qed.

Lemma sz_dec_0 : sz_dec 0 = (size_mod - 1)%N.
Proof. reflexivity. Qed.

Lemma sz_inc_max : sz_inc (size_mod - 1) = 0%N.
Proof. reflexivity. Qed.

Global Opaque size_mod.

(** Case-split on every N comparison in the goal. *)
Ltac ncmp :=
  repeat match goal with
  | |- context [N.ltb ?a ?b] => destruct (N.ltb_spec a b)
  | |- context [N.leb ?a ?b] => destruct (N.leb_spec a b)
  | |- context [N.eqb ?a ?b] => destruct (N.eqb_spec a b)
  end.

(** Forward simulation gives conformance. *)
Lemma conforms_sim {P S M Op O} (step : S -> Op -> outcome P S O)
  (pre : M -> Op -> Prop) (spec : M -> Op -> O -> M -> Prop) (R : S -> M -> Prop) :
  (forall s m op, R s m -> pre m op ->
     exists s' o m', step s op = Done s' o [] /\ spec m op o m' /\ R s' m') ->
  forall ops s m, R s m -> conforms step pre spec s m ops.
Proof.
  intros H ops. induction ops as [|op ops IH]; intros s m HR; cbn [conforms]; [exact I|].
  intros Hp. destruct (H s m op HR Hp) as (s' & o & m' & E & Hs & HR').
  exists s', o, m'. repeat split; auto.
Qed.

Lemma set_nth_app_len {A} (l t : list A) x v :
  set_nth (length l) v (l ++ x :: t) = l ++ v :: t.
Proof. induction l as [|y l IH]; cbn; [reflexivity|]. f_equal. exact IH. Qed.

Lemma set_nth_app1 {A} (l t : list A) n v :
  (n < length l)%nat -> set_nth n v (l ++ t) = set_nth n v l ++ t.
Proof.
  revert n. induction l as [|y l IH]; intros [|n] H; cbn in *; try lia; try reflexivity.
  f_equal. apply IH. lia.
Qed.

Lemma set_nth_split {A} n (v : A) l :
  (n < length l)%nat -> set_nth n v l = firstn n l ++ v :: skipn (S n) l.
Proof.
  revert n. induction l as [|x l IH]; intros [|n] H; cbn in H; try lia; [reflexivity|].
  cbn [set_nth firstn app]. rewrite (IH n) by lia. reflexivity.
Qed.

Lemma firstn_app_len {A} (l t : list A) : firstn (length l) (l ++ t) = l.
Proof. rewrite firstn_app, Nat.sub_diag, firstn_all. cbn. apply app_nil_r. Qed.

Lemma skipn_app_len {A} (l t : list A) : skipn (length l) (l ++ t) = t.
Proof. rewrite skipn_app, Nat.sub_diag, skipn_all. reflexivity. Qed.

Lemma len_to_nat {A} (l : list A) : N.to_nat (len l) = length l.
Proof. unfold len. lia. Qed.

Lemma rd_len {A} (l t : list A) x : rd (l ++ x :: t) (len l) = Some x.
Proof. rewrite rd_app2 by lia. rewrite N.sub_diag. reflexivity. Qed.

Lemma wr_app_len {A} (l t : list A) x v : wr (l ++ x :: t) (len l) v = Some (l ++ v :: t).
Proof.
  unfold wr. destruct (N.ltb_spec (len l) (len (l ++ x :: t))) as [H|H].
  - rewrite len_to_nat, set_nth_app_len. reflexivity.
  - rewrite len_app, len_cons in H. lia.
Qed.
