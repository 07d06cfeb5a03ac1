(** Proofs about the name functions. *)
From Coq Require Import String.
From Verif Require Import Base CtConvModel CtConvSpec.
Open Scope nat_scope.

Lemma find_none c s : ~ In c s -> sv_find c s = None.
Proof.
  induction s as [|x s IH]; intros H; [reflexivity|]. cbn [sv_find].
  destruct (N.eqb_spec x c) as [->|Hx]; [exfalso; apply H; now left|].
  rewrite IH; [reflexivity|]. intros K; apply H; now right.
Qed.
Lemma find_first c a b : ~ In c a -> sv_find c (a ++ c :: b) = Some (length a).
Proof.
  induction a as [|x a IH]; intros H; cbn [sv_find app length]; [now rewrite N.eqb_refl|].
  destruct (N.eqb_spec x c) as [->|Hx]; [exfalso; apply H; now left|].
  rewrite IH; [reflexivity|]. intros K; apply H; now right.
Qed.
Lemma find_last_none c s : ~ In c s -> sv_find_last c s = None.
Proof.
  induction s as [|x s IH]; intros H; [reflexivity|]. cbn [sv_find_last].
  rewrite IH by (intros K; apply H; now right).
  destruct (N.eqb_spec x c) as [->|Hx]; [exfalso; apply H; now left|reflexivity].
Qed.
Lemma find_last_app c a b : ~ In c b -> sv_find_last c (a ++ c :: b) = Some (length a).
Proof.
  induction a as [|x a IH]; intros H; cbn [sv_find_last app length].
  - rewrite find_last_none by exact H. now rewrite N.eqb_refl.
  - now rewrite IH by exact H.
Qed.
Lemma substr_mid (a b c : list N) : sv_substr (a ++ b ++ c) (length a) (length b) = Some b.
Proof.
  unfold sv_substr. rewrite !app_length. destruct (Nat.ltb_spec (length a + (length b + length c)) (length a)); [lia|].
  rewrite skipn_app, skipn_all, Nat.sub_diag. cbn [app skipn].
  rewrite firstn_app, firstn_all, Nat.sub_diag. cbn [firstn]. now rewrite app_nil_r.
Qed.
Lemma sz_sub_ok a b : b <= a -> sz_sub a b = Some (a - b).
Proof. intros H. unfold sz_sub. now destruct (Nat.ltb_spec a b); [lia|]. Qed.
Lemma ending_len c : length (ending c) = tail_len c - 1.
Proof. now destruct c. Qed.
Lemma tail_pos c : 2 <= tail_len c.
Proof. destruct c; cbn; lia. Qed.

(** The string is the text after the last "= " of the name. *)
Lemma type_after_eq c before x name : x <> 61%N -> ~ In 61%N name ->
  type_as_string c (before ++ [61%N; x] ++ name ++ ending c) = Some name.
Proof.
  intros Hx H. unfold type_as_string. cbv zeta.
  assert (L : length (before ++ [61%N; x] ++ name ++ ending c) = length before + 2 + length name + (tail_len c - 1)).
  { rewrite !app_length, ending_len. cbn [length]. lia. }
  pose proof (tail_pos c) as T. rewrite L, sz_sub_ok by lia.
  unfold sv_rfind.
  replace (S (length before + 2 + length name + (tail_len c - 1) - tail_len c)) with (length (before ++ [61%N; x] ++ name))
    by (rewrite !app_length; cbn [length]; lia).
  replace (firstn (length (before ++ [61%N; x] ++ name)) (before ++ [61%N; x] ++ name ++ ending c)) with (before ++ [61%N; x] ++ name).
  2:{ replace (before ++ [61%N; x] ++ name ++ ending c) with ((before ++ [61%N; x] ++ name) ++ ending c) by now rewrite <- !app_assoc.
      rewrite firstn_app, firstn_all, Nat.sub_diag. cbn [firstn]. now rewrite app_nil_r. }
  assert (F : sv_find_last 61 (before ++ [61%N; x] ++ name) = Some (length before)).
  { cbn [app]. apply find_last_app. intros [K|K]; [congruence|now apply H]. }
  rewrite F, sz_sub_ok by lia.
  replace (before ++ [61%N; x] ++ name ++ ending c) with ((before ++ [61%N; x]) ++ name ++ ending c) by now rewrite <- app_assoc.
  replace (length before + 2) with (length (before ++ [61%N; x])) by (rewrite app_length; reflexivity).
  replace (length (before ++ [61%N; x]) + length name + (tail_len c - 1) - tail_len c + 1 - length (before ++ [61%N; x])) with (length name) by (rewrite app_length; cbn [length]; lia).
  apply substr_mid.
Qed.
Lemma type_ok c before name : ~ In 61%N name -> type_as_string c (pretty_type c before name) = Some name.
Proof. intros H. apply (type_after_eq c before 32%N); [discriminate|exact H]. Qed.
Lemma type_cut c before a x b : x <> 61%N -> ~ In 61%N b ->
  type_as_string c (pretty_type c before (a ++ [61%N; x] ++ b)) = Some b.
Proof.
  intros Hx H. unfold pretty_type.
  replace (before ++ codes "= " ++ (a ++ [61%N; x] ++ b) ++ ending c) with ((before ++ codes "= " ++ a) ++ [61%N; x] ++ b ++ ending c)
    by now rewrite <- !app_assoc.
  now apply type_after_eq.
Qed.

Lemma base_ok c before t a : ~ In 61%N (t ++ 60%N :: a) -> ~ In 60%N t ->
  template_base c (pretty_type c before (t ++ 60%N :: a)) = Some t.
Proof.
  intros H H2. unfold template_base. rewrite type_ok by exact H. rewrite find_first by exact H2.
  apply (substr_mid [] t (60%N :: a)).
Qed.
Lemma base_plain c before t : ~ In 61%N t -> ~ In 60%N t -> template_base c (pretty_type c before t) = Some t.
Proof. intros H H2. unfold template_base. rewrite type_ok by exact H. now rewrite find_none. Qed.
Lemma same_chars_iff a : forall b, same_chars a b = true <-> a = b.
Proof.
  induction a as [|x a IH]; intros [|y b]; cbn [same_chars]; try (split; (reflexivity || discriminate)).
  rewrite andb_true_iff, IH, N.eqb_eq. split; [intros [-> ->]; reflexivity|intros E; injection E; auto].
Qed.
Lemma same_template_ok c b1 b2 t1 a1 t2 a2 :
  ~ In 61%N (t1 ++ 60%N :: a1) -> ~ In 61%N (t2 ++ 60%N :: a2) -> ~ In 60%N t1 -> ~ In 60%N t2 ->
  exists r, is_same_template c (pretty_type c b1 (t1 ++ 60%N :: a1)) (pretty_type c b2 (t2 ++ 60%N :: a2)) = Some r /\
            (r = true <-> t1 = t2).
Proof.
  intros H1 H2 H3 H4. exists (same_chars t1 t2). unfold is_same_template. rewrite !base_ok by assumption.
  split; [reflexivity|apply same_chars_iff].
Qed.
Lemma nested_same c b1 b2 p x y : ~ In 61%N (p ++ 60%N :: x) -> ~ In 61%N (p ++ 60%N :: y) -> ~ In 60%N p ->
  is_same_template c (pretty_type c b1 (p ++ 60%N :: x)) (pretty_type c b2 (p ++ 60%N :: y)) = Some true.
Proof.
  intros H1 H2 H3. destruct (same_template_ok c b1 b2 p x p y H1 H2 H3 H3) as (r & E & K). rewrite E. f_equal. now apply K.
Qed.

Lemma qual_ok before v : ~ In 61%N v -> qual_str (pretty_value before v) = Some v.
Proof.
  intros H. unfold qual_str, pretty_value.
  replace (before ++ codes "= " ++ v ++ codes "]") with (before ++ 61%N :: 32%N :: v ++ codes "]") by reflexivity.
  assert (L : length (before ++ 61%N :: 32%N :: v ++ codes "]") = length before + length v + 3).
  { rewrite app_length. cbn [length]. rewrite app_length. change (length (codes "]")) with 1. lia. }
  rewrite L, sz_sub_ok by lia.
  rewrite find_last_app. 2:{ intros [K|K]; [discriminate|]. apply in_app_or in K as [K|[K|[]]]; [now apply H|discriminate]. }
  rewrite sz_sub_ok by lia.
  change (before ++ 61%N :: 32%N :: v ++ codes "]") with (before ++ [61%N; 32%N] ++ v ++ codes "]"). rewrite app_assoc.
  replace (length before + 2) with (length (before ++ [61%N; 32%N])) by (rewrite app_length; reflexivity).
  replace (length before + length v + 3 - 2 + 1 - length (before ++ [61%N; 32%N])) with (length v) by (rewrite app_length; cbn [length]; lia).
  apply substr_mid.
Qed.
Lemma after_colon_ok q id : ~ In 58%N id -> (q = [] \/ exists p, q = p ++ [58%N]) -> after_colon (q ++ id) = Some id.
Proof.
  intros H [->|[p ->]]; unfold after_colon.
  - cbn [app]. now rewrite find_last_none.
  - rewrite <- app_assoc. cbn [app]. rewrite find_last_app by exact H.
    replace (p ++ 58%N :: id) with ((p ++ [58%N]) ++ id) by now rewrite <- app_assoc.
    unfold sv_substr. rewrite !app_length. cbn [length].
    destruct (Nat.ltb_spec (length p + 1 + length id) (length p + 1)); [lia|].
    replace (length p + 1) with (length (p ++ [58%N])) by (rewrite app_length; reflexivity).
    rewrite skipn_app, skipn_all, Nat.sub_diag. cbn [app skipn]. rewrite firstn_all2; [reflexivity|lia].
Qed.
Lemma nth_after (p : list N) x y r : nth_error (p ++ x :: y :: r) (length p + 1) = Some y.
Proof. rewrite nth_error_app2 by lia. replace (length p + 1 - length p) with 1 by lia. reflexivity. Qed.
Lemma enum_ok before q id : qualifier q -> ident id -> enum_as_string (pretty_value before (q ++ id)) = Some id.
Proof.
  intros (Q1 & Q2 & Q3) (I1 & I2 & I3). unfold enum_as_string.
  rewrite qual_ok by (intros K; apply in_app_or in K as [K|K]; auto).
  unfold cast_str. destruct Q3 as [Q3|(p & r & E & Q3)].
  - rewrite find_last_none by (intros K; apply in_app_or in K as [K|K]; auto). now apply after_colon_ok.
  - rewrite E at 1. rewrite <- app_assoc. cbn [app].
    rewrite find_last_app. 2:{ intros [K|K]; [discriminate|]. apply in_app_or in K as [K|K]; auto. }
    rewrite E at 1. rewrite <- app_assoc. cbn [app]. rewrite nth_after. change ((58 =? 58)%N) with true. cbv iota. now apply after_colon_ok.
Qed.
Lemma cast_ok before v : cast_value v -> enum_as_string (pretty_value before v) = Some v.
Proof.
  intros (H & p & x & r & E & Hx & Hx2 & Hr). unfold enum_as_string. rewrite qual_ok by exact H.
  unfold cast_str. subst v. cbn [app]. rewrite find_last_app by (intros [K|K]; [congruence|now apply Hr]).
  rewrite nth_after. destruct (N.eqb_spec x 58); [contradiction|reflexivity].
Qed.
