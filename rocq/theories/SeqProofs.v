From Verif Require Import Base Ints IntsLemmas TupleModel TupleSpec TupleProofs SeqSpec SeqModel.
Open Scope ub_scope.
Open Scope nat_scope.

(** * all_of *)
Lemma all_of_some {X Y} (g : X -> option Y) l ys : all_of g l = Some ys <-> Forall2 (fun x y => g x = Some y) l ys.
Proof.
  revert ys. induction l as [|x l IH]; intros ys; cbn [all_of].
  - split; [intros [= <-]; constructor|intros H; inversion H; reflexivity].
  - destruct (g x) as [y|] eqn:E.
    + destruct (all_of g l) as [r|] eqn:F.
      * split; [intros [= <-]; constructor; [exact E|now apply IH]|].
        intros H. inversion H; subst. assert (K : Some r = Some l') by now apply IH. congruence.
      * split; [discriminate|]. intros H. inversion H; subst. assert (K : None = Some l') by now apply IH. discriminate.
    + split; [discriminate|]. intros H. inversion H; subst. congruence.
Qed.
Lemma all_of_none {X Y} (g : X -> option Y) l x : In x l -> g x = None -> all_of g l = None.
Proof.
  intros I E. destruct (all_of g l) as [ys|] eqn:F; [|reflexivity]. apply all_of_some in F.
  induction F as [|a b l m H F IH]; [destruct I|]. destruct I as [->|I]; [congruence|discriminate (IH I)].
Qed.
Lemma all_of_total {X Y} (g : X -> option Y) l : (forall x, In x l -> g x <> None) -> exists ys, all_of g l = Some ys.
Proof.
  induction l as [|x l IH]; intros H; [now exists []|]. cbn [all_of].
  destruct (g x) as [y|] eqn:E; [|exfalso; now apply (H x (or_introl eq_refl))].
  destruct IH as [ys ->]; [intros; apply H; now right|]. now eexists.
Qed.

(** * Sequences *)
Lemma sequence_counts n is : make_integer_sequence n = Some is <-> (0 <= n)%Z /\ counts n is.
Proof.
  unfold make_integer_sequence, counts. destruct (Z.ltb_spec n 0).
  - split; [discriminate|]. lia.
  - split.
    + intros [= <-]. split; [lia|]. rewrite map_length, seq_length. split; [lia|].
      intros i x E. rewrite nth_error_map in E. destruct (nth_error (seq 0 (Z.to_nat n)) i) as [k|] eqn:K; [|discriminate].
      injection E as <-. assert (L : i < length (seq 0 (Z.to_nat n))) by (apply nth_error_Some; congruence).
      rewrite seq_length in L. apply nth_error_nth with (d := O) in K. rewrite seq_nth in K by exact L. now subst k.
    + intros [_ [L C]]. f_equal. replace (Z.to_nat n) with (length is) by lia. clear L H.
      apply nth_ext with (d := 0%Z) (d' := 0%Z); [now rewrite map_length, seq_length|].
      rewrite map_length, seq_length. intros i Hi. change 0%Z with (Z.of_nat 0) at 1. rewrite map_nth, seq_nth by exact Hi.
      symmetry. apply C. now apply nth_error_nth'.
Qed.
Lemma for_each_calls {W I R} (f : W -> I -> W * R) w l : exists rs, calls f w l (template_for_each f w l) rs.
Proof. exists (snd (effects f w l)). apply calls_ok. Qed.

Section Array.
Context {W I T R : Type}.
Variable zero : I.
Variable type_of : I -> option T.
Variable conv : T -> T -> option (R -> R).
Variable f : W -> I -> W * R.
Notation make := (make_array_fn zero type_of conv f).
(** The elements, converted to type [A] one by one. *)
Definition converts (A : T) (i : I) (r r' : R) : Prop := exists t c, type_of i = Some t /\ conv t A = Some c /\ r' = c r.
Lemma inits_calls A is : forall ks w, all_of (init type_of conv f A) is = Some ks ->
  exists rs, calls f w is (fst (effects (fun w k => k w) w ks)) rs /\
    Forall2 (fun ir r' => converts A (fst ir) (snd ir) r') (combine is rs) (snd (effects (fun w k => k w) w ks)) /\ length rs = length is.
Proof.
  induction is as [|i is IH]; intros ks w H.
  - injection H as <-. exists []. cbn. repeat constructor.
  - cbn [all_of] in H. unfold init at 1 in H. destruct (type_of i) as [t|] eqn:Et; [|discriminate].
    destruct (conv t A) as [c|] eqn:Ec; [|discriminate].
    destruct (all_of (init type_of conv f A) is) as [ks'|] eqn:Ek; [|discriminate]. injection H as <-.
    cbn [effects]. destruct (f w i) as [w1 r] eqn:Ef. destruct (IH ks' w1 eq_refl) as (rs & C & F & L).
    destruct (effects (fun w k => k w) w1 ks') as [w2 vs]. cbn [fst snd] in *.
    exists (r :: rs). split; [econstructor; eassumption|]. split; [|cbn; congruence].
    cbn [combine]. constructor; [|exact F]. cbn. now exists t, c.
Qed.
Lemma make_some w is w' A vs : make w is = Some (w', (A, vs)) ->
  type_of zero = Some A /\ exists rs, calls f w is w' rs /\ Forall2 (fun ir r' => converts A (fst ir) (snd ir) r') (combine is rs) vs /\ length rs = length is.
Proof.
  unfold make_array_fn. destruct (type_of zero) as [B|]; [|discriminate].
  destruct (all_of (init type_of conv f B) is) as [ks|] eqn:E; [|discriminate].
  destruct (inits_calls B is ks w E) as (rs & C & F & L). destruct (effects (fun w k => k w) w ks) as [w1 us].
  intros [= <- <- <-]. split; [reflexivity|]. exists rs. now repeat split.
Qed.
Lemma make_compiles w is : make w is <> None <->
  exists A, type_of zero = Some A /\ forall i, In i is -> exists t, type_of i = Some t /\ conv t A <> None.
Proof.
  unfold make_array_fn. destruct (type_of zero) as [A|] eqn:Ez; [|split; [congruence|intros (A & ? & _); discriminate]].
  split.
  - intros H. exists A. split; [reflexivity|]. intros i Hi. destruct (all_of (init type_of conv f A) is) as [ks|] eqn:E; [|congruence].
    assert (K : init type_of conv f A i <> None) by (intros N; now rewrite (all_of_none _ _ _ Hi N) in E).
    unfold init in K. destruct (type_of i) as [t|]; [|congruence]. exists t. split; [reflexivity|]. destruct (conv t A); [discriminate|congruence].
  - intros (B & [= <-] & H). destruct (all_of_total (init type_of conv f A) is) as [ks ->].
    + intros i Hi. destruct (H i Hi) as (t & Et & Ec). unfold init. rewrite Et. destruct (conv t A); [discriminate|congruence].
    + destruct (effects (fun w k => k w) w ks). discriminate.
Qed.
Lemma make_same w is A : type_of zero = Some A -> (forall i, In i is -> type_of i = Some A) ->
  (exists c, conv A A = Some c /\ forall r, c r = r) -> exists w' rs, make w is = Some (w', (A, rs)) /\ calls f w is w' rs.
Proof.
  intros Ez Hi (c & Ec & Id). destruct (make w is) as [[w' [B vs]]|] eqn:E.
  - destruct (make_some _ _ _ _ _ E) as (Eb & rs & C & F & L). assert (B = A) by congruence. subst B. exists w', vs. split; [reflexivity|].
    replace vs with rs; [exact C|]. clear C E. revert rs vs F L. induction is as [|i is IH]; intros [|r rs] vs F L; try discriminate.
    + now inversion F.
    + cbn in F. inversion F as [|? v ? vs' (t & c' & Et & Ec' & Ev) F']; subst. cbn in *. rewrite (Hi i (or_introl eq_refl)) in Et. injection Et as <-.
      rewrite Ec in Ec'. injection Ec' as <-. f_equal; [now rewrite Id|]. apply IH; auto.
  - exfalso. assert (K : make w is <> None); [|congruence]. apply make_compiles. exists A. split; [exact Ez|].
    intros i I0. exists A. split; [auto|congruence].
Qed.
Lemma make_zero w is : type_of zero = None -> make w is = None.
Proof. intros E. unfold make_array_fn. now rewrite E. Qed.
End Array.

Lemma counts_in n is i : counts n is -> In i is -> (0 <= i < n)%Z.
Proof.
  intros [L C] I. apply In_nth_error in I as [k E]. assert (K : k < length is) by (apply nth_error_Some; congruence). rewrite (C k i E). lia.
Qed.
Lemma make_n {W T R} type_of (conv : T -> T -> option (R -> R)) (f : W -> Z -> W * R) w n A : (0 <= n)%Z ->
  type_of 0%Z = Some A -> (forall i, (0 <= i < n)%Z -> type_of i = Some A) -> (exists c, conv A A = Some c /\ forall r, c r = r) ->
  exists is w' rs, counts n is /\ make_array_n type_of conv f w n = Some (w', (A, rs)) /\ calls f w is w' rs.
Proof.
  intros Hn Hz Hi Hc. unfold make_array_n. destruct (make_integer_sequence n) as [is|] eqn:E.
  - apply sequence_counts in E as [_ C]. destruct (make_same 0%Z type_of conv f w is A Hz) as (w' & rs & M & K); [|exact Hc|].
    + intros i I. apply Hi. now apply (counts_in n is).
    + now exists is, w', rs.
  - unfold make_integer_sequence in E. destruct (Z.ltb_spec n 0); [lia|discriminate].
Qed.
Lemma calls_pure {I R} (D : I -> R) w is w' rs : calls (fun (_ : unit) i => (tt, D i)) w is w' rs -> rs = map D is.
Proof. induction 1 as [|w i w1 r is w2 rs E C IH]; [reflexivity|]. injection E as <- <-. cbn. now f_equal. Qed.
Lemma values_same {I T R} (zero : I) type_of (conv : T -> T -> option (R -> R)) (D : I -> R) is A :
  type_of zero = Some A -> (forall i, In i is -> type_of i = Some A) -> (exists c, conv A A = Some c /\ forall r, c r = r) ->
  make_array_values zero type_of conv D is = Some (A, map D is).
Proof.
  intros Hz Hi Hc. destruct (make_same zero type_of conv (fun (_ : unit) i => (tt, D i)) tt is A Hz Hi Hc) as (w' & rs & M & C).
  unfold make_array_values. rewrite M. cbn. now rewrite (calls_pure _ _ _ _ _ C).
Qed.
Lemma values_n {T R} type_of (conv : T -> T -> option (R -> R)) (D : Z -> R) n A : (0 <= n)%Z ->
  type_of 0%Z = Some A -> (forall i, (0 <= i < n)%Z -> type_of i = Some A) -> (exists c, conv A A = Some c /\ forall r, c r = r) ->
  exists is, counts n is /\ make_array_values_n type_of conv D n = Some (A, map D is).
Proof.
  intros Hn Hz Hi Hc. unfold make_array_values_n. destruct (make_integer_sequence n) as [is|] eqn:E.
  - apply sequence_counts in E as [_ C]. exists is. split; [exact C|]. apply values_same; [exact Hz| |exact Hc].
    intros i I. apply Hi. now apply (counts_in n is).
  - unfold make_integer_sequence in E. destruct (Z.ltb_spec n 0); [lia|discriminate].
Qed.

(** * Integers *)
Section Ints.
Open Scope Z_scope.
Lemma range_nonempty t : 0 < width t -> tmin t <= tmax t.
Proof.
  intros H. unfold tmin, tmax. destruct (signed t).
  - pose proof (pow2_pos (width t - 1)). lia.
  - pose proof (pow2_pos (width t)). lia.
Qed.
Lemma widening_ok s t : 0 < width s -> widening s t = true <-> holds t s.
Proof.
  intros H. pose proof (range_nonempty s H). unfold widening, holds, in_range. rewrite Bool.andb_true_iff, !Z.leb_le. split; [intros; lia|].
  intros K. pose proof (K (tmin s)). pose proof (K (tmax s)). lia.
Qed.
Lemma brace_some s t c x : 0 < width t -> 0 < width s -> brace s t = Some c -> in_range s x -> c x = x /\ in_range t x.
Proof.
  unfold brace. intros Ht Hs. destruct (widening s t) eqn:E; [|discriminate]. intros [= <-] R.
  apply widening_ok in E; [|exact Hs]. apply E in R. split; [now apply cast_id|exact R].
Qed.
Lemma brace_self t : exists c, brace t t = Some c.
Proof. unfold brace, widening. rewrite !Z.leb_refl. now eexists. Qed.

Lemma make_ints {W} zero type_of (f : W -> Z -> W * Z) w is w' A vs :
  (forall i t, type_of i = Some t -> 0 < width t) ->
  (forall w i t, type_of i = Some t -> in_range t (snd (f w i))) ->
  make_array_fn zero type_of brace f w is = Some (w', (A, vs)) -> calls f w is w' vs /\ Forall (in_range A) vs.
Proof.
  intros Hw Hf E. destruct (make_some _ _ _ _ _ _ _ _ _ E) as (Ez & rs & C & F & L). pose proof (Hw _ _ Ez) as HA.
  assert (K : vs = rs /\ Forall (in_range A) vs); [|destruct K as [-> K]; now split].
  clear E. revert vs F L. induction C as [w|w i w1 r is w2 rs Ef C IH]; intros vs F L.
  - inversion F; subst. split; [reflexivity|constructor].
  - cbn in F. inversion F as [|? v ? vs' (t & c & Et & Ec & Ev) F']; subst. cbn in *.
    destruct (IH vs' F' ltac:(lia)) as [-> K]. pose proof (Hf w i t Et) as R. rewrite Ef in R. cbn in R.
    destruct (brace_some t A c r HA (Hw _ _ Et) Ec R) as [-> RA]. split; [reflexivity|]. now constructor.
Qed.

Section Arith.
Variable iw : Z.
Hypothesis IW : 0 < iw.
Lemma as_kept D xs vs : 0 < width D -> Forall (fun x => 0 < width (fst x) /\ in_range (fst x) (snd x)) xs ->
  make_array_as D xs = Some vs -> vs = map snd xs /\ Forall (in_range D) vs.
Proof.
  intros HD H E. apply all_of_some in E. induction E as [|x v xs vs Ex E IH]; [now split|].
  inversion H as [|? ? [Hw Hr] H']; subst. destruct (IH H') as [-> K]. destruct (brace (fst x) D) as [c|] eqn:B; [|discriminate].
  injection Ex as <-. destruct (brace_some _ _ _ _ HD Hw B Hr) as [-> RA]. split; [reflexivity|now constructor].
Qed.
Lemma as_compiles D xs : Forall (fun x => 0 < width (fst x)) xs -> make_array_as D xs <> None <-> Forall (fun x => holds D (fst x)) xs.
Proof.
  intros H. rewrite Forall_forall in H. rewrite Forall_forall. split.
  - intros K x I. apply widening_ok; [now apply H|]. destruct (widening (fst x) D) eqn:E; [reflexivity|]. exfalso. apply K.
    apply (all_of_none _ _ x I). unfold brace. now rewrite E.
  - intros K. unfold make_array_as. destruct (all_of_total (fun x : ity * Z => c <- brace (fst x) D;; Some (c (snd x))) xs) as [ys ->]; [|discriminate].
    intros x I. unfold brace. pose proof (K x I) as L. apply widening_ok in L; [|now apply H]. now rewrite L.
Qed.
Lemma usual_width s t : 0 < width s -> 0 < width t -> 0 < width (usual iw s t).
Proof.
  intros. unfold usual, promote. destruct (Z.ltb_spec (width s) iw), (Z.ltb_spec (width t) iw); cbn [signed width Sint];
  repeat match goal with |- context [if ?b then _ else _] => destruct b end; cbn; lia.
Qed.
Lemma common2_width s t : 0 < width s -> 0 < width t -> 0 < width (common2 iw s t).
Proof. intros. unfold common2. destruct (ity_eqb s t); [assumption|now apply usual_width]. Qed.
Lemma common_width ts : forall t, 0 < width t -> Forall (fun t => 0 < width t) ts -> 0 < width (common iw t ts).
Proof.
  unfold common. induction ts as [|u ts IH]; intros t Ht H; [exact Ht|]. inversion H; subst. cbn [List.fold_left]. apply IH; [now apply common2_width|assumption].
Qed.
Lemma make_array_kept xs A vs : Forall (fun x => 0 < width (fst x) /\ in_range (fst x) (snd x)) xs ->
  make_array iw xs = Some (A, vs) -> vs = map snd xs /\ Forall (in_range A) vs.
Proof.
  intros H. destruct xs as [|x r]; cbn [make_array]; [intros [= <- <-]; now split|].
  destruct (make_array_as (common iw (fst x) (map fst r)) (x :: r)) as [us|] eqn:E; [|discriminate]. intros [= <- <-].
  revert E. apply as_kept; [|exact H]. inversion H as [|? ? [Hx _] H']; subst. apply common_width; [exact Hx|].
  apply Forall_map. eapply Forall_impl; [|exact H']. now intros ? [? _].
Qed.

(** ** Types of one signedness *)
Lemma ity_eqb_eq s t : ity_eqb s t = true <-> s = t.
Proof.
  unfold ity_eqb. rewrite Bool.andb_true_iff, Bool.eqb_true_iff, Z.eqb_eq. destruct s, t; cbn. split; [intros [-> ->]; reflexivity|now intros [= -> ->]].
Qed.
Lemma holds_signed a b : 0 < b <= a -> holds (Sint a) (Sint b).
Proof.
  intros H x. unfold in_range, tmin, tmax. cbn. pose proof (pow2_le (b - 1) (a - 1)). lia.
Qed.
Lemma holds_unsigned a b : 0 < b <= a -> holds (Uint a) (Uint b).
Proof. intros H x. unfold in_range, tmin, tmax. cbn. pose proof (pow2_le b a). lia. Qed.
Lemma holds_mixed a b : 0 < b < a -> holds (Sint a) (Uint b).
Proof.
  intros H x. unfold in_range, tmin, tmax. cbn. pose proof (pow2_le b (a - 1)). pose proof (pow2_pos (a - 1)). lia.
Qed.
Lemma ity_signed t : signed t = true -> t = Sint (width t).
Proof. now destruct t as [[] w]. Qed.
Lemma ity_unsigned t : signed t = false -> t = Uint (width t).
Proof. now destruct t as [[] w]. Qed.
Lemma common_signed ts : forall t, signed t = true -> Forall (fun t => signed t = true) ts ->
  signed (common iw t ts) = true /\ Forall (fun u => width u <= width (common iw t ts)) (t :: ts).
Proof.
  unfold common. induction ts as [|u ts IH]; intros t Ht H; cbn [List.fold_left].
  - split; [exact Ht|]. repeat constructor. lia.
  - inversion H as [|? ? Hu H']; subst. assert (K : signed (common2 iw t u) = true /\ width t <= width (common2 iw t u) /\ width u <= width (common2 iw t u)).
    { unfold common2. destruct (ity_eqb t u) eqn:E; [apply ity_eqb_eq in E; subst u; split; [exact Ht|lia]|].
      unfold usual, promote. destruct (Z.ltb_spec (width t) iw), (Z.ltb_spec (width u) iw); cbn [signed width Sint]; rewrite ?Ht, ?Hu; cbn [Bool.eqb];
      match goal with |- context [if ?a <? ?b then _ else _] => destruct (Z.ltb_spec a b) end; cbn [signed width Sint]; repeat split; try assumption; lia. }
    destruct K as (K1 & K2 & K3). destruct (IH _ K1 H') as [S F]. split; [exact S|]. inversion F; subst. constructor; [lia|]. constructor; [lia|assumption].
Qed.
Definition wide_enough (A : ity) (l : list ity) : Prop :=
  signed A = false /\ Forall (fun t => width t <= width A) l \/ A = Sint iw /\ Forall (fun t => width t < iw) l.
Lemma common_unsigned ts : forall t l, wide_enough t l -> Forall (fun t => signed t = false) ts ->
  wide_enough (common iw t ts) (l ++ ts).
Proof.
  unfold common. induction ts as [|u ts IH]; intros t l Ht H; cbn [List.fold_left]; [now rewrite app_nil_r|].
  inversion H as [|? ? Hu H']; subst. replace (l ++ u :: ts) with ((l ++ [u]) ++ ts) by now rewrite <- app_assoc.
  apply IH; [|exact H']. unfold wide_enough. rewrite !Forall_app.
  assert (One : forall n, width u <= n -> Forall (fun t => width t <= n) [u]) by (intros; constructor; [assumption|constructor]).
  assert (One' : forall n, width u < n -> Forall (fun t => width t < n) [u]) by (intros; constructor; [assumption|constructor]).
  assert (Mono : forall a b, a <= b -> Forall (fun t => width t <= a) l -> Forall (fun t => width t <= b) l)
    by (intros a b Hab; apply Forall_impl; intros; lia).
  assert (Mono2 : forall a b, a < b -> Forall (fun t => width t <= a) l -> Forall (fun t => width t < b) l)
    by (intros a b Hab; apply Forall_impl; intros; lia).
  assert (Mono3 : forall a b, a <= b -> Forall (fun t => width t < a) l -> Forall (fun t => width t <= b) l)
    by (intros a b Hab; apply Forall_impl; intros; lia).
  unfold common2. destruct (ity_eqb t u) eqn:E.
  { apply ity_eqb_eq in E. subst u. destruct Ht as [[Ht F]|[-> F]]; [|cbn in Hu; discriminate]. left. repeat split; [exact Ht|exact F|apply One; lia]. }
  unfold usual, promote. destruct Ht as [[Ht F]|[-> F]].
  - destruct (Z.ltb_spec (width t) iw), (Z.ltb_spec (width u) iw); cbn [signed width Sint]; rewrite ?Ht, ?Hu; cbn [Bool.eqb signed width Sint];
    rewrite ?Ht, ?Hu, ?Z.ltb_irrefl.
    + right. split; [reflexivity|]. split; [apply (Mono2 (width t)); assumption|auto].
    + destruct (Z.ltb_spec (width u) iw); [lia|]. left. split; [exact Hu|]. split; [eapply Mono; [|exact F]; lia|apply One; lia].
    + destruct (Z.ltb_spec (width t) iw); [lia|]. left. split; [exact Ht|]. split; [exact F|apply One; lia].
    + destruct (Z.ltb_spec (width t) (width u)); left; (split; [assumption|split; [eapply Mono; [|exact F]; lia|apply One; lia]]).
  - cbn [signed width Sint]. rewrite Z.ltb_irrefl. destruct (Z.ltb_spec (width u) iw); cbn [signed width Sint]; rewrite ?Hu; cbn [Bool.eqb signed width Sint].
    + rewrite Z.ltb_irrefl. right. split; [reflexivity|]. split; [exact F|auto].
    + destruct (Z.ltb_spec (width u) iw); [lia|]. left. split; [exact Hu|]. split; [eapply Mono3; [|exact F]; lia|apply One; lia].
Qed.
Lemma common_holds b t ts : Forall (fun t => signed t = b /\ 0 < width t) (t :: ts) -> Forall (holds (common iw t ts)) (t :: ts).
Proof.
  intros H. assert (Hs : Forall (fun t => signed t = b) (t :: ts)) by (eapply Forall_impl; [|exact H]; now intros ? [? _]).
  rewrite Forall_forall in H. apply Forall_forall. intros u I. destruct (H u I) as [Su Wu]. destruct b.
  - inversion Hs as [|? ? Ht H']; subst. destruct (common_signed ts t Ht H') as [S F]. rewrite Forall_forall in F. specialize (F u I).
    rewrite (ity_signed _ S), (ity_signed _ Su). apply holds_signed. lia.
  - inversion Hs as [|? ? Ht H']; subst. assert (WE : wide_enough t [t]) by (left; split; [exact Ht|constructor; [lia|constructor]]).
    destruct (common_unsigned ts t [t] WE H') as [[S F]|[S F]].
    + rewrite Forall_forall in F. specialize (F u I). rewrite (ity_unsigned _ S), (ity_unsigned _ Su). apply holds_unsigned. lia.
    + rewrite Forall_forall in F. specialize (F u I). rewrite S, (ity_unsigned _ Su). apply holds_mixed. lia.
Qed.
Lemma make_array_compiles x r : Forall (fun x => 0 < width (fst x)) (x :: r) ->
  make_array iw (x :: r) <> None <-> Forall (fun y => holds (common iw (fst x) (map fst r)) (fst y)) (x :: r).
Proof.
  intros H. rewrite <- as_compiles by exact H. cbn [make_array]. destruct (make_array_as _ (x :: r)); split; congruence.
Qed.
Lemma one_sign b xs : Forall (fun x => signed (fst x) = b /\ 0 < width (fst x)) xs -> make_array iw xs <> None.
Proof.
  intros H. destruct xs as [|x r]; [discriminate|]. apply make_array_compiles; [eapply Forall_impl; [|exact H]; now intros ? [_ ?]|].
  apply (Forall_map fst (holds _) (x :: r)). cbn [map]. apply (common_holds b). change (fst x :: map fst r) with (map fst (x :: r)). now apply Forall_map.
Qed.
Lemma common_same t ts : Forall (eq t) ts -> common iw t ts = t.
Proof.
  unfold common. induction ts as [|u ts IH]; intros H; [reflexivity|]. inversion H; subst. cbn [List.fold_left]. unfold common2 at 2.
  replace (ity_eqb u u) with true by (symmetry; now apply ity_eqb_eq). now apply IH.
Qed.
Lemma same_type t x xs : 0 < width t -> Forall (in_range t) (x :: xs) ->
  make_array iw (map (pair t) (x :: xs)) = Some (t, x :: xs).
Proof.
  intros Ht H. cbn [map make_array fst]. rewrite common_same by (rewrite map_map; apply Forall_forall; intros u I; apply in_map_iff in I as (y & <- & _); reflexivity).
  change ((t, x) :: map (pair t) xs) with (map (pair t) (x :: xs)). 
  destruct (make_array_as t (map (pair t) (x :: xs))) as [vs|] eqn:E.
  - apply as_kept in E as [-> _]; [|exact Ht|].
    + now rewrite map_map, map_id.
    + apply Forall_map. eapply Forall_impl; [|exact H]. intros y Hy. cbn. now split.
  - exfalso. apply (as_compiles t (map (pair t) (x :: xs))); [| |exact E].
    + apply Forall_map. apply Forall_forall. intros y _. exact Ht.
    + apply Forall_map. apply Forall_forall. intros y _ z. exact (fun h => h).
Qed.
Lemma not_holds a b : 0 < b -> ~ holds (Uint a) (Sint b).
Proof.
  intros H K. specialize (K (-1)). unfold in_range, tmin, tmax in K. cbn in K. pose proof (pow2_pos (b - 1)). lia.
Qed.
Lemma mixed s u x y : 0 < s <= u -> iw <= u ->
  make_array iw [(Sint s, x); (Uint u, y)] = None /\ make_array iw [(Uint u, y); (Sint s, x)] = None.
Proof.
  intros H Hu.
  assert (C : common2 iw (Sint s) (Uint u) = Uint u /\ common2 iw (Uint u) (Sint s) = Uint u).
  { unfold common2, ity_eqb, usual, promote. cbn. destruct (Z.ltb_spec s iw), (Z.ltb_spec u iw); try lia; cbn;
    match goal with |- context [?a <? ?b] => destruct (Z.ltb_spec a b) end; try lia; now split. }
  destruct C as [C1 C2]. cbn [make_array]. unfold common. cbn [map List.fold_left fst]. rewrite C1, C2.
  assert (B : brace (Sint s) (Uint u) = None).
  { unfold brace. destruct (widening (Sint s) (Uint u)) eqn:E; [|reflexivity]. apply widening_ok in E; [|cbn; lia]. now apply not_holds in E. }
  unfold make_array_as. split.
  - rewrite (all_of_none _ _ (Sint s, x)); [reflexivity|now left|]. cbn [fst]. now rewrite B.
  - rewrite (all_of_none _ _ (Sint s, x)); [reflexivity|now right; left|]. cbn [fst]. now rewrite B.
Qed.
End Arith.
End Ints.

(** * priority *)
Lemma resolve_iff N os i : resolve N os = Some i <->
  exists k, candidate N os i k /\ forall j k', candidate N os j k' -> j <> i -> k' < k.
Proof.
  assert (Cand : forall j k, candidate N os j k <-> j < length os /\ nth j os (O, false) = (k, true) /\ k <= N).
  { intros j k. unfold candidate. split.
    - intros [E L]. assert (j < length os) by (apply nth_error_Some; congruence). apply nth_error_nth with (d := (O, false)) in E. auto.
    - intros (L & E & K). split; [|exact K]. rewrite <- E. now apply nth_error_nth'. }
  assert (Via : forall j, viable N (nth j os (O, false)) = true <-> exists k, nth j os (O, false) = (k, true) /\ k <= N).
  { intros j. unfold viable. destruct (nth j os (O, false)) as [k []]; cbn [fst snd]; rewrite ?Bool.andb_true_r, ?Bool.andb_false_r, ?Nat.leb_le.
    - split; [intros; now exists k|]. now intros (k' & [= <-] & ?).
    - split; [discriminate|]. now intros (k' & ? & ?). }
  set (ok := fun i => viable N (nth i os (O, false)) &&
    forallb (fun j => (i =? j) || negb (viable N (nth j os (O, false))) || better (fst (nth i os (O, false))) (fst (nth j os (O, false)))) (seq 0 (length os))).
  assert (Ok : forall i, i < length os -> ok i = true <-> exists k, candidate N os i k /\ forall j k', candidate N os j k' -> j <> i -> k' < k).
  { intros p Lp. unfold ok. rewrite Bool.andb_true_iff, Via, forallb_forall. split.
    - intros [(k & E & L) A]. exists k. split; [now apply Cand|]. intros j k' Cj Ne. apply Cand in Cj as (Lj & Ej & Kj).
      assert (Ij : In j (seq 0 (length os))) by (apply in_seq; lia). specialize (A j Ij). rewrite !Bool.orb_true_iff in A.
      destruct A as [[A|A]|A]; [apply Nat.eqb_eq in A; congruence| |].
      + apply Bool.negb_true_iff in A. assert (V : viable N (nth j os (O, false)) = true) by (apply Via; now exists k'). congruence.
      + rewrite E, Ej in A. cbn in A. unfold better in A. now apply Nat.ltb_lt in A.
    - intros (k & C & A). apply Cand in C as (L & E & K). split; [now exists k|]. intros j Ij. apply in_seq in Ij.
      destruct (Nat.eqb_spec p j) as [|Ne]; [reflexivity|]. cbn [orb]. destruct (viable N (nth j os (O, false))) eqn:V; [|reflexivity].
      cbn [negb orb]. apply Via in V as (k' & Ej & Kj). rewrite E, Ej. cbn. apply Nat.ltb_lt. apply (A j); [apply Cand; repeat split; [lia|exact Ej|exact Kj]|congruence]. }
  change (resolve N os) with (find ok (seq 0 (length os))). split.
  - intros F. apply find_some in F as [I F]. apply in_seq in I. apply Ok in F; [exact F|lia].
  - intros H. destruct (find ok (seq 0 (length os))) as [p|] eqn:F.
    + apply find_some in F as [I F]. apply in_seq in I. apply Ok in F as (k & C & A); [|lia]. destruct H as (k' & C' & A').
      destruct (Nat.eq_dec p i) as [->|Ne]; [reflexivity|]. pose proof (A i k' C' ltac:(congruence)). pose proof (A' p k C Ne). lia.
    + exfalso. destruct H as (k & C & A). pose proof (proj1 (Cand i k) C) as (L & _). 
      assert (I : In i (seq 0 (length os))) by (apply in_seq; lia). pose proof (find_none _ _ F i I) as Z0.
      assert (ok i = true) by (apply Ok; [exact L|now exists k]). congruence.
Qed.
Lemma best_exists (c : nat -> nat -> Prop) (os : list (nat * bool)) N :
  (forall i k, c i k <-> candidate N os i k) -> (exists i k, c i k) -> exists i k, c i k /\ forall j k', c j k' -> k' <= k.
Proof.
  intros Hc (i & k & H). assert (B : forall i k, c i k -> k <= N) by (intros j k' K; apply Hc in K; apply K).
  remember (N - k) as d eqn:D. revert i k H D. induction d as [d IH] using lt_wf_ind. intros i k H D.
  assert (Dec : (exists j k', c j k' /\ k < k') \/ forall j k', c j k' -> k' <= k).
  { destruct (existsb (fun o : nat * bool => (k <? fst o) && (fst o <=? N) && snd o) os) eqn:E.
    - left. apply existsb_exists in E as ([k' b] & I & E). cbn in E. rewrite !Bool.andb_true_iff in E. destruct E as [[E1 E2] ->].
      apply Nat.ltb_lt in E1. apply Nat.leb_le in E2. apply In_nth_error in I as [j I]. exists j, k'. split; [|exact E1]. apply Hc. now split.
    - right. intros j k' K. destruct (Nat.le_gt_cases k' k) as [|L]; [assumption|]. exfalso. apply Hc in K as [K1 K2].
      assert (X : existsb (fun o : nat * bool => (k <? fst o) && (fst o <=? N) && snd o) os = true); [|congruence].
      apply existsb_exists. exists (k', true). split; [now apply nth_error_In in K1|]. cbn. rewrite !Bool.andb_true_iff. repeat split; [now apply Nat.ltb_lt|now apply Nat.leb_le]. }
  destruct Dec as [(j & k' & K & L)|K].
  - apply (IH (N - k')) with (i := j) (k := k'); [|exact K|reflexivity]. pose proof (B _ _ K). lia.
  - exists i, k. split; [exact H|exact K].
Qed.
Lemma resolve_distinct N os : NoDup (map fst os) -> (exists i k, candidate N os i k) -> exists i, resolve N os = Some i.
Proof.
  intros D H. destruct (best_exists (candidate N os) os N) as (i & k & C & B); [tauto|exact H|]. exists i. apply resolve_iff. exists k. split; [exact C|].
  intros j k' C' Ne. pose proof (B j k' C'). destruct (Nat.eq_dec k' k) as [->|]; [|lia]. exfalso. apply Ne.
  destruct C as [E _], C' as [E' _]. apply (proj1 (NoDup_nth_error (map fst os)) D).
  - rewrite map_length. apply nth_error_Some. congruence.
  - rewrite !nth_error_map, E, E'. reflexivity.
Qed.
