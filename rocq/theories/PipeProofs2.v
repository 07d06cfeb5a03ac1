From Verif Require Import Base BaseLemmas BitModel ConcModel AtomicModel WaitModel WaitSpec WaitProofs WaitProofs2 TicketProofs PipeSpec PipeProofs.
Open Scope nat_scope.

Section Pipe.
Variables (iw w vw ew : N) (size : nat) (item : nat -> N).
Hypothesis Hw : (w <= ew)%N.
Hypothesis Hv : (vw <= ew)%N.
Hypothesis Hi : forall i, (item i < 2 ^ vw)%N.
Hypothesis Hs : 0 < size.
Notation conc := (conc iw w vw ew item).

Lemma place_at l s i : is_at l (conc s) i <-> i = 0 /\ place (pt iw w vw ew item (pp s)) = l \/ i = 1 /\ place (ct iw w vw ew (cc s)) = l.
Proof.
  unfold is_at, conc. cbn [threads]. destruct i as [|[|i]]; cbn [nth_error].
  - split; [intros (t & [= <-] & E); auto|intros [[_ E]|[X _]]; [eauto|discriminate]].
  - split; [intros (t & [= <-] & E); auto|intros [[X _]|[_ E]]; [discriminate|eauto]].
  - split; [intros (t & E & _); destruct i; discriminate|intros [[X _]|[X _]]; discriminate].
Qed.
Lemma received_got s g : received (conc s) g <-> g = got (cc s).
Proof.
  unfold received. rewrite !place_at. split.
  - destruct (cc s); cbn [ct place got]; intros [[[X _]|[_ E]]|[[[X _]|[_ E]]|[[X _]|[_ E]]]]; congruence.
  - intros ->. destruct (cc s); cbn [ct place got]; auto 6.
Qed.
Lemma passed_tl s i : passed_on (conc s) i -> i <= tl (pp s) <= i + 1.
Proof.
  unfold passed_on. rewrite !place_at. destruct (pp s); cbn [pt place tl]; intros [[[_ E]|[X _]]|[[[_ E]|[X _]]|[[_ E]|[X _]]]]; try discriminate; injection E; lia.
Qed.
Lemma passed_some s : exists i, passed_on (conc s) i.
Proof. unfold passed_on. setoid_rewrite place_at. destruct (pp s) as [i|i|i k|i|i|i|i|i|i]; cbn [pt place]; exists i; auto 6. Qed.
Lemma got_length s : hd (cc s) <= length (got (cc s)) <= hd (cc s) + 1.
Proof. destruct (cc s); cbn [hd got]; rewrite ?app_length; cbn [length]; lia. Qed.

(** ** As many slots as the counters have values, or more *)
Section Big.
Hypothesis Hw0 : (0 < w)%N.
Hypothesis Hbig : (2 ^ w <= N.of_nat size)%N.
Notation R := (R w vw size item).
Lemma rstep_length s me : length (sl (rstep w vw size item s me)) = length (sl s).
Proof.
  destruct me as [|[|me]]; cbn [rstep]; [unfold pstep; destruct (pp s)|unfold cstep; destruct (cc s)|]; cbn [sl]; rewrite ?set_nth_length; reflexivity.
Qed.
Lemma run_R sched t : length (sl (R sched t)) = size /\ pipe_run w size item iw vw ew sched t = conc (R sched t).
Proof.
  unfold pipe_run. induction t as [|t [IL IH]]; cbn [state_at PipeProofs.R].
  - split; [apply repeat_length|]. unfold PipeProofs.conc. cbn -[N.modulo N.pow repeat]. rewrite N.mod_0_l by (apply N.pow_nonzero; lia). reflexivity.
  - split; [rewrite rstep_length; exact IL|]. rewrite IH. apply simulates_pipe; assumption.
Qed.
Lemma always_room i h : room w size i h = true.
Proof. unfold room. apply N.ltb_lt. pose proof (N.mod_lt (N.of_nat i + 2 ^ w - N.of_nat h mod 2 ^ w) (2 ^ w) ltac:(apply N.pow_nonzero; lia)). lia. Qed.
Definition count : nat := if (N.of_nat (size + 1) mod 2 ^ w =? 0)%N then size + 2 else size + 1.
Definition flood (t : nat) : nat * bool :=
  if t <? count * 9 then (0, true) else if t <? 6 + count * 9 then (1, true) else (t mod 2, true).
Lemma pow2 : (2 <= 2 ^ w)%N.
Proof. replace w with (1 + (w - 1))%N by lia. rewrite N.pow_add_r. pose proof (N.pow_nonzero 2 (w - 1) ltac:(lia)). cbn [N.pow]. change (2 ^ 1)%N with 2%N. nia. Qed.
Lemma count_mod : (N.of_nat count mod 2 ^ w <> 0)%N.
Proof.
  unfold count. destruct (N.eqb_spec (N.of_nat (size + 1) mod 2 ^ w) 0) as [E|E]; [|exact E].
  replace (N.of_nat (size + 2)) with (N.of_nat (size + 1) + 1)%N by lia. pose proof pow2.
  rewrite N.add_mod, E, N.add_0_l, N.mod_mod by lia. rewrite N.mod_small by lia. lia.
Qed.
Lemma flood_push m : m < count -> forall l, R flood (m * 9) = PS (PW0 m) (CW0 []) l ->
  R flood (S m * 9) = PS (PW0 (m + 1)) (CW0 []) (set_nth (m mod size) (item m) l).
Proof.
  intros L l E. cbn [Nat.mul]. cbn [Nat.add].
  assert (Q : forall r, r < 9 -> fst (flood (r + m * 9)) = 0).
  { intros r Hr. unfold flood. destruct (Nat.ltb_spec (r + m * 9) (count * 9)); [reflexivity|nia]. }
  cbn [PipeProofs.R].
  rewrite (Q 0 ltac:(lia) : fst (flood (m * 9)) = 0), (Q 1 ltac:(lia) : fst (flood (S (m * 9))) = 0),
    (Q 2 ltac:(lia) : fst (flood (S (S (m * 9)))) = 0), (Q 3 ltac:(lia) : fst (flood (S (S (S (m * 9))))) = 0),
    (Q 4 ltac:(lia) : fst (flood (S (S (S (S (m * 9)))))) = 0), (Q 5 ltac:(lia) : fst (flood (S (S (S (S (S (m * 9))))))) = 0),
    (Q 6 ltac:(lia) : fst (flood (S (S (S (S (S (S (m * 9)))))))) = 0), (Q 7 ltac:(lia) : fst (flood (S (S (S (S (S (S (S (m * 9))))))))) = 0),
    (Q 8 ltac:(lia) : fst (flood (S (S (S (S (S (S (S (S (m * 9)))))))))) = 0).
  rewrite E. cbn [rstep]. unfold pstep at 9. cbn [pp cc sl]. unfold pstep at 8. cbn [pp cc sl]. unfold pstep at 7. cbn [pp cc sl].
  rewrite always_room. unfold pstep at 6. cbn [pp cc sl]. unfold pstep at 5. cbn [pp cc sl]. unfold pstep at 4. cbn [pp cc sl].
  unfold pstep at 3. cbn [pp cc sl]. unfold pstep at 2. cbn [pp cc sl]. unfold pstep. cbn [pp cc sl]. reflexivity.
Qed.
Lemma flooded m : m <= count -> exists l, R flood (m * 9) = PS (PW0 m) (CW0 []) l /\ (size < m -> nth_error l 0 = Some (item size)).
Proof.
  induction m as [|m IH]; intros L.
  - eexists. split; [reflexivity|lia].
  - destruct (IH ltac:(lia)) as (l & E & N0). pose proof (run_R flood (m * 9)) as [Ll _]. rewrite E in Ll. cbn [sl] in Ll.
    exists (set_nth (m mod size) (item m) l). split; [rewrite (flood_push m L l E); now rewrite Nat.add_1_r|].
    intros G. rewrite nth_error_set_nth by (rewrite Ll; apply Nat.mod_upper_bound; lia).
    destruct (Nat.eq_dec m size) as [->|Ne]; [now rewrite Nat.mod_same by lia|].
    pose proof pow2. assert (m = size + 1) as -> by (unfold count in L; destruct (_ =? _)%N; lia).
    replace (size + 1) with (1 + 1 * size) by lia. rewrite Nat.mod_add, Nat.mod_small by lia. cbn [Nat.eqb]. apply N0. lia.
Qed.
Lemma flood_fair : fair 2 flood.
Proof.
  intros i Hi2 t. exists (i + (t + (6 + count * 9)) * 2). split; [lia|]. unfold flood.
  destruct (Nat.ltb_spec (i + (t + (6 + count * 9)) * 2) (count * 9)); [lia|].
  destruct (Nat.ltb_spec (i + (t + (6 + count * 9)) * 2) (6 + count * 9)); [lia|].
  cbn [fst]. rewrite Nat.mod_add, Nat.mod_small by lia. reflexivity.
Qed.
Lemma overwrites : exists sched t, fair 2 sched /\ received (pipe_run w size item iw vw ew sched t) [item size].
Proof.
  exists flood, (S (S (S (S (S (S (count * 9))))))). split; [exact flood_fair|].
  rewrite (proj2 (run_R _ _)). apply received_got.
  destruct (flooded count (le_n _)) as (l & E & N0). specialize (N0 ltac:(unfold count; destruct (_ =? _)%N; lia)).
  assert (Q : forall r, r < 6 -> fst (flood (r + count * 9)) = 1).
  { intros r Hr. unfold flood. destruct (Nat.ltb_spec (r + count * 9) (count * 9)); [lia|].
    destruct (Nat.ltb_spec (r + count * 9) (6 + count * 9)); [reflexivity|lia]. }
  remember (count * 9) as T eqn:ET. cbn [PipeProofs.R].
  rewrite (Q 0 ltac:(lia) : fst (flood T) = 1), (Q 1 ltac:(lia) : fst (flood (S T)) = 1),
    (Q 2 ltac:(lia) : fst (flood (S (S T))) = 1), (Q 3 ltac:(lia) : fst (flood (S (S (S T)))) = 1),
    (Q 4 ltac:(lia) : fst (flood (S (S (S (S T))))) = 1), (Q 5 ltac:(lia) : fst (flood (S (S (S (S (S T)))))) = 1).
  rewrite E. cbn [rstep]. unfold cstep at 6. cbn [pp cc sl]. unfold cstep at 5. cbn [pp cc sl tl]. unfold cstep at 4. cbn [pp cc sl length].
  pose proof count_mod as CM. replace (N.of_nat 0 mod 2 ^ w)%N with 0%N by (symmetry; apply N.mod_0_l; apply N.pow_nonzero; lia).
  rewrite (proj2 (N.eqb_neq _ _) CM). unfold cstep at 3. cbn [pp cc sl]. unfold cstep at 2. cbn [pp cc sl length]. unfold cstep. cbn [pp cc sl got app].
  rewrite Nat.mod_0_l by lia. rewrite (nth_error_nth _ _ 0%N N0). rewrite N.mod_small by apply Hi. reflexivity.
Qed.
End Big.
End Pipe.
