From Verif Require Import Base BaseLemmas LatchCopyModel LatchCopySpec.
Open Scope N_scope.

Section P.
Context {W V F : Type}.
Variable call : F -> W -> W * option V.
Variables (left_v : V -> V) (left_f : F -> F).
Variables (copyable assignable : bool).
Notation step := (step call left_v left_f copyable assignable).
Notation history := (history call left_v left_f copyable assignable).
Notation value_of := (value_of (F := F) left_v).
Notation function_of := (function_of (V := V) left_f).
Notation allowed := (allowed left_v copyable assignable).
Notation expected := (expected call left_v left_f).
Notation explained := (explained call left_v left_f copyable assignable).

Definition Rep (h : past (V := V) (F := F)) (s : state W V F) : Prop :=
  len (objects s) = population h /\
  forall i o, rd (objects s) i = Some o -> value_of h i = opt o /\ function_of h i = Some (lazy o).

Lemma rep_rd h s i : Rep h s -> i < population h -> exists o, rd (objects s) i = Some o.
Proof.
  intros [L _] Hi. rewrite rd_nth_error. destruct (nth_error (objects s) (N.to_nat i)) eqn:E; [eauto|].
  apply nth_error_None in E. unfold len in L. lia.
Qed.
Lemma rd_pop h s i o : Rep h s -> rd (objects s) i = Some o -> i < population h.
Proof.
  intros [L _] E. rewrite rd_nth_error in E. assert (X : nth_error (objects s) (N.to_nat i) <> None) by congruence.
  apply nth_error_Some in X. unfold len in L. lia.
Qed.
Lemma wr_ok (s : state W V F) i (o : @object V F) x : rd (objects s) i = Some x -> exists os, wr (objects s) i o = Some os.
Proof.
  intros E. apply wr_lt_Some. rewrite rd_nth_error in E. assert (X : nth_error (objects s) (N.to_nat i) <> None) by congruence.
  apply nth_error_Some in X. unfold len. lia.
Qed.
Lemma rd_snoc (l : list (@object V F)) o i x : rd (l ++ [o]) i = Some x -> (i = len l /\ x = o) \/ (i <> len l /\ rd l i = Some x).
Proof.
  rewrite !rd_nth_error. intros E. destruct (Nat.lt_ge_cases (N.to_nat i) (length l)) as [H|H].
  - rewrite nth_error_app1 in E by exact H. right. split; [unfold len; lia|exact E].
  - rewrite nth_error_app2 in E by exact H. destruct (N.to_nat i - length l)%nat as [|n] eqn:D; cbn in E.
    + injection E as <-. left. split; [unfold len; lia|reflexivity].
    + destruct n; discriminate.
Qed.

(** A new object. *)
Lemma rep_extend h s (o : op V F) r (x : @object V F) : Rep h s -> creates o = true ->
  (value_of ((o, r) :: h) (population h) = opt x /\ function_of ((o, r) :: h) (population h) = Some (lazy x)) ->
  (forall i y, rd (objects s) i = Some y -> i <> population h ->
    value_of ((o, r) :: h) i = opt y /\ function_of ((o, r) :: h) i = Some (lazy y)) ->
  Rep ((o, r) :: h) (extend s x).
Proof.
  intros [L R] C N O. split.
  - cbn [objects extend population]. rewrite C, len_app, L. reflexivity.
  - intros i y E. cbn [objects extend] in E. apply rd_snoc in E. rewrite L in E.
    destruct E as [[-> ->]|[Hi E]]; [exact N|exact (O i y E Hi)].
Qed.
(** A change to object [k]. *)
Lemma rep_replace h s (o : op V F) r k (x : @object V F) os w m : Rep h s -> creates o = false -> wr (objects s) k x = Some os ->
  (value_of ((o, r) :: h) k = opt x /\ function_of ((o, r) :: h) k = Some (lazy x)) ->
  (forall i y, rd (objects s) i = Some y -> i <> k ->
    value_of ((o, r) :: h) i = opt y /\ function_of ((o, r) :: h) i = Some (lazy y)) ->
  Rep ((o, r) :: h) (State os w m).
Proof.
  intros [L R] C Wr N O. split.
  - cbn [objects population]. rewrite C, (wr_len _ _ _ _ Wr). exact L.
  - intros i y E. cbn [objects] in E. rewrite (rd_wr _ _ _ _ i Wr) in E. destruct (N.eqb_spec i k) as [->|Hi].
    + injection E as <-. exact N.
    + exact (O i y E Hi).
Qed.

Ltac eqs := repeat match goal with |- context [?a =? ?b] => destruct (N.eqb_spec a b); try congruence; try lia end.

(** Access, Take and Refresh. *)
Lemma access_ok h s (o : op V F) i (x y : @object V F) r s' :
  Rep h s -> creates o = false -> rd (objects s) i = Some x -> lazy y = lazy x ->
  (forall r j, value_of ((o, r) :: h) j = if j =? i then got r else value_of h j) ->
  (forall r j, function_of ((o, r) :: h) j = function_of h j) ->
  access call s i y = Some (r, s') ->
  exists fs, made s' = made s ++ fs /\ Rep ((o, r) :: h) s' /\
  match opt y with
  | Some v => r = Got v /\ world s' = world s /\ fs = []
  | None => evaluate call left_f h i (world s) r (world s') fs
  end.
Proof.
  intros R C E Ly HV HF A. destruct R as [L R]. destruct (R _ _ E) as [Vx Fx].
  unfold access, populate, replace in A. destruct (opt y) as [v|] eqn:Oy.
  - cbn in A. destruct (wr (objects s) i y) as [os|] eqn:Wr; [|discriminate]. rewrite Oy in A. injection A as <- <-.
    exists []. split; [reflexivity|]. split; [|auto].
    apply (rep_replace h s _ _ i y); [split; assumption|exact C|exact Wr| |].
    + rewrite HV, HF, N.eqb_refl, Ly, Oy. auto.
    + intros j z Ej Hj. rewrite HV, HF. destruct (N.eqb_spec j i); [contradiction|]. exact (R _ _ Ej).
  - destruct (call (lazy y) (world s)) as [w' v] eqn:Cl. cbn in A.
    destruct (wr (objects s) i (Object (lazy y) v)) as [os|] eqn:Wr; [|discriminate].
    exists [lazy y].
    assert (Hr : r = match v with Some v => Got v | None => Threw end /\ s' = State os w' (made s ++ [lazy y])).
    { destruct v as [v|]; injection A as <- <-; auto. }
    destruct Hr as [-> ->]. split; [reflexivity|]. split.
    + apply (rep_replace h s _ _ i (Object (lazy y) v)); [split; assumption|exact C|exact Wr| |].
      * rewrite HV, HF, N.eqb_refl. cbn [opt lazy]. rewrite Ly. destruct v; auto.
      * intros j z Ej Hj. rewrite HV, HF. destruct (N.eqb_spec j i); [contradiction|]. exact (R _ _ Ej).
    + exists (lazy y), v. rewrite Ly in *. repeat split; [exact Fx|exact Cl].
Qed.

Lemma step_sound h s o r s' : Rep h s -> step s o = Some (r, s') ->
  allowed h o /\ exists fs, made s' = made s ++ fs /\ Rep ((o, r) :: h) s' /\ expected h (world s) o r (world s') fs.
Proof.
  intros R E. pose proof R as [L RR]. destruct o as [f|i|i|i j|i j|i|i|i|i|i|i x]; cbn [LatchCopyModel.step] in E.
  - injection E as <- <-. split; [exact Logic.I|]. exists []. rewrite app_nil_r. split; [reflexivity|]. split; [|cbn; auto].
    apply (rep_extend h); [exact R|reflexivity| |].
    + cbn. rewrite N.eqb_refl. auto.
    + intros i y Ei Hi. cbn. destruct (N.eqb_spec i (population h)); [contradiction|]. exact (RR _ _ Ei).
  - destruct (rd (objects s) i) as [x|] eqn:Ex; [|discriminate]. destruct copyable; [|discriminate]. injection E as <- <-.
    split; [split; [exact (rd_pop _ _ _ _ R Ex)|reflexivity]|]. exists []. rewrite app_nil_r. split; [reflexivity|].
    split; [|cbn; auto]. apply (rep_extend h); [exact R|reflexivity| |].
    + cbn. rewrite N.eqb_refl. exact (RR _ _ Ex).
    + intros k y Ek Hk. cbn. destruct (N.eqb_spec k (population h)); [contradiction|]. exact (RR _ _ Ek).
  - destruct (rd (objects s) i) as [x|] eqn:Ex; [|discriminate]. unfold replace in E.
    destruct (wr (objects s) i (moved_from left_v left_f x)) as [os|] eqn:Wr; [|discriminate]. injection E as <- <-.
    assert (Hp := rd_pop _ _ _ _ R Ex). destruct (RR _ _ Ex) as [V0 F0].
    split; [exact Hp|]. exists []. rewrite app_nil_r. split; [reflexivity|]. split; [|cbn; auto]. split.
    + cbn. rewrite len_app, (wr_len _ _ _ _ Wr), L. reflexivity.
    + intros k y Ek. cbn [objects extend] in Ek. apply rd_snoc in Ek. rewrite (wr_len _ _ _ _ Wr), L in Ek. cbn.
      destruct Ek as [[-> ->]|[Hk Ek]].
      * rewrite N.eqb_refl. auto.
      * destruct (N.eqb_spec k (population h)); [contradiction|]. rewrite (rd_wr _ _ _ _ k Wr) in Ek.
        destruct (N.eqb_spec k i) as [->|Hki].
        -- injection Ek as <-. cbn. rewrite V0, F0. auto.
        -- exact (RR _ _ Ek).
  - destruct (rd (objects s) i) as [x|] eqn:Ex; [|discriminate]. destruct (rd (objects s) j) as [y|] eqn:Ey; [|discriminate].
    destruct (copyable && assignable)%bool eqn:B; [|discriminate]. apply andb_true_iff in B as [B1 B2]. unfold replace in E.
    destruct (wr (objects s) i y) as [os|] eqn:Wr; [|discriminate]. injection E as <- <-.
    split; [exact (conj (rd_pop _ _ _ _ R Ex) (conj (rd_pop _ _ _ _ R Ey) (conj B1 B2)))|].
    exists []. rewrite app_nil_r. split; [reflexivity|]. split; [|cbn; auto].
    apply (rep_replace h s _ _ i y); [exact R|reflexivity|exact Wr| |].
    + cbn. rewrite N.eqb_refl. exact (RR _ _ Ey).
    + intros k z Ek Hk. cbn. destruct (N.eqb_spec k i); [contradiction|]. exact (RR _ _ Ek).
  - destruct (N.eqb_spec i j) as [|Hij]; [discriminate|].
    destruct (rd (objects s) i) as [x|] eqn:Ex; [|discriminate]. destruct (rd (objects s) j) as [y|] eqn:Ey; [|discriminate].
    destruct assignable; [|discriminate]. unfold replace in E.
    destruct (wr (objects s) j (moved_from left_v left_f y)) as [os1|] eqn:W1; [|discriminate]. cbn [objects world made] in E.
    destruct (wr os1 i y) as [os2|] eqn:W2; [|discriminate]. injection E as <- <-.
    destruct (RR _ _ Ey) as [V0 F0].
    split; [exact (conj (rd_pop _ _ _ _ R Ex) (conj (rd_pop _ _ _ _ R Ey) (conj Hij eq_refl)))|].
    exists []. rewrite app_nil_r. split; [reflexivity|]. split; [|cbn; auto]. split.
    + cbn. rewrite (wr_len _ _ _ _ W2), (wr_len _ _ _ _ W1). exact L.
    + intros k z Ek. cbn [objects] in Ek. rewrite (rd_wr _ _ _ _ k W2) in Ek. cbn. destruct (N.eqb_spec k i) as [->|Hki].
      * injection Ek as <-. auto.
      * rewrite (rd_wr _ _ _ _ k W1) in Ek. destruct (N.eqb_spec k j) as [->|Hkj].
        -- injection Ek as <-. cbn. rewrite V0, F0. auto.
        -- exact (RR _ _ Ek).
  - destruct (rd (objects s) i) as [x|] eqn:Ex; [|discriminate]. split; [exact (rd_pop _ _ _ _ R Ex)|].
    destruct (access_ok h s (Access i) i x x r s' R eq_refl Ex eq_refl (fun _ _ => eq_refl) (fun _ _ => eq_refl) E) as (fs & M & R' & X).
    exists fs. split; [exact M|]. split; [exact R'|]. cbn. rewrite (proj1 (RR _ _ Ex)). exact X.
  - destruct (rd (objects s) i) as [x|] eqn:Ex; [|discriminate]. destruct copyable; [|discriminate].
    split; [split; [exact (rd_pop _ _ _ _ R Ex)|reflexivity]|].
    destruct (access_ok h s (Take i) i x x r s' R eq_refl Ex eq_refl (fun _ _ => eq_refl) (fun _ _ => eq_refl) E) as (fs & M & R' & X).
    exists fs. split; [exact M|]. split; [exact R'|]. cbn. rewrite (proj1 (RR _ _ Ex)). exact X.
  - destruct (rd (objects s) i) as [x|] eqn:Ex; [|discriminate]. injection E as <- <-. split; [exact (rd_pop _ _ _ _ R Ex)|].
    exists []. rewrite app_nil_r. split; [reflexivity|]. split; [split; [exact L|exact RR]|]. cbn. rewrite (proj1 (RR _ _ Ex)). auto.
  - destruct (rd (objects s) i) as [x|] eqn:Ex; [|discriminate]. unfold replace in E.
    destruct (wr (objects s) i (Object (lazy x) None)) as [os|] eqn:Wr; [|discriminate]. injection E as <- <-.
    split; [exact (rd_pop _ _ _ _ R Ex)|]. exists []. rewrite app_nil_r. split; [reflexivity|]. split; [|cbn; auto].
    apply (rep_replace h s _ _ i (Object (lazy x) None)); [exact R|reflexivity|exact Wr| |].
    + cbn. rewrite N.eqb_refl. split; [reflexivity|exact (proj2 (RR _ _ Ex))].
    + intros k z Ek Hk. cbn. destruct (N.eqb_spec k i); [contradiction|]. exact (RR _ _ Ek).
  - destruct (rd (objects s) i) as [x|] eqn:Ex; [|discriminate]. split; [exact (rd_pop _ _ _ _ R Ex)|].
    destruct (access_ok h s (Refresh i) i x (Object (lazy x) None) r s' R eq_refl Ex eq_refl (fun _ _ => eq_refl) (fun _ _ => eq_refl) E) as (fs & M & R' & X).
    exists fs. split; [exact M|]. split; [exact R'|]. exact X.
  - destruct (rd (objects s) i) as [y|] eqn:Ex; [|discriminate]. destruct (opt y) as [v|] eqn:Oy; [|discriminate]. unfold replace in E.
    destruct (wr (objects s) i (Object (lazy y) (Some x))) as [os|] eqn:Wr; [|discriminate]. injection E as <- <-.
    split; [split; [exact (rd_pop _ _ _ _ R Ex)|rewrite (proj1 (RR _ _ Ex)), Oy; discriminate]|].
    exists []. rewrite app_nil_r. split; [reflexivity|]. split; [|cbn; auto].
    apply (rep_replace h s _ _ i (Object (lazy y) (Some x))); [exact R|reflexivity|exact Wr| |].
    + cbn. rewrite N.eqb_refl. split; [reflexivity|exact (proj2 (RR _ _ Ex))].
    + intros k z Ek Hk. cbn. destruct (N.eqb_spec k i); [contradiction|]. exact (RR _ _ Ek).
Qed.

Lemma access_total s i (x y : @object V F) : rd (objects s) i = Some x -> exists r s', access (W := W) call s i y = Some (r, s').
Proof.
  intros E. unfold access, populate, replace. destruct (opt y) as [v|] eqn:Oy.
  - cbn. destruct (wr_ok s i y x E) as (os & ->). rewrite Oy. eauto.
  - destruct (call (lazy y) (world s)) as [w' r]. cbn. destruct (wr_ok s i (Object (lazy y) r) x E) as (os & ->).
    destruct r; cbn; eauto.
Qed.
Lemma step_total h s o : Rep h s -> allowed h o -> exists r s', step s o = Some (r, s').
Proof.
  intros R A. pose proof R as [L RR]. destruct o as [f|i|i|i j|i j|i|i|i|i|i|i x]; cbn [LatchCopySpec.allowed LatchCopyModel.step] in *.
  - eauto.
  - destruct A as [A ->]. destruct (rep_rd _ _ _ R A) as (x & ->). cbn. eauto.
  - destruct (rep_rd _ _ _ R A) as (x & E). rewrite E. cbn. unfold replace. destruct (wr_ok s i (moved_from left_v left_f x) x E) as (os & ->). eauto.
  - destruct A as (A & B & -> & ->). destruct (rep_rd _ _ _ R A) as (x & E). destruct (rep_rd _ _ _ R B) as (y & ->). rewrite E. cbn.
    unfold replace. destruct (wr_ok s i y x E) as (os & ->). eauto.
  - destruct A as (A & B & Hij & ->). destruct (N.eqb_spec i j); [contradiction|].
    destruct (rep_rd _ _ _ R A) as (x & E). destruct (rep_rd _ _ _ R B) as (y & E2). rewrite E, E2. cbn.
    unfold replace. destruct (wr_ok s j (moved_from left_v left_f y) y E2) as (os & Wr). rewrite Wr. cbn.
    destruct (wr_lt_Some os i y) as (os2 & ->); [rewrite (wr_len _ _ _ _ Wr), L; exact A|]. eauto.
  - destruct (rep_rd _ _ _ R A) as (x & E). rewrite E. exact (access_total _ _ x x E).
  - destruct A as [A ->]. destruct (rep_rd _ _ _ R A) as (x & E). rewrite E. exact (access_total _ _ x x E).
  - destruct (rep_rd _ _ _ R A) as (x & ->). cbn. eauto.
  - destruct (rep_rd _ _ _ R A) as (x & E). rewrite E. cbn. unfold replace. destruct (wr_ok s i (Object (lazy x) None) x E) as (os & ->). eauto.
  - destruct (rep_rd _ _ _ R A) as (x & E). rewrite E. exact (access_total _ _ x _ E).
  - destruct A as [A B]. destruct (rep_rd _ _ _ R A) as (y & E). rewrite E. rewrite (proj1 (RR _ _ E)) in B. cbn.
    destruct (opt y); [|contradiction]. unfold replace. destruct (wr_ok s i (Object (lazy y) (Some x)) y E) as (os & ->). eauto.
Qed.

Lemma expected_unique h w o r1 w1 fs1 r2 w2 fs2 :
  expected h w o r1 w1 fs1 -> expected h w o r2 w2 fs2 -> r1 = r2 /\ w1 = w2 /\ fs1 = fs2.
Proof.
  assert (Ev : forall i, evaluate call left_f h i w r1 w1 fs1 -> evaluate call left_f h i w r2 w2 fs2 -> r1 = r2 /\ w1 = w2 /\ fs1 = fs2).
  { intros i (f & v & A1 & A2 & A3 & A4) (g & u & B1 & B2 & B3 & B4). rewrite A1 in B1. injection B1 as <-.
    rewrite A2 in B2. injection B2 as <- <-. subst. auto. }
  destruct o; cbn; intros A B; try (destruct A as (-> & -> & ->), B as (-> & -> & ->); auto; fail);
    try (destruct (value_of h i) as [v|]; [destruct A as (-> & -> & ->), B as (-> & -> & ->); auto|]); exact (Ev _ A B).
Qed.

Lemma history_iff ops : forall h s, Rep h s -> forall rs w' fs,
  (exists s', history s ops = Some (rs, s') /\ world s' = w' /\ made s' = made s ++ fs) <->
  explained h (world s) ops rs w' fs.
Proof.
  induction ops as [|o ops IH]; intros h s R rs w' fs; cbn [LatchCopyModel.history]; split.
  - intros (s' & E & <- & M). injection E as <- <-. assert (fs = []) as ->.
    { rewrite <- (app_nil_r (made s)) in M at 1. apply app_inv_head in M. auto. }
    constructor.
  - intros E. inversion E; subst. exists s. rewrite app_nil_r. auto.
  - intros (s' & E & <- & M). destruct (step s o) as [[r s1]|] eqn:E1; [|discriminate]. cbn in E.
    destruct (history s1 ops) as [[rs1 s2]|] eqn:E2; [|discriminate]. cbn in E. injection E as <- <-.
    destruct (step_sound h s o r s1 R E1) as (A & fs1 & M1 & R1 & X).
    destruct (IH _ _ R1 rs1 (world s2) (skipn (length fs1) fs)) as [H _].
    assert (exists fs2, made s2 = made s1 ++ fs2) as (fs2 & M2).
    { clear - E2. revert s1 rs1 s2 E2. induction ops as [|o ops IH]; intros s1 rs1 s2; cbn [LatchCopyModel.history].
      - intros E. injection E as <- <-. exists []. rewrite app_nil_r. reflexivity.
      - destruct (step s1 o) as [[r s3]|] eqn:E1; [|discriminate]. cbn.
        destruct (history s3 ops) as [[rs3 s4]|] eqn:E3; [|discriminate]. cbn. intros E. injection E as <- <-.
        destruct (IH _ _ _ E3) as (fs & ->). 
        assert (exists g, made s3 = made s1 ++ g) as (g & ->).
        { clear - E1. destruct o; cbn [LatchCopyModel.step] in E1;
            repeat (match type of E1 with
                    | context [rd ?l ?i] => destruct (rd l i) eqn:?; [|discriminate]
                    | context [if ?b then _ else _] => destruct b eqn:?; [|try discriminate]; try discriminate
                    | context [opt ?y] => destruct (opt y) eqn:?; [|discriminate]
                    end);
            unfold access, populate, replace in E1; cbn in E1;
            repeat (match type of E1 with
                    | context [match opt ?y with _ => _ end] => destruct (opt y) eqn:?
                    | context [let (_, _) := call ?f ?w in _] => destruct (call f w) as [? [?|]]
                    | context [match wr ?l ?i ?x with _ => _ end] => destruct (wr l i x) eqn:?; [|discriminate]
                    | context [match rd ?l ?i with _ => _ end] => destruct (rd l i) eqn:?; [|discriminate]
                    end; cbn in E1);
            try discriminate; injection E1 as <- <-; cbn; eauto; exists []; rewrite app_nil_r; reflexivity. }
        exists (g ++ fs). rewrite app_assoc. reflexivity. }
    rewrite M2, M1, <- app_assoc in M. apply app_inv_head in M. subst fs.
    econstructor; [exact A|exact X|]. apply (IH _ _ R1). exists s2. auto.
  - intros E. inversion E as [|? ? ? r w1 fs1 ? rs1 w2 fs2 A X Y]; subst.
    destruct (step_total h s o R A) as (r' & s1 & E1). destruct (step_sound h s o r' s1 R E1) as (_ & g & M1 & R1 & X1).
    destruct (expected_unique _ _ _ _ _ _ _ _ _ X X1) as (-> & -> & ->).
    apply (IH _ _ R1) in Y as (s2 & E2 & W2 & M2). exists s2. rewrite E1. cbn. rewrite E2. cbn.
    split; [reflexivity|]. split; [exact W2|]. rewrite M2, M1, <- app_assoc. reflexivity.
Qed.

Lemma rep_start w : Rep [] (start w).
Proof. split; [reflexivity|]. intros i o E. cbn in E. rewrite rd_nth_error in E. destruct (N.to_nat i); discriminate. Qed.

(** The past after a history. *)
Lemma history_rep ops : forall h s rs s', Rep h s -> history s ops = Some (rs, s') ->
  Rep (rev (combine ops rs) ++ h) s' /\ length rs = length ops.
Proof.
  induction ops as [|o ops IH]; intros h s rs s' R; cbn [LatchCopyModel.history].
  - intros E. injection E as <- <-. split; [exact R|reflexivity].
  - destruct (step s o) as [[r s1]|] eqn:E1; [|discriminate]. cbn.
    destruct (history s1 ops) as [[rs1 s2]|] eqn:E2; [|discriminate]. cbn. intros E. injection E as <- <-.
    destruct (step_sound h s o r s1 R E1) as (_ & fs1 & _ & R1 & _). destruct (IH _ _ _ _ R1 E2) as [R2 L]. cbn. split.
    + rewrite <- app_assoc. exact R2.
    + f_equal. exact L.
Qed.
Lemma population_past ops : forall rs h, length rs = length ops ->
  population (rev (combine ops rs) ++ h) = (N.of_nat (length (List.filter creates ops)) + population (V := V) (F := F) h).
Proof.
  induction ops as [|o ops IH]; intros [|r rs] h L; try discriminate; [reflexivity|].
  cbn [combine rev]. rewrite <- app_assoc. cbn [app]. rewrite IH by (cbn in L; lia). cbn [population List.filter].
  destruct (creates o); cbn [length]; lia.
Qed.

Lemma history_app s a b : history s (a ++ b) =
  match history s a with Some (ra, s1) => match history s1 b with Some (rb, s2) => Some (ra ++ rb, s2) | None => None end | None => None end.
Proof.
  revert s. induction a as [|o a IH]; intros s; cbn.
  - destruct (history s b) as [[]|]; reflexivity.
  - destruct (step s o) as [[r s1]|]; [|reflexivity]. cbn. rewrite IH. destruct (history s1 a) as [[ra s2]|]; [|reflexivity]. cbn.
    destruct (history s2 b) as [[rb s3]|]; reflexivity.
Qed.

(** Steps that leave object [i]. *)
Lemma leaves_value h s o r s' i v : Rep h s -> step s o = Some (r, s') -> leaves o i = true ->
  value_of h i = Some v -> i < population h -> value_of ((o, r) :: h) i = Some v /\ i < population ((o, r) :: h).
Proof.
  intros R E Lv Hv Hi. destruct (step_sound h s o r s' R E) as (A & fs & _ & _ & X).
  split; [|cbn [population]; destruct (creates o); lia].
  assert (Hne : (i =? population h) = false) by (apply N.eqb_neq; lia).
  destruct o as [f|j|j|j k|j k|j|j|j|j|j|j x]; cbn in Lv |- *; rewrite ?Hne; try exact Hv;
    try (destruct (N.eqb_spec i j) as [->|]; [try discriminate|try exact Hv]); try exact Hv.
  - destruct (N.eqb_spec i k); [discriminate|exact Hv].
  - cbn in X. rewrite Hv in X. destruct X as (-> & _ & _). reflexivity.
  - cbn in X. rewrite Hv in X. destruct X as (-> & _ & _). reflexivity.
Qed.
Lemma leave_values ops : forall h s rs s' i v, Rep h s -> history s ops = Some (rs, s') -> Forall (fun o => leaves o i = true) ops ->
  value_of h i = Some v -> i < population h ->
  value_of (rev (combine ops rs) ++ h) i = Some v /\ i < population (rev (combine ops rs) ++ h).
Proof.
  induction ops as [|o ops IH]; intros h s rs s' i v R; cbn [LatchCopyModel.history].
  - intros E. injection E as <- <-. auto.
  - destruct (step s o) as [[r s1]|] eqn:E1; [|discriminate]. cbn.
    destruct (history s1 ops) as [[rs1 s2]|] eqn:E2; [|discriminate]. cbn. intros E Lv Hv Hi. injection E as <- <-.
    destruct (step_sound h s o r s1 R E1) as (_ & fs1 & _ & R1 & _). inversion Lv; subst.
    destruct (leaves_value h s o r s1 i v R E1) as [Hv1 Hi1]; try assumption.
    cbn. rewrite <- app_assoc. exact (IH _ _ _ _ _ _ R1 E2 H2 Hv1 Hi1).
Qed.

(** An access of an object with a value. *)
Lemma look h s i v : Rep h s -> value_of h i = Some v -> i < population h ->
  exists s', step s (Access i) = Some (Got v, s') /\ world s' = world s /\ made s' = made s /\ Rep ((Access i, Got v) :: h) s'.
Proof.
  intros R Hv Hi. destruct (step_total h s (Access i) R Hi) as (r & s' & E).
  destruct (step_sound h s _ r s' R E) as (_ & fs & M & R' & X). cbn in X. rewrite Hv in X. destruct X as (-> & Wd & ->).
  rewrite app_nil_r in M. eauto.
Qed.

Lemma copies_share w before i v rs s between rs' s' :
  history (start w) (before ++ [Access i; Copy i]) = Some (rs ++ [Got v; Nothing], s) ->
  let k := N.of_nat (length (List.filter creates before)) in
  Forall (fun o => leaves o i = true /\ leaves o k = true) between -> history s between = Some (rs', s') ->
  exists s'', history s' [Access k; Access i] = Some ([Got v; Got v], s'') /\ world s'' = world s' /\ made s'' = made s'.
Proof.
  intros E k Lv E2. rewrite history_app in E. destruct (history (start w) before) as [[rs0 s0]|] eqn:E0; [|discriminate].
  destruct (history_rep before [] _ _ _ (rep_start w) E0) as [R0 L0]. cbn [LatchCopyModel.history] in E.
  destruct (step s0 (Access i)) as [[r1 s1]|] eqn:E1; [|discriminate]. cbn in E.
  destruct (step s1 (Copy i)) as [[r2 s2]|] eqn:E3; cbn [LatchCopyModel.step] in E3; [|unfold LatchCopyModel.step in E; rewrite E3 in E; discriminate].
  change (match rd (objects s1) i with Some o => if copyable then Some (Nothing, extend s1 o) else None | None => None end = Some (r2, s2)) in E3.
  unfold LatchCopyModel.step in E. rewrite E3 in E. cbn in E. injection E as Er <-.
  assert (Er' : rs0 ++ [r1; r2] = rs ++ [Got v; Nothing]) by exact Er. clear Er.
  replace [r1; r2] with ([r1] ++ [r2]) in Er' by reflexivity. replace [Got v; Nothing] with ([Got v] ++ [@Nothing V]) in Er' by reflexivity.
  rewrite !app_assoc in Er'. apply app_inj_tail in Er' as [Er' ->]. apply app_inj_tail in Er' as [-> ->].
  rewrite app_nil_r in R0. set (h := rev (combine before rs)) in *.
  destruct (step_sound h s0 _ _ s1 R0 E1) as (Hi & fs1 & _ & R1 & X1). cbn in Hi.
  destruct (step_sound _ s1 (Copy i) _ s2 R1 E3) as (_ & fs2 & _ & R2 & X2).
  assert (Hk : population h = k).
  { unfold h. rewrite <- (app_nil_r (rev _)), population_past by exact L0. cbn. unfold k. lia. }
  set (h2 := (Copy i, Nothing) :: (Access i, Got v) :: h) in *.
  assert (Vi : value_of h2 i = Some v). { unfold h2. cbn. rewrite N.eqb_refl. destruct (i =? population h); reflexivity. }
  assert (Vk : value_of h2 k = Some v). { unfold h2. cbn. rewrite Hk, !N.eqb_refl. reflexivity. }
  assert (Pi : i < population h2). { unfold h2. cbn. lia. }
  assert (Pk : k < population h2). { unfold h2. cbn. lia. }
  destruct (leave_values between h2 s2 rs' s' i v R2 E2) as [Vi' Pi']; [apply (Forall_impl _ (fun o H => proj1 H) Lv)|assumption|assumption|].
  destruct (leave_values between h2 s2 rs' s' k v R2 E2) as [Vk' Pk']; [apply (Forall_impl _ (fun o H => proj2 H) Lv)|assumption|assumption|].
  destruct (history_rep between h2 _ _ _ R2 E2) as [R3 _].
  destruct (look _ s' k v R3 Vk' Pk') as (s3 & F1 & W1 & M1 & R4).
  destruct (look _ s3 i v R4) as (s4 & F2 & W2 & M2 & R5).
  { cbn. destruct (i =? k); [reflexivity|exact Vi']. }
  { cbn. exact Pi'. }
  exists s4. cbn [LatchCopyModel.history]. rewrite F1. cbn. unfold LatchCopyModel.step in F2. rewrite F2. cbn. split; [reflexivity|]. split; congruence.
Qed.

(** One function call for an object and all its copies. *)
Lemma looks_only ops : forall h s rs s' v, Rep h s -> (forall i, i < population h -> value_of h i = Some v) ->
  Forall (fun o => looks o = true) ops -> history s ops = Some (rs, s') ->
  made s' = made s /\ world s' = world s /\
  Forall2 (fun o r => r = match o with Access _ | Take _ => Got v | HasValue _ => Says true | _ => Nothing end) ops rs.
Proof.
  induction ops as [|o ops IH]; intros h s rs s' v R A Lk; cbn [LatchCopyModel.history].
  - intros E. injection E as <- <-. auto.
  - destruct (step s o) as [[r s1]|] eqn:E1; [|discriminate]. cbn.
    destruct (history s1 ops) as [[rs1 s2]|] eqn:E2; [|discriminate]. cbn. intros E. injection E as <- <-.
    inversion Lk as [|? ? Ho Lk']; subst.
    destruct (step_sound h s o r s1 R E1) as (Al & fs1 & M & R1 & X).
    assert (Hr : r = match o with Access _ | Take _ => Got v | HasValue _ => Says true | _ => Nothing end /\ world s1 = world s /\ fs1 = []).
    { destruct o; try discriminate; cbn in Al, X; try (rewrite A in X by tauto); exact X. }
    destruct Hr as (Hr & Wd & ->). rewrite app_nil_r in M.
    destruct (IH _ _ rs1 s2 v R1) as (M2 & W2 & F2); [|exact Lk'|exact E2|].
    + intros i Hi. rewrite Hr in *. destruct o as [| j | | | |j|j|j| | | ]; try discriminate; cbn in Al, Hi |- *.
      * destruct (N.eqb_spec i (population h)); apply A; [tauto|lia].
      * destruct (N.eqb_spec i j); [reflexivity|exact (A i Hi)].
      * destruct (N.eqb_spec i j); [reflexivity|exact (A i Hi)].
      * exact (A i Hi).
    + split; [congruence|]. split; [congruence|]. constructor; assumption.
Qed.
Lemma one_call w f w1 v ops rs s : call f w = (w1, Some v) -> Forall (fun o => looks o = true) ops ->
  history (start w) (Make f :: Access 0 :: ops) = Some (rs, s) ->
  made s = [f] /\ world s = w1 /\ exists rs', rs = Nothing :: Got v :: rs' /\
  Forall2 (fun o r => r = match o with Access _ | Take _ => Got v | HasValue _ => Says true | _ => Nothing end) ops rs'.
Proof.
  intros Hc Lk E. cbn [LatchCopyModel.history LatchCopyModel.step] in E.
  assert (E1 : step (extend (start w) (Object f None)) (Access 0) = Some (Got v, State [Object f (Some v)] w1 [f])).
  { cbn. unfold access, populate. cbn. rewrite Hc. cbn. reflexivity. }
  assert (R0 := proj2 (step_sound [] (start w) (Make f) Nothing _ (rep_start w) eq_refl)). destruct R0 as (fs0 & _ & R0 & _).
  destruct (step_sound _ _ _ _ _ R0 E1) as (_ & fs1 & _ & R1 & _).
  cbn [snd fst] in E. unfold LatchCopyModel.step in E1. rewrite E1 in E. cbn [snd fst] in E.
  destruct (history (State [Object f (Some v)] w1 [f]) ops) as [[rs' s']|] eqn:E2; [|discriminate]. cbn in E. injection E as <- <-.
  destruct (looks_only ops _ _ rs' s' v R1) as (M & Wd & F2); [|exact Lk|exact E2|].
  - intros i Hi. cbn in Hi |- *. assert (i = 0) as -> by lia. reflexivity.
  - split; [exact M|]. split; [exact Wd|]. eauto.
Qed.

Lemma moved_ w before i v rs s :
  history (start w) (before ++ [Access i]) = Some (rs ++ [Got v], s) ->
  exists s', history s [Move i; HasValue i; Access i] = Some ([Nothing; Says true; Got (left_v v)], s') /\ made s' = made s.
Proof.
  intros E. destruct (history_rep _ [] _ _ _ (rep_start w) E) as [R L].
  assert (X : exists h, rev (combine (before ++ [Access i]) (rs ++ [Got v])) ++ [] = (Access i, Got v) :: h).
  { rewrite app_nil_r. rewrite !app_length in L. cbn in L.
    assert (Hc : forall (a : list (op V F)) (b : list (result V)) x y, length a = length b -> combine (a ++ [x]) (b ++ [y]) = combine a b ++ [(x, y)]).
    { induction a as [|p a IH]; intros [|q b] x y Hl; try discriminate; [reflexivity|]. cbn. rewrite IH by (cbn in Hl; lia). reflexivity. }
    rewrite Hc by lia. rewrite rev_app_distr. exists (rev (combine before rs)). reflexivity. }
  destruct X as (h & X). rewrite X in R.
  assert (Hi : i < population ((Access i, Got v) :: h)).
  { rewrite history_app in E. destruct (history (start w) before) as [[rs0 s0]|] eqn:E0; [|discriminate].
    destruct (history_rep before [] _ _ _ (rep_start w) E0) as [R0 L0]. cbn [LatchCopyModel.history] in E.
    destruct (step s0 (Access i)) as [[r1 s1]|] eqn:E1; [|discriminate]. cbn in E. injection E as Er <-.
    destruct (step_sound _ s0 _ _ s1 R0 E1) as (H1 & _ & _ & R1 & _). cbn in H1. destruct R1 as [P1 _], R as [P2 _].
    rewrite <- P2, P1. cbn. exact H1. }
  destruct (step_total _ s (Move i) R Hi) as (r1 & s1 & E1). destruct (step_sound _ _ _ _ _ R E1) as (_ & f1 & M1 & R1 & X1).
  cbn in X1. destruct X1 as (-> & W1 & ->). rewrite app_nil_r in M1.
  assert (V1 : value_of ((Move i, Nothing) :: (Access i, Got v) :: h) i = Some (left_v v)).
  { cbn. cbn in Hi. destruct (N.eqb_spec i (population h)); [lia|]. rewrite N.eqb_refl. reflexivity. }
  assert (H1 : i < population ((Move i, Nothing) :: (Access i, Got v) :: h)) by (cbn in *; lia).
  destruct (step_total _ s1 (HasValue i) R1 H1) as (r2 & s2 & E2). destruct (step_sound _ _ _ _ _ R1 E2) as (_ & f2 & M2 & R2 & X2).
  cbn [LatchCopySpec.expected] in X2. rewrite V1 in X2. destruct X2 as (-> & W2 & ->). rewrite app_nil_r in M2.
  destruct (look _ s2 i (left_v v) R2) as (s3 & F3 & W3 & M3 & R3); [exact V1|exact H1|].
  exists s3. cbn [LatchCopyModel.history]. rewrite E1. cbn [snd fst]. rewrite E2. cbn [snd fst]. rewrite F3. cbn. split; [reflexivity|]. congruence.
Qed.

Lemma taken w before i v rs s : copyable = true ->
  history (start w) (before ++ [Take i]) = Some (rs ++ [Got v], s) ->
  exists s', history s [Access i] = Some ([Got v], s') /\ made s' = made s.
Proof.
  intros C E. destruct (history_rep _ [] _ _ _ (rep_start w) E) as [R L].
  rewrite history_app in E. destruct (history (start w) before) as [[rs0 s0]|] eqn:E0; [|discriminate].
  destruct (history_rep before [] _ _ _ (rep_start w) E0) as [R0 L0]. cbn [LatchCopyModel.history] in E.
  destruct (step s0 (Take i)) as [[r1 s1]|] eqn:E1; [|discriminate]. cbn in E. injection E as Er <-.
  apply app_inj_tail in Er as [-> ->].
  destruct (step_sound _ s0 _ _ s1 R0 E1) as (H1 & _ & _ & R1 & _). cbn in H1.
  destruct (look _ s1 i v R1) as (s3 & F3 & W3 & M3 & R3); [cbn; rewrite N.eqb_refl; reflexivity|cbn; tauto|].
  exists s3. cbn [LatchCopyModel.history]. rewrite F3. auto.
Qed.
End P.
