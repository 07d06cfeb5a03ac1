(** Calls that perform a single primitive are linearizable. *)
From Verif Require Import Base BaseLemmas BitModel ConcModel ConcSpec.
From Coq Require Import Permutation.
Open Scope N_scope.

Section Generic.
Context {Op Out M : Type} (w : N) (code : Op -> prog Out) (spec : M -> Op -> Out -> M -> Prop).
Context (pre : Op -> Prop) (R : N -> M -> Prop).
Context (single : forall op, pre op -> exists p k, code op = Do p k /\
  forall mem m, R mem m -> exists o m', k (snd (exec_prim w p mem)) = Ret o /\ spec m op o m' /\ R (fst (exec_prim w p mem)) m').

Notation thread := (thread Op Out).
Notation phase := (@phase Op Out).

Definition in_phase (t : thread) (ph : phase) : Prop :=
  match ph with
  | Idle => cur t = None
  | Called op => cur t = Some (op, code op) /\ pre op
  | Took op o => cur t = Some (op, Ret o)
  end.
Definition good (t : thread) : Prop := (exists ph, in_phase t ph) /\ Forall pre (todo t).

Definition taken1 (t : thread) : list (Op * Out) := match cur t with Some (op, Ret o) => [(op, o)] | _ => [] end.
Definition taken (ts : list thread) : list (Op * Out) := flat_map taken1 ts.
Definition calls1 (t : thread) : list Op := match cur t with Some (op, _) => [op] | None => [] end ++ todo t.
Definition calls (ts : list thread) : list Op := flat_map calls1 ts.

Lemma flat_map_perm {A B} (f : A -> list B) l i x y l' : rd l i = Some x -> wr l i y = Some l' ->
  exists r, Permutation (flat_map f l) (f x ++ r) /\ Permutation (flat_map f l') (f y ++ r).
Proof.
  revert i l'. induction l as [|a l IH]; intros i l' Hr Hw.
  - rewrite rd_ge_None in Hr; [discriminate|change (len (@nil A)) with 0; lia].
  - destruct (N.eq_dec i 0) as [->|Hi].
    + rewrite rd_cons0 in Hr. injection Hr as ->. unfold wr in Hw. destruct (_ <? _); [|discriminate]. injection Hw as <-.
      exists (flat_map f l). split; apply Permutation_refl.
    + rewrite rd_cons_pos in Hr by lia. pose proof (wr_Some_lt _ _ _ _ Hw) as Hlt. rewrite len_cons in Hlt.
      assert (Ew : exists l1, wr l (i - 1) y = Some l1 /\ l' = a :: l1).
      { unfold wr in Hw |- *. destruct (_ <? _); [|discriminate]. injection Hw as <-. destruct (N.ltb_spec (i - 1) (len l)); [|lia].
        eexists. split; [reflexivity|]. replace (N.to_nat i) with (S (N.to_nat (i - 1))) by lia. reflexivity. }
      destruct Ew as (l1 & Ew & ->). destruct (IH _ _ Hr Ew) as (r & P1 & P2). exists (f a ++ r). cbn [flat_map]. split.
      * rewrite P1. rewrite !app_assoc. apply Permutation_app_tail, Permutation_app_comm.
      * rewrite P2. rewrite !app_assoc. apply Permutation_app_tail, Permutation_app_comm.
Qed.

Lemma wr_rd_Some {A} (l : list A) i x y : rd l i = Some x -> exists l', wr l i y = Some l'.
Proof. intros H. apply rd_Some_lt in H. destruct (wr_lt_Some l i y H) as (l' & E). exists l'. exact E. Qed.
Lemma Forall_wr {A} (P : A -> Prop) l i y l' : Forall P l -> P y -> wr l i y = Some l' -> Forall P l'.
Proof.
  intros Hl Hy. unfold wr. destruct (i <? len l); [|discriminate]. intros [= <-]. generalize (N.to_nat i). clear i.
  induction Hl as [|a l Ha Hl IH]; intros [|k]; cbn [set_nth]; constructor; auto.
Qed.

Definition ph_of (ts : list thread) (i : N) (ph : phase) : Prop :=
  match rd ts i with Some t => in_phase t ph | None => ph = Idle end.

Lemma ph_of_other ts i t' ts' j ph : wr ts i t' = Some ts' -> j <> i -> ph_of ts j ph -> ph_of ts' j ph.
Proof.
  intros Hw Hj. unfold ph_of. rewrite (rd_wr _ _ _ _ j Hw). destruct (N.eqb_spec j i); [contradiction|]. auto.
Qed.

Theorem single_step_linearizable : forall sched mem m ts phs, R mem m -> Forall good ts -> (forall i, ph_of ts i (phs i)) ->
  exists mem' ts' h m' tr,
    run_threads w code sched mem ts = Some (mem', ts', h) /\ R mem' m' /\ Forall good ts' /\
    erase tr = h /\ (forall i, thread_ok i (phs i) tr) /\ legal spec m (points tr) m' /\
    Permutation (taken ts ++ points tr) (responses h ++ taken ts') /\
    Permutation (calls ts) (map fst (responses h) ++ calls ts').
Proof.
  induction sched as [|i sched IH]; intros mem m ts phs HR Hg Hph; cbn [run_threads].
  - exists mem, ts, [], m, []. repeat (split; [solve [reflexivity|assumption|exact HR|intros; exact I]|]).
    cbn [points responses map app]. rewrite app_nil_r. split; apply Permutation_refl.
  - destruct (rd ts i) as [t|] eqn:Et; [|exact (IH mem m ts phs HR Hg Hph)].
    assert (Hgt : good t) by (rewrite Forall_forall in Hg; apply Hg; rewrite rd_nth_error in Et; eapply nth_error_In; exact Et).
    destruct Hgt as (_ & Htodo). pose proof (Hph i) as Hi. unfold ph_of in Hi. rewrite Et in Hi.
    unfold tstep. destruct t as [c td]. cbn [cur todo] in *.
    destruct (phs i) as [|op|op o] eqn:Ephi; cbn [in_phase cur] in Hi.
    + (* idle *) subst c. destruct td as [|op td].
      * destruct (wr_rd_Some ts i _ (Thread None []) Et) as (ts1 & Ew). rewrite Ew.
        assert (Hg1 : Forall good ts1) by (apply (Forall_wr _ _ _ _ _ Hg) in Ew; [exact Ew|split; [exists Idle; reflexivity|constructor]]).
        assert (Hph1 : forall j, ph_of ts1 j (phs j)).
        { intros j. destruct (N.eq_dec j i) as [->|Hj]; [|apply (ph_of_other _ _ _ _ _ _ Ew Hj), Hph].
          unfold ph_of. rewrite (rd_wr _ _ _ _ i Ew), N.eqb_refl, Ephi. reflexivity. }
        destruct (IH mem m ts1 phs HR Hg1 Hph1) as (mem' & ts' & h & m' & tr & E & HR' & Hg' & Ee & Hok & Hl & P1 & P2).
        rewrite E. exists mem', ts', h, m', tr. split; [reflexivity|]. split; [exact HR'|]. split; [exact Hg'|]. split; [exact Ee|]. split; [exact Hok|]. split; [exact Hl|].
        destruct (flat_map_perm taken1 ts i _ _ ts1 Et Ew) as (r1 & A1 & A2). destruct (flat_map_perm calls1 ts i _ _ ts1 Et Ew) as (r2 & B1 & B2).
        unfold taken, calls in *. split; [rewrite A1, <- P1, A2; reflexivity|rewrite B1, <- P2, B2; reflexivity].
      * inversion Htodo; subst. destruct (wr_rd_Some ts i _ (Thread (Some (op, code op)) td) Et) as (ts1 & Ew). rewrite Ew.
        assert (Hg1 : Forall good ts1) by (apply (Forall_wr _ _ _ _ _ Hg) in Ew; [exact Ew|split; [exists (Called op); split; [reflexivity|assumption]|assumption]]).
        pose (phs1 := fun j => if j =? i then Called op else phs j).
        assert (Hph1 : forall j, ph_of ts1 j (phs1 j)).
        { intros j. unfold phs1. destruct (N.eqb_spec j i) as [Ej|Hj]; [subst j|apply (ph_of_other _ _ _ _ _ _ Ew Hj), Hph].
          unfold ph_of. rewrite (rd_wr _ _ _ _ i Ew), N.eqb_refl. split; [reflexivity|assumption]. }
        destruct (IH mem m ts1 phs1 HR Hg1 Hph1) as (mem' & ts' & h & m' & tr & E & HR' & Hg' & Ee & Hok & Hl & P1 & P2).
        rewrite E. exists mem', ts', (Inv i op :: h), m', (TInv i op :: tr). split; [reflexivity|]. split; [exact HR'|]. split; [exact Hg'|].
        split; [cbn [erase]; rewrite Ee; reflexivity|]. split.
        { intros j. cbn [thread_ok]. specialize (Hok j). unfold phs1 in Hok. rewrite (N.eqb_sym i j). destruct (N.eqb_spec j i) as [Ej|Hj]; [subst j; split; [exact Ephi|exact Hok]|exact Hok]. }
        split; [exact Hl|]. cbn [points responses].
        destruct (flat_map_perm taken1 ts i _ _ ts1 Et Ew) as (r1 & A1 & A2). destruct (flat_map_perm calls1 ts i _ _ ts1 Et Ew) as (r2 & B1 & B2).
        destruct (single op) as (p & k & Ec & _); [assumption|].
        unfold taken, calls in *. cbn [taken1 cur] in *. rewrite Ec in A2. split; [rewrite A1, <- P1, A2; reflexivity|rewrite B1, <- P2, B2; reflexivity].
    + (* the primitive *) destruct Hi as (-> & Hpre). destruct (single op Hpre) as (p & k & Ec & Hk). rewrite Ec.
      destruct (Hk mem m HR) as (o & m1 & Ek & Hsp & HR1). destruct (exec_prim w p mem) as (mem1, r) eqn:Ep. cbn [fst snd] in *.
      rewrite Ek. destruct (wr_rd_Some ts i _ (Thread (Some (op, Ret o)) td) Et) as (ts1 & Ew). rewrite Ew.
      assert (Hg1 : Forall good ts1) by (apply (Forall_wr _ _ _ _ _ Hg) in Ew; [exact Ew|split; [exists (Took op o); reflexivity|assumption]]).
      pose (phs1 := fun j => if j =? i then Took op o else phs j).
      assert (Hph1 : forall j, ph_of ts1 j (phs1 j)).
      { intros j. unfold phs1. destruct (N.eqb_spec j i) as [Ej|Hj]; [subst j|apply (ph_of_other _ _ _ _ _ _ Ew Hj), Hph].
        unfold ph_of. rewrite (rd_wr _ _ _ _ i Ew), N.eqb_refl. reflexivity. }
      destruct (IH mem1 m1 ts1 phs1 HR1 Hg1 Hph1) as (mem' & ts' & h & m' & tr & E & HR' & Hg' & Ee & Hok & Hl & P1 & P2).
      rewrite E. exists mem', ts', h, m', (TPoint i op o :: tr). split; [reflexivity|]. split; [exact HR'|]. split; [exact Hg'|].
      split; [cbn [erase]; rewrite Ee; reflexivity|]. split.
      { intros j. cbn [thread_ok]. specialize (Hok j). unfold phs1 in Hok. rewrite (N.eqb_sym i j). destruct (N.eqb_spec j i) as [Ej|Hj]; [subst j; split; [exact Ephi|exact Hok]|exact Hok]. }
      split; [cbn [points legal]; exists m1; split; assumption|]. cbn [points].
      destruct (flat_map_perm taken1 ts i _ _ ts1 Et Ew) as (r1 & A1 & A2). destruct (flat_map_perm calls1 ts i _ _ ts1 Et Ew) as (r2 & B1 & B2).
      unfold taken, calls in *. cbn [taken1 calls1 cur todo app] in *. rewrite Ec in A1. cbn [app] in A1. split.
      * rewrite <- P1, A2, A1. cbn [app]. symmetry. apply Permutation_middle.
      * rewrite <- P2, B1, B2. reflexivity.
    + (* the response *) subst c. destruct (wr_rd_Some ts i _ (Thread None td) Et) as (ts1 & Ew). rewrite Ew.
      assert (Hg1 : Forall good ts1) by (apply (Forall_wr _ _ _ _ _ Hg) in Ew; [exact Ew|split; [exists Idle; reflexivity|assumption]]).
      pose (phs1 := fun j => if j =? i then Idle else phs j).
      assert (Hph1 : forall j, ph_of ts1 j (phs1 j)).
      { intros j. unfold phs1. destruct (N.eqb_spec j i) as [Ej|Hj]; [subst j|apply (ph_of_other _ _ _ _ _ _ Ew Hj), Hph].
        unfold ph_of. rewrite (rd_wr _ _ _ _ i Ew), N.eqb_refl. reflexivity. }
      destruct (IH mem m ts1 phs1 HR Hg1 Hph1) as (mem' & ts' & h & m' & tr & E & HR' & Hg' & Ee & Hok & Hl & P1 & P2).
      rewrite E. exists mem', ts', (Res i op o :: h), m', (TRes i op o :: tr). split; [reflexivity|]. split; [exact HR'|]. split; [exact Hg'|].
      split; [cbn [erase]; rewrite Ee; reflexivity|]. split.
      { intros j. cbn [thread_ok]. specialize (Hok j). unfold phs1 in Hok. rewrite (N.eqb_sym i j). destruct (N.eqb_spec j i) as [Ej|Hj]; [subst j; split; [exact Ephi|exact Hok]|exact Hok]. }
      split; [exact Hl|]. cbn [points responses map fst].
      destruct (flat_map_perm taken1 ts i _ _ ts1 Et Ew) as (r1 & A1 & A2). destruct (flat_map_perm calls1 ts i _ _ ts1 Et Ew) as (r2 & B1 & B2).
      unfold taken, calls in *. cbn [taken1 calls1 cur todo app] in *. split.
      * rewrite A1. cbn [app]. constructor. rewrite <- P1, A2. reflexivity.
      * rewrite B1. cbn [app]. constructor. rewrite <- P2, B2. reflexivity.
Qed.

Lemma start_good programs : Forall (Forall pre) programs -> Forall good (start programs).
Proof. intros H. unfold start. induction H; cbn [map]; constructor; [|assumption]. split; [exists Idle; reflexivity|assumption]. Qed.
Lemma start_idle programs i : ph_of (start programs) i Idle.
Proof.
  unfold ph_of. destruct (rd (start programs) i) as [t|] eqn:E; [|reflexivity]. rewrite rd_nth_error in E. apply nth_error_In in E.
  unfold start in E. apply in_map_iff in E as (p & <- & _). reflexivity.
Qed.
Lemma taken_start programs : taken (start programs) = [].
Proof. unfold taken, start. induction programs; cbn [map flat_map]; [reflexivity|]. exact IHprograms. Qed.
Lemma calls_start programs : calls (start programs) = concat programs.
Proof. unfold calls, start. induction programs; cbn [map flat_map concat]; [reflexivity|]. rewrite IHprograms. reflexivity. Qed.
Lemma taken_finished ts : finished ts -> taken ts = [].
Proof. unfold taken. intros H. induction H as [|t ts (A & _) _ IH]; cbn [flat_map]; [reflexivity|]. unfold taken1. rewrite A. exact IH. Qed.
Lemma calls_finished ts : finished ts -> calls ts = [].
Proof. unfold calls. intros H. induction H as [|t ts (A & B) _ IH]; cbn [flat_map]; [reflexivity|]. unfold calls1. rewrite A, B. exact IH. Qed.

(** The form used for the properties. *)
Theorem threads_linearizable : forall sched mem m programs, R mem m -> Forall (Forall pre) programs ->
  exists mem' ts' h m',
    run_threads w code sched mem (start programs) = Some (mem', ts', h) /\ R mem' m' /\
    linearizable spec m h m' /\
    (finished ts' -> Permutation (map fst (responses h)) (concat programs) /\
       exists order, Permutation order (responses h) /\ legal spec m order m').
Proof.
  intros sched mem m programs HR Hp.
  destruct (single_step_linearizable sched mem m (start programs) (fun _ => Idle) HR (start_good _ Hp) (start_idle programs))
    as (mem' & ts' & h & m' & tr & E & HR' & _ & Ee & Hok & Hl & P1 & P2).
  exists mem', ts', h, m'. split; [exact E|]. split; [exact HR'|]. split.
  - exists tr. split; [exact Ee|]. split; [exact Hok|exact Hl].
  - intros Hf. rewrite taken_start, (taken_finished _ Hf), app_nil_r in P1. rewrite calls_start, (calls_finished _ Hf), app_nil_r in P2.
    split; [symmetry; exact P2|]. exists (points tr). split; [exact P1|exact Hl].
Qed.

(** Every call completes within three steps of its own thread, whatever the others do. *)
Definition remaining (t : thread) (ph : phase) : nat :=
  (3 * length (todo t) + match ph with Idle => 0 | Called _ => 2 | Took _ _ => 1 end)%nat.

Lemma finishes sched : forall mem m ts mem' ts' h i t ph, R mem m -> Forall good ts ->
  run_threads w code sched mem ts = Some (mem', ts', h) -> rd ts i = Some t -> in_phase t ph ->
  (remaining t ph <= own_steps i sched)%nat ->
  exists t', rd ts' i = Some t' /\ cur t' = None /\ todo t' = [].
Proof.
  induction sched as [|j sched IH]; intros mem m ts mem' ts' h i t ph HR Hg E Et Hph Hrem; cbn [run_threads] in E.
  - injection E as <- <- <-. exists t. split; [exact Et|]. unfold own_steps, remaining in Hrem. cbn in Hrem.
    destruct ph; cbn [in_phase] in Hph; [|lia|lia]. split; [exact Hph|]. destruct (todo t); [reflexivity|cbn in Hrem; lia].
  - assert (Hother : j <> i -> own_steps i (j :: sched) = own_steps i sched).
    { intros Hj. unfold own_steps. cbn [filter]. destruct (N.eqb_spec j i); [contradiction|reflexivity]. }
    assert (Hsame : own_steps i (i :: sched) = S (own_steps i sched)).
    { unfold own_steps. cbn [filter]. rewrite N.eqb_refl. reflexivity. }
    destruct (rd ts j) as [tj|] eqn:Ej.
    2:{ assert (j <> i) by congruence. rewrite (Hother H) in Hrem. exact (IH _ _ _ _ _ _ _ _ _ HR Hg E Et Hph Hrem). }
    assert (Hgj : good tj) by (rewrite Forall_forall in Hg; apply Hg; rewrite rd_nth_error in Ej; eapply nth_error_In; exact Ej).
    destruct Hgj as ((phj & Hphj) & Htd).
    assert (Step : exists mem1 t1 es m1 ph1, tstep w code j mem tj = Some (mem1, t1, es) /\ R mem1 m1 /\ in_phase t1 ph1 /\ Forall pre (todo t1) /\
      (remaining t1 ph1 <= remaining tj phj - 1)%nat).
    { unfold tstep. destruct tj as [c td]. cbn [cur todo] in *. destruct phj as [|op|op o]; cbn [in_phase cur] in Hphj.
      - subst c. destruct td as [|op td].
        + exists mem, (Thread None []), [], m, Idle. repeat (split; [reflexivity || assumption|]). unfold remaining. cbn. lia.
        + inversion Htd; subst. exists mem, (Thread (Some (op, code op)) td), [Inv j op], m, (Called op).
          split; [reflexivity|]. split; [assumption|]. split; [split; [reflexivity|assumption]|]. split; [assumption|]. unfold remaining. cbn [todo length]. lia.
      - destruct Hphj as (-> & Hpre). destruct (single op Hpre) as (p & k & Ec & Hk). rewrite Ec.
        destruct (Hk mem m HR) as (o & m1 & Ek & Hsp & HR1). destruct (exec_prim w p mem) as (mem1, r). cbn [fst snd] in *. rewrite Ek.
        exists mem1, (Thread (Some (op, Ret o)) td), [], m1, (Took op o). repeat (split; [reflexivity || assumption|]). unfold remaining. cbn [todo]. lia.
      - subst c. exists mem, (Thread None td), [Res j op o], m, Idle. repeat (split; [reflexivity || assumption|]). unfold remaining. cbn [todo]. lia. }
    destruct Step as (mem1 & t1 & es & m1 & ph1 & Es & HR1 & Hph1 & Htd1 & Hr1). rewrite Es in E.
    destruct (wr ts j t1) as [ts1|] eqn:Ew; [|discriminate].
    destruct (run_threads w code sched mem1 ts1) as [[[m2 t2] h2]|] eqn:Er; [|discriminate]. injection E as <- <- <-.
    assert (Hg1 : Forall good ts1) by (apply (Forall_wr _ _ _ _ _ Hg) in Ew; [exact Ew|split; [exists ph1; assumption|assumption]]).
    pose proof (rd_wr _ _ _ _ i Ew) as Hrd. destruct (N.eqb_spec i j) as [Eij|Hij].
    + subst j. rewrite Et in Ej. injection Ej as <-. rewrite Hsame in Hrem.
      assert (Ep : remaining t phj = remaining t ph).
      { unfold remaining. f_equal. destruct phj as [|op|op o], ph as [|op'|op' o']; cbn [in_phase] in *; try reflexivity; try (exfalso; congruence);
        repeat match goal with H : _ /\ _ |- _ => destruct H end; try congruence;
        match goal with H : pre ?x |- _ => destruct (single x H) as (p & k & Ec & _); exfalso; congruence end. }
      apply (IH _ _ _ _ _ _ i t1 ph1 HR1 Hg1 Er Hrd Hph1). lia.
    + rewrite Et in Hrd. apply (IH _ _ _ _ _ _ i t ph HR1 Hg1 Er Hrd Hph). rewrite Hother in Hrem by congruence. exact Hrem.
Qed.

Theorem wait_free : forall sched mem m programs, R mem m -> Forall (Forall pre) programs ->
  (forall i p, rd programs i = Some p -> (3 * length p <= own_steps i sched)%nat) ->
  exists mem' ts' h, run_threads w code sched mem (start programs) = Some (mem', ts', h) /\ finished ts'.
Proof.
  intros sched mem m programs HR Hp Hs. destruct (threads_linearizable sched mem m programs HR Hp) as (mem' & ts' & h & m' & E & _ & _ & _).
  exists mem', ts', h. split; [exact E|]. unfold finished. apply Forall_forall. intros t' Hin.
  apply In_nth_error in Hin as (k & Hk). rewrite <- (Nat2N.id k) in Hk. rewrite <- rd_nth_error in Hk.
  set (i := N.of_nat k) in *.
  assert (Hlen : length ts' = length (start programs : list thread)).
  { clear -E. revert mem mem' ts' h E. generalize (start programs : list thread). induction sched as [|j sched IH]; intros ts mem mem' ts' h E; cbn [run_threads] in E.
    - injection E as _ <- _. reflexivity.
    - destruct (rd ts j) as [tj|]; [|exact (IH _ _ _ _ _ E)]. destruct (tstep w code j mem tj) as [[[m1 t1] es]|]; [|discriminate].
      destruct (wr ts j t1) as [ts1|] eqn:Ew; [|discriminate]. destruct (run_threads w code sched m1 ts1) as [[[m2 t2] h2]|] eqn:Er; [|discriminate].
      injection E as <- <- <-. rewrite (IH _ _ _ _ _ Er). apply wr_len in Ew. unfold len in Ew. lia. }
  assert (Hi : exists t, rd (start programs : list thread) i = Some t).
  { apply rd_lt_Some. apply rd_Some_lt in Hk. unfold len in *. rewrite <- Hlen. exact Hk. }
  destruct Hi as (t & Et). pose proof Et as Et2. rewrite rd_nth_error in Et2. unfold start in Et2. rewrite nth_error_map in Et2.
  destruct (nth_error programs (N.to_nat i)) as [p|] eqn:Epr; [|discriminate]. injection Et2 as <-. rewrite <- rd_nth_error in Epr.
  destruct (finishes sched mem m _ _ _ _ i _ Idle HR (start_good _ Hp) E Et eq_refl) as (t2 & E2 & A & B).
  { unfold remaining. cbn [todo]. rewrite Nat.add_0_r. exact (Hs i p Epr). }
  rewrite Hk in E2. injection E2 as ->. split; assumption.
Qed.
End Generic.

(** Each thread invokes its program in order. *)
Lemma invoked_order {Op Out} w (code : Op -> prog Out) sched : forall mem ts mem' ts' h,
  run_threads w code sched mem ts = Some (mem', ts', h) ->
  forall i t, rd ts i = Some t -> exists t', rd ts' i = Some t' /\ todo t = invoked i h ++ todo t'.
Proof.
  induction sched as [|j sched IH]; intros mem ts mem' ts' h E i t Et; cbn [run_threads] in E.
  - injection E as <- <- <-. exists t. split; [exact Et|reflexivity].
  - destruct (rd ts j) as [tj|] eqn:Ej; [|exact (IH _ _ _ _ _ E i t Et)].
    unfold tstep in E.
    assert (G : forall mem1 t1 es, match wr ts j t1 with None => None | Some ts1 => match run_threads w code sched mem1 ts1 with None => None | Some (m2, t2, h2) => Some (m2, t2, es ++ h2) end end = Some (mem', ts', h) ->
      (forall h2, invoked i (es ++ h2) = (if j =? i then invoked i es else []) ++ invoked i h2) ->
      todo tj = invoked j es ++ todo t1 -> exists t', rd ts' i = Some t' /\ todo t = invoked i h ++ todo t').
    { intros mem1 t1 es E1 Hes Htd. destruct (wr ts j t1) as [ts1|] eqn:Ew; [|discriminate].
      destruct (run_threads w code sched mem1 ts1) as [[[m2 t2] h2]|] eqn:Er; [|discriminate]. injection E1 as -> -> <-.
      pose proof (rd_wr _ _ _ _ i Ew) as Hrd. rewrite (N.eqb_sym i j) in Hrd. rewrite Hes. destruct (N.eqb_spec j i) as [->|Hji].
      - destruct (IH _ _ _ _ _ Er i t1 Hrd) as (t' & E' & Ht'). exists t'. split; [exact E'|].
        rewrite Et in Ej. injection Ej as ->. rewrite Htd, Ht', app_assoc. reflexivity.
      - rewrite Et in Hrd. destruct (IH _ _ _ _ _ Er i t Hrd) as (t' & E' & Ht'). exists t'. split; [exact E'|exact Ht']. }
    destruct (cur tj) as [[op [o| |p k]]|] eqn:Ec.
    + apply (G _ _ _ E); [|reflexivity]. intros h2. cbn. destruct (j =? i); reflexivity.
    + discriminate.
    + destruct (exec_prim w p mem) as (mem1, r). apply (G _ _ _ E); [|reflexivity]. intros h2. cbn. destruct (j =? i); reflexivity.
    + destruct (todo tj) as [|op rest] eqn:Etd.
      * apply (G _ _ _ E); [|cbn; rewrite Etd; reflexivity]. intros h2. cbn. destruct (j =? i); reflexivity.
      * apply (G _ _ _ E); [|cbn; rewrite N.eqb_refl; reflexivity]. intros h2. cbn. destruct (j =? i); reflexivity.
Qed.
