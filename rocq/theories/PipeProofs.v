From Verif Require Import Base BaseLemmas BitModel ConcModel AtomicModel WaitModel WaitSpec WaitProofs WaitProofs2 TicketProofs PipeSpec.
Open Scope nat_scope.

(** ** The two threads with their counts not rolling over *)
Inductive pk := PW0 (i : nat) | PW1 (i : nat) | PWR (i h : nat) | PS0 (i : nat) | PS1 (i : nat) | PSR (i : nat)
  | PI0 (i : nat) | PI1 (i : nat) | PIR (i : nat).
Inductive ck := CW0 (g : list N) | CW1 (g : list N) | CWR (g : list N) (t : nat) | CT0 (g : list N) | CT1 (g : list N) | CTR (g : list N) (x : N)
  | CI0 (g : list N) (x : N) | CI1 (g : list N) (x : N) | CIR (g : list N) (x : N).
Definition tl (p : pk) : nat :=
  match p with PW0 i | PW1 i | PWR i _ | PS0 i | PS1 i | PSR i | PI0 i | PI1 i => i | PIR i => i + 1 end.
Definition hd (c : ck) : nat :=
  match c with CW0 g | CW1 g | CWR g _ | CT0 g | CT1 g | CTR g _ | CI0 g _ | CI1 g _ => length g | CIR g _ => length g + 1 end.
Definition got (c : ck) : list N :=
  match c with CW0 g | CW1 g | CWR g _ | CT0 g | CT1 g | CTR g _ => g | CI0 g x | CI1 g x | CIR g x => g ++ [x] end.
Record ps := PS { pp : pk; cc : ck; sl : list N }.

Section Pipe.
Variables (iw w vw ew : N) (size : nat) (item : nat -> N).
Hypothesis Hw : (w <= ew)%N.
Hypothesis Hv : (vw <= ew)%N.
Hypothesis Hi : forall i, (item i < 2 ^ vw)%N.
Hypothesis Hs : 0 < size.
Notation tmod g := (N.of_nat g mod 2 ^ w)%N.
Notation emod g := (N.of_nat g mod 2 ^ ew)%N.
Notation code := (pipe_code iw w vw ew).

Definition pt (p : pk) : waiter spot N :=
  match p with
  | PW0 i => {| place := MayPush i; running := None |}
  | PW1 i => {| place := MayPush i; running := Some (code (Count ALoad)) |}
  | PWR i h => {| place := MayPush i; running := Some (Ret (Some (tmod h))) |}
  | PS0 i => {| place := Put i; running := None |}
  | PS1 i => {| place := Put i; running := Some (code (Slot (AStore (item i)))) |}
  | PSR i => {| place := Put i; running := Some (Ret None) |}
  | PI0 i => {| place := Push i; running := None |}
  | PI1 i => {| place := Push i; running := Some (code (Count APreInc)) |}
  | PIR i => {| place := Push i; running := Some (Ret (Some (tmod (i + 1)))) |}
  end.
Definition ct (c : ck) : waiter spot N :=
  match c with
  | CW0 g => {| place := MayPop g; running := None |}
  | CW1 g => {| place := MayPop g; running := Some (code (Count ALoad)) |}
  | CWR g t => {| place := MayPop g; running := Some (Ret (Some (tmod t))) |}
  | CT0 g => {| place := Take g; running := None |}
  | CT1 g => {| place := Take g; running := Some (code (Slot ALoad)) |}
  | CTR g x => {| place := Take g; running := Some (Ret (Some x)) |}
  | CI0 g x => {| place := Pop (g ++ [x]); running := None |}
  | CI1 g x => {| place := Pop (g ++ [x]); running := Some (code (Count APreInc)) |}
  | CIR g x => {| place := Pop (g ++ [x]); running := Some (Ret (Some (tmod (length g + 1)))) |}
  end.
Definition conc (s : ps) : state spot N :=
  {| words := emod (hd (cc s)) :: emod (tl (pp s)) :: sl s; threads := [pt (pp s); ct (cc s)] |}.
Definition room (i h : nat) : bool := ((N.of_nat i + 2 ^ w - tmod h) mod 2 ^ w <? N.of_nat size)%N.
Definition pstep (s : ps) : ps :=
  let c := cc s in let l := sl s in
  match pp s with
  | PW0 i => PS (PW1 i) c l
  | PW1 i => PS (PWR i (hd c)) c l
  | PWR i h => PS (if room i h then PS0 i else PW0 i) c l
  | PS0 i => PS (PS1 i) c l
  | PS1 i => PS (PSR i) c (set_nth (i mod size) (item i) l)
  | PSR i => PS (PI0 i) c l
  | PI0 i => PS (PI1 i) c l
  | PI1 i => PS (PIR i) c l
  | PIR i => PS (PW0 (i + 1)) c l
  end.
Definition cstep (s : ps) : ps :=
  let p := pp s in let l := sl s in
  match cc s with
  | CW0 g => PS p (CW1 g) l
  | CW1 g => PS p (CWR g (tl p)) l
  | CWR g t => PS p (if (tmod t =? tmod (length g))%N then CW0 g else CT0 g) l
  | CT0 g => PS p (CT1 g) l
  | CT1 g => PS p (CTR g (nth (length g mod size) l 0 mod 2 ^ vw)%N) l
  | CTR g x => PS p (CI0 g x) l
  | CI0 g x => PS p (CI1 g x) l
  | CI1 g x => PS p (CIR g x) l
  | CIR g x => PS p (CW0 (g ++ [x])) l
  end.
Definition rstep (s : ps) (me : nat) : ps := match me with 0 => pstep s | 1 => cstep s | _ => s end.

Lemma item_elem i : wrap ew (item i) = item i.
Proof.
  unfold wrap. apply N.mod_small. specialize (Hi i). pose proof (N.pow_le_mono_r 2 vw ew ltac:(lia) Hv). lia.
Qed.
Lemma nth_in (l : list N) k : k < length l -> nth_error l k = Some (nth k l 0%N).
Proof. intros H. apply nth_error_nth'. exact H. Qed.
Ltac calc := cbn -[N.modulo N.pow N.add N.sub N.eqb N.ltb wrap AtomicModel.plus Nat.modulo N.of_nat Nat.add].
Ltac calc' := cbn -[N.modulo N.pow N.add N.sub N.eqb N.ltb wrap AtomicModel.plus Nat.modulo N.of_nat].
Lemma simulates_pipe s me go : length (sl s) = size ->
  step code (pipe_act size item) (pipe_after w size) ew (conc s) me go = conc (rstep s me).
Proof.
  intros L. destruct s as [p c l]. cbn [sl] in L.
  destruct me as [|[|me]].
  - unfold step, conc. cbn [threads nth_error pp cc sl]. destruct p as [i|i|i h|i|i|i|i|i|i]; calc; try reflexivity.
    + unfold AtomicModel.to_t, wrap. rewrite (tmod_emod w ew Hw). reflexivity.
    + change (N.of_nat i + 2 ^ w - tmod h)%N with (N.of_nat i + 2 ^ w - tmod h)%N. fold (room i h). destruct (room i h); reflexivity.
    + unfold pipe_act. calc'. rewrite nth_in by (rewrite L; apply Nat.mod_upper_bound; lia). calc'.
      unfold AtomicModel.to_elem. cbn [andb]. rewrite item_elem. reflexivity.
    + rewrite (emod_succ w ew Hw), (plus_one iw w ew Hw). calc. unfold AtomicModel.to_t, wrap. rewrite (tmod_emod w ew Hw).
      replace (N.of_nat i + 1)%N with (N.of_nat (i + 1)) by lia. reflexivity.
  - unfold step, conc. cbn [threads nth_error pp cc sl]. destruct c as [g|g|g t|g|g|g x|g x|g x|g x]; calc; try reflexivity.
    + unfold AtomicModel.to_t, wrap. rewrite (tmod_emod w ew Hw). reflexivity.
    + destruct (tmod t =? tmod (length g))%N; reflexivity.
    + unfold pipe_act. calc'. rewrite nth_in by (rewrite L; apply Nat.mod_upper_bound; lia). calc'.
      unfold AtomicModel.to_t, wrap. rewrite set_same by (apply nth_in; rewrite L; apply Nat.mod_upper_bound; lia). reflexivity.
    + rewrite (emod_succ w ew Hw), (plus_one iw w ew Hw). calc. unfold AtomicModel.to_t, wrap. rewrite (tmod_emod w ew Hw).
      replace (N.of_nat (length g) + 1)%N with (N.of_nat (length g + 1)) by lia. reflexivity.
    + rewrite app_length. reflexivity.
  - unfold step, conc. cbn [threads nth_error]. destruct me; reflexivity.
Qed.

(** ** Invariant *)
Section Bounded.
Hypothesis Hlt : (N.of_nat size < 2 ^ w)%N.
Definition p_ok (s : ps) : Prop :=
  match pp s with
  | PWR i h => h <= hd (cc s) /\ i <= h + size
  | PS0 i | PS1 i => i < hd (cc s) + size
  | PSR i | PI0 i | PI1 i => i < hd (cc s) + size /\ nth_error (sl s) (i mod size) = Some (item i)
  | _ => True
  end.
Definition c_ok (s : ps) : Prop :=
  match cc s with
  | CWR g t => length g <= t /\ t <= tl (pp s)
  | CT0 g | CT1 g => length g < tl (pp s)
  | CTR g x | CI0 g x | CI1 g x => length g < tl (pp s) /\ x = item (length g)
  | CIR g x => x = item (length g)
  | _ => True
  end.
Definition inv (s : ps) : Prop :=
  hd (cc s) <= tl (pp s) <= hd (cc s) + size /\ length (sl s) = size /\
  got (cc s) = map item (seq 0 (length (got (cc s)))) /\
  (forall i, hd (cc s) <= i < tl (pp s) -> nth_error (sl s) (i mod size) = Some (item i)) /\ p_ok s /\ c_ok s.

Lemma tmod_same a b : a <= b -> b <= a + size -> tmod a = tmod b -> a = b.
Proof.
  intros L U E. pose proof (N.pow_nonzero 2 w ltac:(lia)) as P.
  pose proof (N.div_mod (N.of_nat a) (2 ^ w) P) as Ea. pose proof (N.div_mod (N.of_nat b) (2 ^ w) P) as Eb.
  rewrite E in Ea. pose proof (N.mod_lt (N.of_nat b) (2 ^ w) P).
  destruct (N.eq_dec (N.of_nat a / 2 ^ w) (N.of_nat b / 2 ^ w)) as [Q|Q]; [rewrite Q in Ea; lia|]. nia.
Qed.
Lemma room_is i h : h <= i -> i <= h + size -> room i h = (i - h <? size).
Proof.
  intros L U. unfold room. pose proof (N.pow_nonzero 2 w ltac:(lia)) as P. pose proof (N.mod_lt (N.of_nat h) (2 ^ w) P) as B.
  assert (E : ((N.of_nat i + 2 ^ w - tmod h) mod 2 ^ w = N.of_nat (i - h))%N).
  { pose proof (N.div_mod (N.of_nat h) (2 ^ w) P) as Eh.
    replace (N.of_nat i + 2 ^ w - tmod h)%N with (N.of_nat (i - h) + (1 + N.of_nat h / 2 ^ w) * 2 ^ w)%N.
    - rewrite N.mod_add by exact P. apply N.mod_small. lia.
    - replace (N.of_nat (i - h)) with (N.of_nat i - N.of_nat h)%N by lia. rewrite N.mul_add_distr_r.
      rewrite (N.mul_comm (N.of_nat h / 2 ^ w)). lia. }
  rewrite E. destruct (N.ltb_spec (N.of_nat (i - h)) (N.of_nat size)), (Nat.ltb_spec (i - h) size); try reflexivity; lia.
Qed.
Lemma slot_same a b : a < b -> b < a + size -> a mod size <> b mod size.
Proof.
  intros L U E. pose proof (Nat.div_mod a size ltac:(lia)) as Ea. pose proof (Nat.div_mod b size ltac:(lia)) as Eb.
  pose proof (Nat.mod_upper_bound a size ltac:(lia)). rewrite E in Ea.
  destruct (Nat.eq_dec (a / size) (b / size)) as [Q|Q]; [rewrite Q in Ea; lia|]. nia.
Qed.
Lemma tmod_eqb a b : a <= b -> b <= a + size -> (tmod b =? tmod a)%N = (b =? a).
Proof.
  intros L U. destruct (N.eqb_spec (tmod b) (tmod a)) as [E|E], (Nat.eqb_spec b a) as [F|F]; try reflexivity; subst; try congruence.
  exfalso. apply F. symmetry. apply tmod_same; auto.
Qed.
Lemma items_snoc g : g = map item (seq 0 (length g)) -> g ++ [item (length g)] = map item (seq 0 (length (g ++ [item (length g)]))).
Proof. intros E. rewrite app_length. cbn [length]. rewrite Nat.add_1_r, seq_S, map_app. cbn [map]. rewrite <- E. reflexivity. Qed.
Lemma inv_pstep s : inv s -> inv (pstep s).
Proof.
  destruct s as [p c l]. intros (B & L & G & D & P & C). unfold inv, p_ok, c_ok in *. cbn [pp cc sl] in *.
  destruct p as [i|i|i h|i|i|i|i|i|i]; cbn [pstep pp cc sl tl] in *; unfold pstep; cbn [pp cc sl tl].
  - tauto.
  - repeat split; try tauto; lia.
  - rewrite room_is by lia. destruct (Nat.ltb_spec (i - h) size); cbn [tl]; repeat split; try tauto; lia.
  - tauto.
  - split; [exact B|]. split; [now rewrite set_nth_length|]. split; [exact G|]. split; [|split; [split|]].
    + intros k Hk. rewrite nth_error_set_nth by (rewrite L; apply Nat.mod_upper_bound; lia).
      destruct (Nat.eqb_spec (k mod size) (i mod size)) as [E|E]; [|apply D; exact Hk].
      exfalso. apply (slot_same k i); try assumption; lia.
    + exact P.
    + rewrite nth_error_set_nth by (rewrite L; apply Nat.mod_upper_bound; lia). now rewrite Nat.eqb_refl.
    + exact C.
  - tauto.
  - tauto.
  - destruct P as [P Pd]. split; [lia|]. split; [exact L|]. split; [exact G|]. split; [|split; [exact I|]].
    + intros k Hk. destruct (Nat.eq_dec k i) as [->|]; [exact Pd|apply D; lia].
    + destruct c; try exact C; try (destruct C; split; try assumption; lia); lia.
  - repeat split; try tauto; lia.
Qed.
Lemma inv_cstep s : inv s -> inv (cstep s).
Proof.
  destruct s as [p c l]. intros (B & L & G & D & P & C). unfold inv, p_ok, c_ok in *. cbn [pp cc sl] in *.
  destruct c as [g|g|g t|g|g|g x|g x|g x|g x]; cbn [pp cc sl hd got] in *; unfold cstep; cbn [pp cc sl hd got].
  - tauto.
  - repeat split; try tauto; lia.
  - rewrite tmod_eqb by lia. destruct (Nat.eqb_spec t (length g)); cbn [hd got]; repeat split; try tauto; lia.
  - tauto.
  - repeat split; try tauto; try lia. specialize (D (length g) ltac:(lia)).
    rewrite (nth_error_nth _ _ 0%N D). apply N.mod_small, Hi.
  - destruct C as [C ->]. repeat split; try tauto; try lia. apply items_snoc, G.
  - tauto.
  - destruct C as [C ->]. split; [lia|]. split; [exact L|]. split; [exact G|]. split; [intros k Hk; apply D; lia|]. split; [|reflexivity].
    destruct p; try exact P; try (destruct P; split; try assumption; lia); lia.
  - rewrite app_length in *. cbn [length] in *. repeat split; try tauto; try lia.
Qed.
Lemma inv_rstep s me : inv s -> inv (rstep s me).
Proof. intros H. destruct me as [|[|me]]; [apply inv_pstep|apply inv_cstep|]; exact H. Qed.

Section Run.
Variable sched : nat -> nat * bool.
Fixpoint R (t : nat) : ps :=
  match t with O => PS (PW0 0) (CW0 []) (repeat 0%N size) | S t => rstep (R t) (fst (sched t)) end.
Lemma inv_R t : inv (R t).
Proof.
  induction t as [|t IH]; cbn [R]; [|apply inv_rstep; exact IH].
  unfold inv, p_ok, c_ok. cbn [pp cc sl hd tl got length seq map]. rewrite repeat_length. repeat split; lia.
Qed.
Lemma pipe_run_R t : pipe_run w size item iw vw ew sched t = conc (R t).
Proof.
  unfold pipe_run. induction t as [|t IH]; cbn [state_at R].
  - unfold conc. cbn -[N.modulo N.pow repeat]. rewrite N.mod_0_l by (apply N.pow_nonzero; lia). reflexivity.
  - rewrite IH. apply simulates_pipe. apply (inv_R t).
Qed.

Definition crank (h : nat) (c : ck) : nat :=
  match c with
  | CIR _ _ => 10 | CWR g t => if t =? length g then 9 else 6
  | CW0 _ => 8 | CW1 _ => 7 | CT0 _ => 5 | CT1 _ => 4 | CTR _ _ => 3 | CI0 _ _ => 2 | CI1 _ _ => 1
  end.
Definition prank (p : pk) : nat :=
  match p with
  | PIR _ => 10 | PWR i h => if i - h <? size then 6 else 9
  | PW0 _ => 8 | PW1 _ => 7 | PS0 _ => 5 | PS1 _ => 4 | PSR _ => 3 | PI0 _ => 2 | PI1 _ => 1
  end.
Hypothesis F : fair 2 sched.
(** The consumer takes what is there. *)
Lemma takes h t : hd (cc (R t)) = h -> h < tl (pp (R t)) -> exists t', t <= t' /\ h < hd (cc (R t')).
Proof.
  intros E1 E2.
  apply (leads R (fun s => inv s /\ hd (cc s) = h /\ h < tl (pp s)) (fun s => h < hd (cc s)) (fun s => crank h (cc s)) sched 1);
    [apply F; lia| |split; [apply inv_R|auto]].
  clear t E1 E2. intros t (IV & E1 & E2). cbn [R]. pose proof (inv_rstep _ (fst (sched t)) IV) as IV'.
  destruct (R t) as [p c l]. destruct IV as (B & _ & _ & _ & _ & C). unfold c_ok in C. cbn [pp cc sl] in *.
  destruct (fst (sched t)) as [|[|me]] eqn:S.
  - right. right. cbn [rstep]. split; [|split; [|discriminate]].
    + split; [exact IV'|]. destruct p as [i|i|i k|i|i|i|i|i|i]; unfold pstep; cbn [pp cc sl tl] in *; try (destruct (room i k)); cbn [tl]; lia.
    + destruct p as [i|i|i k|i|i|i|i|i|i]; unfold pstep; cbn [pp cc sl]; lia.
  - right. destruct c as [g|g|g u|g|g|g x|g x|g x|g x]; unfold rstep, cstep in *; cbn [pp cc sl hd] in *;
      try (left; lia); right; try (split; [split; [exact IV'|cbn [hd]; rewrite ?app_length; cbn [length]; lia]|cbn [crank]; lia]).
    + split; [split; [exact IV'|cbn [hd]; lia]|]. cbn [crank]. destruct (Nat.eqb_spec (tl p) (length g)); lia.
    + rewrite tmod_eqb in * by lia. cbn [crank]. destruct (Nat.eqb_spec u (length g)); cbn [hd crank] in *; (split; [split; [exact IV'|lia]|lia]).
  - right. right. cbn [rstep]. split; [auto|split; [apply Nat.le_refl|discriminate]].
Qed.
(** The producer passes an item on when the queue is empty. *)
Lemma passes h t : hd (cc (R t)) = h -> tl (pp (R t)) = h -> exists t', t <= t' /\ hd (cc (R t')) = h /\ h < tl (pp (R t')).
Proof.
  intros E1 E2.
  apply (leads R (fun s => inv s /\ hd (cc s) = h /\ tl (pp s) = h) (fun s => hd (cc s) = h /\ h < tl (pp s)) (fun s => prank (pp s)) sched 0);
    [apply F; lia| |split; [apply inv_R|auto]].
  clear t E1 E2. intros t (IV & E1 & E2). cbn [R]. pose proof (inv_rstep _ (fst (sched t)) IV) as IV'.
  destruct (R t) as [p c l]. destruct IV as (B & _ & _ & _ & P & C). unfold p_ok, c_ok in *. cbn [pp cc sl] in *.
  destruct (fst (sched t)) as [|[|me]] eqn:S.
  - right. destruct p as [i|i|i k|i|i|i|i|i|i]; unfold rstep, pstep in *; cbn [pp cc sl tl] in *;
      try (left; lia); right; try (split; [split; [exact IV'|cbn [tl]; lia]|cbn [prank]; lia]).
    + split; [split; [exact IV'|cbn [tl]; lia]|]. cbn [prank]. destruct (Nat.ltb_spec (i - hd c) size); lia.
    + rewrite room_is in * by lia. cbn [prank]. destruct (Nat.ltb_spec (i - k) size); cbn [tl prank] in *; (split; [split; [exact IV'|lia]|lia]).
  - right. right. cbn [rstep]. split; [split; [exact IV'|]|split; [|discriminate]].
    + destruct c as [g|g|g u|g|g|g x|g x|g x|g x]; unfold cstep; cbn [pp cc sl hd] in *; try (destruct (_ =? _)%N); cbn [hd]; rewrite ?app_length; cbn [length]; lia.
    + destruct c as [g|g|g u|g|g|g x|g x|g x|g x]; unfold cstep; cbn [pp cc sl]; lia.
  - right. right. cbn [rstep]. split; [auto|split; [apply Nat.le_refl|discriminate]].
Qed.
Lemma moves_on t : exists t', t <= t' /\ hd (cc (R t)) < hd (cc (R t')).
Proof.
  destruct (Nat.lt_ge_cases (hd (cc (R t))) (tl (pp (R t)))) as [H|H]; [apply takes; auto|].
  destruct (inv_R t) as ((B & _) & _).
  destruct (passes (hd (cc (R t))) t) as (u & Lu & E1 & E2); [reflexivity|lia|].
  destruct (takes (hd (cc (R t))) u E1 E2) as (v & Lv & E). exists v. split; [lia|exact E].
Qed.
Lemma reaches m : exists t, m <= hd (cc (R t)).
Proof.
  induction m as [|m (t & IH)]; [exists 0; lia|]. destruct (moves_on t) as (t' & _ & H). exists t'. lia.
Qed.
End Run.
End Bounded.
End Pipe.
