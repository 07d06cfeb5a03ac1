From Verif Require Import Base BaseLemmas BitModel BitsetModel ZeroBitsetSpec.
Open Scope N_scope.

Lemma rd_same {A} (a : A) st r : Forall (fun s => s = a) st -> r < len st -> rd st r = Some a.
Proof.
  intros H L. rewrite rd_nth_error. destruct (nth_error st (N.to_nat r)) as [s|] eqn:E.
  - f_equal. rewrite Forall_forall in H. apply H. exact (nth_error_In _ _ E).
  - apply nth_error_None in E. unfold len in L. lia.
Qed.
Lemma set_same {A} (a : A) st n : Forall (fun s => s = a) st -> set_nth n a st = st.
Proof.
  intros H. revert n. induction H as [|x st E _ IH]; intros [|n]; cbn; try reflexivity; [subst; reflexivity|].
  rewrite IH. reflexivity.
Qed.
Lemma wr_same {A} (a : A) st r : Forall (fun s => s = a) st -> r < len st -> wr st r a = Some st.
Proof. intros H L. unfold wr. destruct (N.ltb_spec r (len st)); [|lia]. rewrite set_same by exact H. reflexivity. Qed.
Lemma rd_none {A} (i : N) : rd (@nil A) i = None.
Proof. apply rd_ge_None. unfold len. cbn. lia. Qed.
Lemma wr_none {A} (i : N) (v : A) : wr [] i v = None.
Proof. apply wr_ge_None. unfold len. cbn. lia. Qed.

Lemma zero_sized pl w same64 (st : list storage) op :
  0 < w -> Forall (fun s : storage => s = []) st -> Forall (fun r => r < len st) (registers op) ->
  bstep pl 0 w same64 st op = match zero_answer w same64 op with Some o => Done st o [] | None => Undef end.
Proof.
  intros Hw H R.
  assert (Hs : storage_size 0 w = 0) by (unfold storage_size; apply N.div_small; lia).
  assert (Hm : make 0 w = []) by (unfold make; rewrite Hs; reflexivity).
  assert (RD : forall r, r < len st -> rd st r = Some []) by (intros r L; exact (rd_same [] st r H L)).
  assert (WR : forall r, r < len st -> wr st r [] = Some st) by (intros r L; exact (wr_same [] st r H L)).
  destruct op; cbn [registers] in R; repeat match goal with R : Forall _ (_ :: _) |- _ => apply Forall_cons_iff in R; destruct R as (? & R) end; cbv beta in *;
    cbn [bstep zero_answer]; unfold upd, put, ask, done.
  all: repeat match goal with L : ?r < len _ |- _ => pose proof (RD r L); pose proof (WR r L); clear L end.
  all: repeat match goal with E : rd _ ?r = _ |- context [rd _ ?r] => rewrite E end; cbn iota beta.
  all: try rewrite Hm; cbn iota beta.
  all: try (match goal with E : wr _ ?r [] = _ |- context [wr _ ?r []] => rewrite E end; reflexivity).
  all: try reflexivity.
  all: try (unfold set_one, reset_one, flip_one, get; rewrite rd_none; reflexivity).
  all: try (unfold for_each_set, for_each_unset, for_each_bit, for_each_with; rewrite Hs; reflexivity).
  all: try (unfold set_all, reset_all, flip_all, complement, or_assign, and_assign, xor_assign, minus, shl_assign, shr_assign;
    cbn [N.eqb map map2]; cbn iota beta; match goal with E : wr _ ?r [] = _ |- _ = Done _ BUnit [] => exact (f_equal (fun o => match o with Some a => Done a BUnit [] | None => Undef end) E) end).
  - unfold of_u64. rewrite Hm. destruct same64; [rewrite wr_none; reflexivity|]. cbn [u64_words].
    match goal with E : wr st ?r [] = _ |- _ => rewrite E end. reflexivity.
  - unfold place. rewrite Hm. destruct ps as [|p ps]; cbn [set_each].
    + match goal with E : wr st ?r [] = _ |- _ => rewrite E end. reflexivity.
    + unfold set_one. rewrite rd_none. reflexivity.
  - unfold all_ones. rewrite Hs. cbn [N.to_nat repeat N.ltb N.compare]. cbn iota beta.
    match goal with E : wr st ?r [] = _ |- _ => rewrite E end. reflexivity.
  - unfold of_string. rewrite Hm. destruct (N.ltb_spec (len str) pos), (N.leb_spec pos (len str)); try lia; [reflexivity|].
    rewrite N.min_0_r. cbn [N.to_nat firstn rev map set_seq]. cbn iota beta.
    match goal with E : wr st ?r [] = _ |- _ => rewrite E end. reflexivity.
  - unfold set_range. destruct (_ =? _); [rewrite rd_none; reflexivity|]. destruct (_ <? _); [reflexivity|].
    rewrite rd_none. reflexivity.
  - unfold set_len, set_range. destruct (_ =? _); [rewrite rd_none; reflexivity|]. destruct (_ <? _); [reflexivity|].
    rewrite rd_none. reflexivity.
  - unfold to_uint. destruct (N.ltb_spec uw 0); [lia|]. destruct same; cbn [negb andb orb]; [reflexivity|].
    destruct (N.ltb_spec uw w), (N.leb_spec w uw); try lia; reflexivity.
Qed.
