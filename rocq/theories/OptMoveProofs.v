(** Proofs about OptMoveModel. *)
From Verif Require Import Base BaseLemmas MoveModel MoveSpec MoveProofs MoveProofs4 OptMoveModel OptMoveSpec.

Section Optional.
Context {V : Type}.
Notation store := (store V).
Implicit Types (m : store) (o : list nat) (q : quals).

Lemma value_eq q o : value q o = map (name q) o.
Proof. now destruct q. Qed.
Lemma acts_rvalue q : acts q = Rvalue <-> q = RRef.
Proof. destruct q; cbn; split; intros; congruence. Qed.
Lemma acts_const q : acts q = ConstLvalue <-> constant q = true.
Proof. destruct q; cbn; split; intros; congruence. Qed.
Lemma locs q o : map loc (map (name q) o) = o.
Proof. rewrite map_map. cbn. apply map_id. Qed.
Lemma given_name q o l : given_up (map (name q) o) l <-> q = RRef /\ In l o.
Proof.
  unfold given_up. split.
  - intros (r & I & C & E). apply in_map_iff in I. destruct I as (k & <- & K). cbn in *. subst. split; [now apply acts_rvalue|exact K].
  - intros [-> I]. exists (name RRef l). split; [now apply in_map|]. now split.
Qed.
Lemma count_one o l : NoDup o -> In l o -> count_occ Nat.eq_dec o l = 1.
Proof. intros N I. now apply (proj1 (NoDup_count_occ' Nat.eq_dec o)). Qed.
Lemma exclusive_name q o : NoDup o -> exclusive (map (name q) o).
Proof. intros N r I _. rewrite locs. apply in_map_iff in I. destruct I as (k & <- & K). cbn. now apply count_one. Qed.
Lemma spent_of q o m m' : left_behind m (map (name q) o) m' -> spent q o m m'.
Proof.
  intros L l. destruct (in_dec Nat.eq_dec l o) as [I|I]; destruct q; try (apply (untouched _ _ _ L); rewrite given_name; intros []; congruence).
  apply (moved_from _ _ _ L). now rewrite given_name.
Qed.
Lemma build_value q o m : NoDup o -> exists m', build m (value q o) = (m', map (look m) o) /\ spent q o m m'.
Proof.
  intros N. rewrite value_eq. destruct (built m (map (name q) o) (exclusive_name q o N)) as (m' & E & L). exists m'.
  unfold values_of in E. rewrite map_map in E. cbn [name loc] in E. split; [exact E|now apply spent_of].
Qed.
Lemma spent_cm q o m m' : spent (const_or_move q) o m m' -> spent q o m m'.
Proof. now destruct q. Qed.

(** ** Calls *)
Definition refs (args : list (quals * nat)) : list (ref quals) := map (fun a => name (fst a) (snd a)) args.
Lemma value_refs q o : value q o = refs (map (pair q) o).
Proof. rewrite value_eq. unfold refs. now rewrite map_map. Qed.
Lemma values_refs os : flat_map (fun p => value (fst p) (snd p)) os = refs (parts_of os).
Proof.
  induction os as [|p os IH]; [reflexivity|]. cbn [flat_map parts_of]. fold (parts_of os). unfold refs in *. rewrite map_app. f_equal; [|exact IH].
  rewrite value_refs. reflexivity.
Qed.
Lemma sees_refs m args : map (sees m) (refs args) = visible m args.
Proof. unfold refs, visible. rewrite map_map. reflexivity. Qed.
Lemma count_apart (ls : list nat) l : (forall i j, nth_error ls i = Some l -> nth_error ls j = Some l -> i = j) -> In l ls -> count_occ Nat.eq_dec ls l = 1.
Proof.
  induction ls as [|k ls IH]; intros H I; [destruct I|]. cbn [count_occ]. destruct (Nat.eq_dec k l) as [->|N].
  - f_equal. apply count_occ_not_In. intros J. apply In_nth_error in J. destruct J as (j & J). now specialize (H 0 (S j) eq_refl J).
  - destruct I as [->|I]; [now destruct N|]. apply IH; [|exact I]. intros i j A B. specialize (H (S i) (S j) A B). lia.
Qed.
Lemma unaliased_refs args : apart args -> unaliased (refs args).
Proof.
  intros A r I C. unfold refs in *. apply in_map_iff in I. destruct I as ([q l] & <- & I). cbn in *.
  assert (Q : constant q = false) by (destruct q; cbn in *; congruence).
  rewrite map_map. cbn. change (map (fun a : quals * nat => snd a) args) with (map snd args). apply In_nth_error in I. destruct I as (k & K).
  assert (U : forall i, nth_error (map snd args) i = Some l -> i = k).
  { intros i H. rewrite nth_error_map in H. destruct (nth_error args i) as [[q' l']|] eqn:E; [|discriminate]. cbn in H. injection H as ->. symmetry. now apply (A k i q q' l). }
  apply count_apart; [|apply in_map_iff; exists (q, l); split; [reflexivity|now apply nth_error_In in K]].
  intros i j Hi Hj. now rewrite (U i Hi), (U j Hj).
Qed.
Lemma present_refs m args : Forall (fun l => l < length m) (map snd args) -> present m (refs args).
Proof. intros F. unfold present, refs. apply Forall_map. cbn. now apply Forall_map in F. Qed.
Lemma calls_fn_ok {W R} (f : fn V W R) w m args : apart args -> Forall (fun l => l < length m) (map snd args) ->
  exists w' r xs m', f w (visible m args) = (w', r, xs) /\ calls_fn f (w, m) (refs args) = ((w', m'), r) /\ left_by args xs m m'.
Proof.
  intros A P. unfold calls_fn. cbn [fst snd]. rewrite sees_refs. destruct (f w (visible m args)) as [[w' r] xs]. exists w', r, xs, (write_all m (refs args) xs).
  split; [reflexivity|]. split; [reflexivity|]. pose proof (unaliased_refs args A) as U. split.
  - intros i q l x Hi Hx. assert (Hr : nth_error (refs args) i = Some (name q l)) by (unfold refs; rewrite nth_error_map, Hi; reflexivity).
    destruct (constant q) eqn:Q.
    + apply write_all_kept. intros r' I C E. unfold refs in I. apply in_map_iff in I. destruct I as ([q' l'] & <- & I). cbn in *. subst l'.
      apply In_nth_error in I. destruct I as (j & J).
      assert (Q' : constant q' = false) by (destruct q'; cbn in *; congruence).
      specialize (A j i q' q l J Hi Q'). subst j. rewrite J in Hi. injection Hi as ->. congruence.
    + apply (write_all_written (refs args) m xs i (name q l) x U (present_refs m args P) Hr); [destruct q; cbn in *; congruence|exact Hx].
  - intros l N. apply write_all_kept. intros r' I _ E. apply N. unfold refs in I. apply in_map_iff in I. destruct I as (a & <- & I). cbn in E. subst l. now apply in_map.
Qed.
Lemma apart_one q o : NoDup o -> apart (map (pair q) o).
Proof.
  intros N i j q1 q2 l Hi Hj _. rewrite nth_error_map in *. destruct (nth_error o i) as [a|] eqn:Ei; [|discriminate]. destruct (nth_error o j) as [b|] eqn:Ej; [|discriminate].
  cbn in *. injection Hi as <- <-. injection Hj as <- ->. apply (proj1 (NoDup_nth_error o) N); [|congruence]. apply nth_error_Some. congruence.
Qed.
Lemma snd_pair q o : map snd (map (pair q) o) = o.
Proof. rewrite map_map. cbn. apply map_id. Qed.

Section Tombstone.
Variable is_tombstone : list (cell V) -> bool.
Notation has m o := (is_tombstone (map (look m) o) = false).
Lemma has_true m o : has m o -> has_value is_tombstone m o = true.
Proof. unfold has_value. now intros ->. Qed.
Lemma has_false m o : is_tombstone (map (look m) o) = true -> has_value is_tombstone m o = false.
Proof. unfold has_value. now intros ->. Qed.

Lemma value_or_ok mk m q o d : NoDup o -> exclusive d ->
  (has m o -> exists m', value_or is_tombstone mk m q o d = (m', map (look m) o) /\ spent q o m m') /\
  (~ has m o -> exists m', value_or is_tombstone mk m q o d = (m', mk (values_of m d)) /\ left_behind m d m').
Proof.
  intros N X. unfold value_or. split; intros H.
  - rewrite (has_true m o H). destruct (build_value (const_or_move q) o m N) as (m' & E & S). exists m'. split; [exact E|now apply spent_cm].
  - apply Bool.not_false_is_true in H. rewrite (has_false m o H). unfold make. destruct (built m d X) as (m' & E & L). exists m'. rewrite E. now split.
Qed.
Lemma or_else_ok {W} (w : W) m q o f : NoDup o ->
  (has m o -> exists m', or_else is_tombstone (w, m) q o f = ((w, m'), map (look m) o) /\ spent q o m m') /\
  (~ has m o -> or_else is_tombstone (w, m) q o f = f w m).
Proof.
  intros N. unfold or_else. cbn [fst snd]. split; intros H.
  - rewrite (has_true m o H). destruct (build_value (const_or_move q) o m N) as (m' & E & S). exists m'. rewrite E. split; [reflexivity|now apply spent_cm].
  - apply Bool.not_false_is_true in H. now rewrite (has_false m o H).
Qed.
Lemma transform_ok {W R} (empty : R) (f : fn V W R) w m q o : an_object m o ->
  (has m o -> exists w' r xs m', f w (map (fun l => (q, look m l)) o) = (w', r, xs) /\
     transform is_tombstone empty f (w, m) q o = ((w', m'), r) /\ left_by (map (pair q) o) xs m m') /\
  (~ has m o -> transform is_tombstone empty f (w, m) q o = ((w, m), empty)).
Proof.
  intros [N P]. unfold transform. cbn [fst snd]. split; intros H.
  - rewrite (has_true m o H), value_refs.
    destruct (calls_fn_ok f w m (map (pair q) o) (apart_one q o N)) as (w' & r & xs & m' & H1 & H2 & H3); [now rewrite snd_pair|].
    exists w', r, xs, m'. unfold visible in H1. rewrite map_map in H1. cbn in H1. auto.
  - apply Bool.not_false_is_true in H. now rewrite (has_false m o H).
Qed.
Lemma all_have_ok m os : all_have is_tombstone m os = true <-> forall p, In p os -> has m (snd p).
Proof.
  induction os as [|p os IH]; cbn [all_have In]; [now split|]. unfold has_value. destruct (is_tombstone (map (look m) (snd p))) eqn:E; cbn [negb].
  - split; [discriminate|]. intros H. now rewrite (H p (or_introl eq_refl)) in E.
  - rewrite IH. split; [intros H p' [<-|I]; auto|auto].
Qed.
Lemma transform_all_ok {W R} (empty : R) (f : fn V W R) w m os : apart (parts_of os) -> Forall (fun l => l < length m) (map snd (parts_of os)) ->
  ((forall p, In p os -> has m (snd p)) -> exists w' r xs m', f w (visible m (parts_of os)) = (w', r, xs) /\
     transform_all is_tombstone empty f (w, m) os = ((w', m'), r) /\ left_by (parts_of os) xs m m') /\
  ((exists p, In p os /\ ~ has m (snd p)) -> transform_all is_tombstone empty f (w, m) os = ((w, m), empty)).
Proof.
  intros A P. unfold transform_all. cbn [fst snd]. split.
  - intros H. apply all_have_ok in H. rewrite H, values_refs. destruct (calls_fn_ok f w m (parts_of os) A P) as (w' & r & xs & m' & H1 & H2 & H3).
    exists w', r, xs, m'. auto.
  - intros (p & I & H). destruct (all_have is_tombstone m os) eqn:E; [|reflexivity]. rewrite all_have_ok in E. now destruct (H (E p I)).
Qed.
End Tombstone.

(** ** Changes *)
Lemma set_all_ok o : forall m vs, NoDup o -> Forall (fun l => l < length m) o -> length vs = length o -> now_has o vs m (set_all m o vs).
Proof.
  induction o as [|l o IH]; intros m [|v vs] N P E; try discriminate; cbn [set_all].
  - now split.
  - inversion N as [|? ? N1 N2]; subst. inversion P as [|? ? P1 P2]; subst.
    destruct (IH (set_nth l v m) vs N2) as [A B]; [now rewrite set_nth_length|cbn in E; lia|]. split.
    + cbn [map]. f_equal; [|exact A]. rewrite (B l N1). unfold look. rewrite (nth_error_nth (set_nth l v m) l Gone (x := v)); [reflexivity|].
      rewrite nth_error_set_nth by exact P1. now rewrite Nat.eqb_refl.
    + intros k K. rewrite B by (intros I; apply K; now right). apply look_set. intros ->. apply K. now left.
Qed.
Lemma make_ok mk m us : exclusive us -> exists m', make mk m us = (m', mk (values_of m us)) /\ left_behind m us m' /\ length m' = length m.
Proof.
  intros X. unfold make. destruct (built m us X) as (m' & E & L). exists m'. split; [now rewrite E|]. split; [exact L|].
  rewrite <- (build_length m us), E. reflexivity.
Qed.
Lemma emplace_ok mk m o us : an_object m o -> exclusive us -> length (mk (values_of m us)) = length o -> (forall u, In u us -> ~ In (loc u) o) ->
  exists m1 m', emplace mk m o us = Some m' /\ left_behind m us m1 /\ now_has o (mk (values_of m us)) m1 m'.
Proof.
  intros [N P] X E H. unfold emplace. destruct (existsb _ us) eqn:B.
  - apply existsb_exists in B. destruct B as (u & I & B). apply existsb_exists in B. destruct B as (l & J & B). apply Nat.eqb_eq in B. subst l. now destruct (H u I).
  - destruct (make_ok mk m us X) as (m1 & -> & L & Len). exists m1, (set_all m1 o (mk (values_of m us))). split; [reflexivity|]. split; [exact L|].
    apply set_all_ok; [exact N|now rewrite Len|exact E].
Qed.
Lemma emplace_own mk m o us : (exists u, In u us /\ In (loc u) o) -> emplace mk m o us = None.
Proof.
  intros (u & I & J). unfold emplace. assert (B : existsb (fun u => existsb (Nat.eqb (loc u)) o) us = true).
  { apply existsb_exists. exists u. split; [exact I|]. apply existsb_exists. exists (loc u). split; [exact J|apply Nat.eqb_refl]. }
  now rewrite B.
Qed.
Lemma assign_ok mk m o us : an_object m o -> exclusive us -> length (mk (values_of m us)) = length o ->
  exists m1, left_behind m us m1 /\ now_has o (mk (values_of m us)) m1 (assign mk m o us).
Proof.
  intros [N P] X E. unfold assign. destruct (make_ok mk m us X) as (m1 & -> & L & Len). exists m1. split; [exact L|].
  apply set_all_ok; [exact N|now rewrite Len|exact E].
Qed.
Lemma reset_ok (ts : list V) m o : an_object m o -> length ts = length o -> now_has o (map Value ts) m (reset ts m o).
Proof. intros [N P] E. apply set_all_ok; [exact N|exact P|now rewrite map_length]. Qed.
End Optional.
