(** Property C140: the calls of == that cx_set, cx_map and cx_multimap make. [cs_step], [cm_step] and [cmm_step] are a
    call with the record [tr] of the calls of == so far; [ev x t] records [x == t]. *)
From Verif Require Import Base CxSetModel CxMapModel CxMultimapModel KeyCmpModel KeyCmpSpec.
From Verif Require Import KeyCmpProofs KeyCmpProofs2 KeyCmpProofs3 KeyCmpProofs4 KeyCmpProofs5.

(** With an == that answers, the recorded calls are the calls of C04 to C06. *)
Theorem C140_set_calls :
  forall (E T : Type) (ev : T -> T -> E) f s op tr, exists t,
  match s_step f s op with
  | Done s' o _ => cs_step ev (answers f) op s tr = (Ret o, s', tr ++ t)
  | _ => exists s', cs_step ev (answers f) op s tr = (Ub, s', tr ++ t)
  end.
Proof.
  intros E T ev f s op tr. destruct (cs_step_agrees ev f op s tr) as (r & -> & t & H). exists t.
  destruct r as [[s' o]|]; exact H.
Qed.
Print Assumptions C140_set_calls.
Theorem C140_map_calls :
  forall (E K V : Type) (ev : K -> K -> E) f cap (m : cmap K V) op tr, exists t,
  match m_step f cap m op with
  | Done m' o _ => cm_step ev (answers f) cap op m tr = (Ret o, m', tr ++ t)
  | _ => exists m', cm_step ev (answers f) cap op m tr = (Ub, m', tr ++ t)
  end.
Proof.
  intros E K V ev f cap m op tr. destruct (cm_step_agrees ev f cap op m tr) as (r & -> & t & H). exists t.
  destruct r as [[s' o]|]; exact H.
Qed.
Print Assumptions C140_map_calls.
Theorem C140_multimap_calls :
  forall (E K V : Type) (kev : K -> K -> E) kf (vev : V -> V -> E) vf vcap dv m op tr, exists t,
  match mm_step kf vf vcap dv m op with
  | Done m' o _ => cmm_step kev (answers kf) vev (answers vf) vcap dv op m tr = (Ret o, m', tr ++ t)
  | _ => exists m', cmm_step kev (answers kf) vev (answers vf) vcap dv op m tr = (Ub, m', tr ++ t)
  end.
Proof.
  intros E K V kev kf vev vf vcap dv m op tr.
  destruct (cmm_step_agrees kev vev kf vf vcap dv op m tr) as (r & -> & t & H). exists t.
  destruct r as [[s' o]|]; exact H.
Qed.
Print Assumptions C140_multimap_calls.

(** The comparisons of a call that returns: the stored keys in order, up to the first that is equal, each with the key
    sought on the right. *)
Theorem C140_set_compares :
  forall (E T : Type) (ev : T -> T -> E) f cap, (cap < size_mod)%N -> forall d s tr op o s' tr',
  set_reached ev (answers f) cap d s tr -> cs_step ev (answers f) op s tr = (Ret o, s', tr') ->
  exists l, s_items s = Some l /\ tr' = tr ++ set_compares ev f l op.
Proof.
  intros E T ev f cap C d s tr op o s' tr' R H. pose proof (set_reached_inv _ _ _ _ _ _ C R) as I.
  eexists. split; [exact (inv_s_items _ I)|]. exact (cs_step_traces ev f op s tr _ I (inv_s_items _ I) _ _ _ H).
Qed.
Print Assumptions C140_set_compares.
Theorem C140_map_compares :
  forall (E K V : Type) (ev : K -> K -> E) f cap, (cap < size_mod)%N -> forall (d : K * V) m tr op o m' tr',
  map_reached ev (answers f) cap d m tr -> cm_step ev (answers f) cap op m tr = (Ret o, m', tr') ->
  exists l, m_items m = Some l /\ tr' = tr ++ map_compares ev f l op.
Proof.
  intros E K V ev f cap C d m tr op o m' tr' R H. pose proof (map_reached_inv _ _ _ _ _ _ C R) as I.
  eexists. split; [exact (inv_m_items _ _ I)|].
  exact (cm_step_traces ev f cap op m tr _ (inv_m_items _ _ I) _ _ _ H).
Qed.
Print Assumptions C140_map_compares.
Theorem C140_multimap_compares :
  forall (E K V : Type) (kev : K -> K -> E) kf (vev : V -> V -> E) vf kcap vcap,
  (kcap < size_mod)%N -> (vcap < size_mod)%N -> forall dk dv m tr op o m' tr',
  multimap_reached kev (answers kf) vev (answers vf) kcap vcap dk dv m tr ->
  cmm_step kev (answers kf) vev (answers vf) vcap dv op m tr = (Ret o, m', tr') ->
  exists l, mm_items m = Some l /\ tr' = tr ++ multimap_compares kev kf vev vf l op.
Proof.
  intros E K V kev kf vev vf kcap vcap C1 C2 dk dv m tr op o m' tr' R H.
  pose proof (multimap_reached_inv _ _ _ _ _ _ _ _ _ _ C1 C2 R) as I. destruct (inv_mm_items _ I) as (l & Hl).
  exists l. split; [exact Hl|]. exact (cmm_step_traces kev kf vev vf vcap dv op m tr l I Hl _ _ _ H).
Qed.
Print Assumptions C140_multimap_compares.

(** Whatever == answers, also if it throws: a stored key is always on the left and the argument on the right, and
    there are at most size() comparisons (merge: that many for each key, counting those merged already). *)
Theorem C140_set_operands :
  forall (E T : Type) (ev : T -> T -> E) eq cap, (cap < size_mod)%N -> forall d s tr op r s' tr',
  set_reached ev eq cap d s tr -> cs_step ev eq op s tr = (r, s', tr') ->
  exists l t, s_items s = Some l /\ tr' = tr ++ t /\
  (forall e, In e t -> exists x k, In k (set_args op) /\ In x (l ++ set_stores op) /\ e = ev x k) /\
  (length t <= length (set_args op) * (length l + length (set_stores op)))%nat.
Proof.
  intros E T ev eq cap C d s tr op r s' tr' R H. pose proof (set_reached_inv _ _ _ _ _ _ C R) as I.
  destruct (cs_step_logs ev eq op s tr _ I (inv_s_items _ I) _ _ _ H) as (t & H1 & H2 & H3).
  exists (firstn (N.to_nat (s_size s)) (s_storage s)), t. split; [exact (inv_s_items _ I)|]. split; [exact H1|].
  split; [|exact H3]. apply Forall_forall, H2.
Qed.
Print Assumptions C140_set_operands.
Theorem C140_map_operands :
  forall (E K V : Type) (ev : K -> K -> E) eq cap, (cap < size_mod)%N -> forall (d : K * V) m tr op r m' tr',
  map_reached ev eq cap d m tr -> cm_step ev eq cap op m tr = (r, m', tr') ->
  exists l t, m_items m = Some l /\ tr' = tr ++ t /\
  (forall e, In e t -> exists x k, In k (map_args op) /\ In x (map fst l) /\ e = ev x k) /\
  (length t <= length (map_args op) * length l)%nat.
Proof.
  intros E K V ev eq cap C d m tr op r m' tr' R H. pose proof (map_reached_inv _ _ _ _ _ _ C R) as I.
  destruct (cm_step_logs ev eq cap op m tr _ (inv_m_items _ _ I) _ _ _ H) as (t & H1 & H2 & H3).
  exists (firstn (N.to_nat (m_size m)) (m_storage m)), t. split; [exact (inv_m_items _ _ I)|]. split; [exact H1|].
  split; [|exact H3]. apply Forall_forall, H2.
Qed.
Print Assumptions C140_map_operands.
(** A multimap: keys with the key, values with the value, and at most three lookups of the key and one of the value. *)
Theorem C140_multimap_operands :
  forall (E K V : Type) (kev : K -> K -> E) keq (vev : V -> V -> E) veq kcap vcap,
  (kcap < size_mod)%N -> (vcap < size_mod)%N -> forall dk dv m tr op r m' tr',
  multimap_reached kev keq vev veq kcap vcap dk dv m tr -> on_set_call op = false ->
  cmm_step kev keq vev veq vcap dv op m tr = (r, m', tr') ->
  exists l t, mm_items m = Some l /\ tr' = tr ++ t /\
  (forall e, In e t ->
     (exists x k, In k (multimap_keys op) /\ In x (map fst l) /\ e = kev x k) \/
     (exists x w v, In v (multimap_values op) /\ In w (map snd l) /\ In x w /\ e = vev x v)) /\
  forall n, (forall e, In e l -> (length (snd e) <= n)%nat) -> (length t <= 3 * length l + n)%nat.
Proof.
  intros E K V kev keq vev veq kcap vcap C1 C2 dk dv m tr op r m' tr' R Ho H.
  pose proof (multimap_reached_inv _ _ _ _ _ _ _ _ _ _ C1 C2 R) as I. destruct (inv_mm_items _ I) as (l & Hl).
  pose proof (fun n Hn => cmm_step_logs kev keq vev veq vcap dv op m tr l n I Hl Ho Hn _ _ _ H) as L.
  set (big := list_max (map (fun e => length (snd e)) l)).
  assert (Hb : forall e, In e l -> (length (snd e) <= big)%nat).
  { intros e He. pose proof (proj1 (list_max_le (map (fun e => length (snd e)) l) big) (le_n _)) as F.
    rewrite Forall_forall in F. apply F. apply (in_map (fun e => length (snd e)) l e He). }
  destruct (L big Hb) as (t & H1 & H2 & H3). exists l, t. split; [exact Hl|]. split; [exact H1|].
  split; [apply Forall_forall, H2|]. intros n Hn. destruct (L n Hn) as (t2 & G1 & _ & G3).
  assert (t2 = t) as -> by (rewrite H1 in G1; apply app_inv_head in G1; congruence). exact G3.
Qed.
Print Assumptions C140_multimap_operands.

(** If == throws, the container is as it was before the call ... *)
Theorem C140_set_throw :
  forall (E T : Type) (ev : T -> T -> E) eq s tr op s' tr',
  compares_first op = true -> cs_step ev eq op s tr = (Thrown, s', tr') -> s' = s.
Proof. intros E T ev eq s tr op s' tr' H. exact (cs_step_safe ev eq op H s tr s' tr'). Qed.
Print Assumptions C140_set_throw.
Theorem C140_map_throw :
  forall (E K V : Type) (ev : K -> K -> E) eq cap (m : cmap K V) tr op m' tr',
  cm_step ev eq cap op m tr = (Thrown, m', tr') -> m' = m.
Proof. intros E K V ev eq cap m tr op m' tr'. exact (cm_step_safe ev eq cap op m tr m' tr'). Qed.
Print Assumptions C140_map_throw.
Theorem C140_multimap_throw :
  forall (E K V : Type) (kev : K -> K -> E) keq (vev : V -> V -> E) veq vcap dv m tr op m' tr',
  multimap_compares_first op = true -> cmm_step kev keq vev veq vcap dv op m tr = (Thrown, m', tr') -> m' = m.
Proof.
  intros E K V kev keq vev veq vcap dv m tr op m' tr' H. exact (cmm_step_safe kev keq vev veq vcap dv op H m tr m' tr').
Qed.
Print Assumptions C140_multimap_throw.
(** ... but merge() has merged the keys before the one it was comparing ... *)
Theorem C140_merge_throw :
  forall (E T : Type) (ev : T -> T -> E) eq s tr ts s' tr',
  cs_step ev eq (SMerge ts) s tr = (Thrown, s', tr') ->
  exists t1 t2 tr1, ts = t1 ++ t2 /\ t2 <> [] /\ cs_step ev eq (SMerge t1) s tr = (Ret SUnit, s', tr1).
Proof.
  intros E T ev eq s tr ts s' tr' H. cbn [cs_step] in H. unfold bind in H.
  destruct (cs_merge ev eq ts s tr) as [[[[]| |] s1] u1] eqn:M; try discriminate. injection H as <- <-.
  destruct (cs_merge_thrown _ _ _ _ _ _ _ M) as (t1 & x & t2 & tr2 & E1 & E2 & _).
  exists t1, (x :: t2), tr2. split; [exact E1|]. split; [discriminate|]. cbn [cs_step]. unfold bind. rewrite E2. reflexivity.
Qed.
Print Assumptions C140_merge_throw.
(** ... and erase(k, v) may have erased the last value of a key that stays. *)
Theorem C140_multimap_erase_throw :
  forall (E K V : Type) (kev : K -> K -> E) keq (vev : V -> V -> E) veq kcap vcap,
  (kcap < size_mod)%N -> (vcap < size_mod)%N -> forall dk dv m tr k v m' tr',
  multimap_reached kev keq vev veq kcap vcap dk dv m tr ->
  cmm_step kev keq vev veq vcap dv (MMErase k v) m tr = (Thrown, m', tr') ->
  m' = m \/
  exists a k' w b, mm_items m = Some (a ++ (k', w) :: b) /\ mm_items m' = Some (a ++ (k', []) :: b) /\
  (exists t, keq t k' k = Some true) /\ (w = [] \/ exists x t, w = [x] /\ veq t x v = Some true).
Proof.
  intros E K V kev keq vev veq kcap vcap C1 C2 dk dv m tr k v m' tr' R H.
  pose proof (multimap_reached_inv _ _ _ _ _ _ _ _ _ _ C1 C2 R) as I. destruct (inv_mm_items _ I) as (l & Hl).
  cbn [cmm_step] in H. unfold bind at 1 in H.
  destruct (cmm_erase kev keq vev veq k v m tr) as [[[n| |] m1] u1] eqn:M; try discriminate. injection H as <- <-.
  destruct (cmm_erase_thrown _ _ _ _ _ _ _ _ _ _ _ I Hl M) as [->|(a & k' & w & b & H1 & H)]; [auto|].
  right. exists a, k', w, b. rewrite Hl, H1. auto.
Qed.
Print Assumptions C140_multimap_erase_throw.
(** merge() into the set that get() of a multimap gives is as merge() into a set. *)
Theorem C140_multimap_merge_throw :
  forall (E K V : Type) (kev : K -> K -> E) keq (vev : V -> V -> E) veq kcap vcap,
  (kcap < size_mod)%N -> (vcap < size_mod)%N -> forall dk dv m tr k ts m' tr',
  multimap_reached kev keq vev veq kcap vcap dk dv m tr ->
  cmm_step kev keq vev veq vcap dv (MMOnSet k (SMerge ts)) m tr = (Thrown, m', tr') ->
  exists t1 t2 tr1, ts = t1 ++ t2 /\
  (m' = m \/ cmm_step kev keq vev veq vcap dv (MMOnSet k (SMerge t1)) m tr = (Ret (MMSet SUnit), m', tr1)).
Proof.
  intros E K V kev keq vev veq kcap vcap C1 C2 dk dv m tr k ts m' tr' R H.
  exact (on_set_merge_thrown _ _ _ _ _ _ _ _ _ _ _ _ (multimap_reached_inv _ _ _ _ _ _ _ _ _ _ C1 C2 R) H).
Qed.
Print Assumptions C140_multimap_merge_throw.
(** The containers stay usable: a container in a state left by a call that threw is one that calls can reach, so the
    theorems above hold of it, and a loop over it is defined. *)
Theorem C140_usable :
  (forall (E T : Type) (ev : T -> T -> E) eq cap d s tr, (cap < size_mod)%N ->
     set_reached ev eq cap d s tr -> exists l, s_items s = Some l /\ (len l <= len (s_storage s))%N) /\
  (forall (E K V : Type) (ev : K -> K -> E) eq cap (d : K * V) m tr, (cap < size_mod)%N ->
     map_reached ev eq cap d m tr -> exists l, m_items m = Some l /\ (len l <= len (m_storage m))%N) /\
  (forall (E K V : Type) (kev : K -> K -> E) keq (vev : V -> V -> E) veq kcap vcap dk dv m tr,
     (kcap < size_mod)%N -> (vcap < size_mod)%N ->
     multimap_reached kev keq vev veq kcap vcap dk dv m tr -> exists l, mm_items m = Some l).
Proof.
  split; [|split].
  - intros E T ev eq cap d s tr C R. pose proof (set_reached_inv _ _ _ _ _ _ C R) as I.
    eexists. split; [exact (inv_s_items _ I)|]. unfold len. rewrite firstn_length. lia.
  - intros E K V ev eq cap d m tr C R. pose proof (map_reached_inv _ _ _ _ _ _ C R) as I.
    eexists. split; [exact (inv_m_items _ _ I)|]. unfold len. rewrite firstn_length. lia.
  - intros E K V kev keq vev veq kcap vcap dk dv m tr C1 C2 R.
    exact (inv_mm_items _ (multimap_reached_inv _ _ _ _ _ _ _ _ _ _ C1 C2 R)).
Qed.
Print Assumptions C140_usable.

(** A set of 1, 2, 3: looking for 2 compares 1 and 2; and a multimap whose == throws at the fourth call, in erase(1, 5):
    1 stays, without values. *)
Definition throws_at (n : nat) (f : N -> N -> bool) : list (bool * N * N) -> N -> N -> option bool :=
  fun tr x t => if Nat.eqb (length tr) n then None else Some (f x t).
Example C140_nonvacuous :
  (exists s, s_make 4 0%N [1; 2; 3]%N = Some s /\
   cs_step pair (answers N.eqb) (SContains 2%N) s [] = (Ret (SBool true), s, [(1, 2); (2, 2)]%N)) /\
  (exists m0 m1 tr1 m2 tr2,
   mm_init 2 2 0%N 0%N = Some m0 /\
   let eq := throws_at 3 N.eqb in
   cmm_step (fun x t => (true, x, t)) eq (fun x t => (false, x, t)) eq 2 0%N (MMInsert 1 5)%N m0 [] = (Ret MMUnit, m1, tr1) /\
   mm_items m1 = Some [(1, [5])]%N /\
   cmm_step (fun x t => (true, x, t)) eq (fun x t => (false, x, t)) eq 2 0%N (MMErase 1 5)%N m1 tr1 = (Thrown, m2, tr2) /\
   tr2 = [(true, 1, 1); (true, 1, 1); (false, 5, 5); (true, 1, 1)]%N /\
   mm_items m2 = Some [(1, [])]%N).
Proof.
  split.
  - eexists. split; reflexivity.
  - do 5 eexists. split; [reflexivity|]. cbv zeta. split; [reflexivity|]. split; [reflexivity|]. split; [reflexivity|].
    split; reflexivity.
Qed.
