(** What a user may expect of cx_set, cx_map and cx_multimap when nothing is assumed of the
    == of the keys: two keys may be equal without being the same (case-insensitive names,
    0.0 and -0.0), or a key may differ from itself (NaN). The contents are a list of the very
    objects stored. *)
From Coq Require Import Permutation.
From Verif Require Import Base CxSetModel CxMapModel CxMultimapModel.

(** No two of the elements are equal. *)
Fixpoint distinct {K} (eqb : K -> K -> bool) (l : list K) : Prop :=
  match l with
  | [] => True
  | x :: r => (forall y, In y r -> eqb x y = false /\ eqb y x = false) /\ distinct eqb r
  end.

Section SetSpec.
Context {K : Type} (eqb : K -> K -> bool) (cap : N).

(** Something equal to [k] is stored. *)
Definition has (l : list K) (k : K) : bool := existsb (fun x => eqb x k) l.
(** Adding the elements of [ks] in order, each unless something equal is there. *)
Fixpoint merged (l ks : list K) : list K :=
  match ks with
  | [] => l
  | k :: r => if has l k then merged l r else merged (l ++ [k]) r
  end.

Definition kset_pre (l : list K) (op : s_op K) : Prop :=
  match op with
  | SInsert k => has l k = true \/ (len l < cap)%N
  | SMerge ks => (len (merged l ks) <= cap)%N
  | SPop => l <> []
  | _ => True
  end.

Definition kset_spec (l : list K) (op : s_op K) (o : s_out K) (l' : list K) : Prop :=
  match op with
  | SInsert k => (* the element already there stays; the new one is dropped *)
      if has l k then o = SBool false /\ l' = l else o = SBool true /\ l' = l ++ [k]
  | SErase k =>
      if has l k
      then o = SNum 1 /\ exists l1 x l2, l = l1 ++ x :: l2 /\ eqb x k = true /\
             has l1 k = false /\ Permutation (l1 ++ l2) l'
      else o = SNum 0 /\ l' = l
  | SMerge ks => o = SUnit /\ l' = merged l ks
  | SPop => exists x, o = SKey x /\ l = l' ++ [x]
  | SClear => o = SUnit /\ l' = []
  | SContains k => o = SBool (has l k) /\ l' = l
  | SSize => o = SNum (len l) /\ l' = l
  | SEmpty => (exists b, o = SBool b /\ (b = true <-> l = [])) /\ l' = l
  | SItems => o = SList l /\ l' = l
  end.
End SetSpec.

Section MapSpec.
Context {K V : Type} (eqb : K -> K -> bool) (cap : N).

Definition has_entry (l : list (K * V)) (k : K) : bool := existsb (fun e => eqb (fst e) k) l.

Definition kmap_pre (l : list (K * V)) (op : m_op K V) : Prop :=
  match op with
  | MPut k _ => has_entry l k = true \/ (len l < cap)%N
  | MGet k | MGetAssign k _ => has_entry l k = true
  | MPop => l <> []
  | _ => True
  end.

(** [(k0, v)] is the first entry whose key equals [k]. *)
Definition first_entry (l : list (K * V)) (k : K) (l1 : list (K * V)) (k0 : K) (v : V)
  (l2 : list (K * V)) : Prop :=
  l = l1 ++ (k0, v) :: l2 /\ eqb k0 k = true /\ has_entry l1 k = false.
(** Its value becomes [v]; the key object of the entry stays the one that was first put. *)
Definition revalued (l l' : list (K * V)) (k : K) (v : V) : Prop :=
  exists l1 k0 v0 l2, first_entry l k l1 k0 v0 l2 /\ l' = l1 ++ (k0, v) :: l2.

Definition kmap_spec (l : list (K * V)) (op : m_op K V) (o : m_out K V) (l' : list (K * V))
  : Prop :=
  match op with
  | MPut k v =>
      if has_entry l k then o = MBool false /\ revalued l l' k v
      else o = MBool true /\ l' = l ++ [(k, v)]
  | MErase k =>
      if has_entry l k
      then o = MNum 1 /\ exists l1 k0 v0 l2, first_entry l k l1 k0 v0 l2 /\
             Permutation (l1 ++ l2) l'
      else o = MNum 0 /\ l' = l
  | MGet k => (exists l1 k0 v l2, first_entry l k l1 k0 v l2 /\ o = MVal v) /\ l' = l
  | MGetAssign k v => o = MUnit /\ revalued l l' k v
  | MContains k => o = MBool (has_entry l k) /\ l' = l
  | MPop => exists e, o = MEntry e /\ l = l' ++ [e]
  | MClear => o = MUnit /\ l' = []
  | MSize => o = MNum (len l) /\ l' = l
  | MEmpty => (exists b, o = MBool b /\ (b = true <-> l = [])) /\ l' = l
  | MFull => o = MBool (len l =? cap)%N /\ l' = l
  | MItems => o = MList l /\ l' = l
  end.
End MapSpec.

(** Multimap: entries of a key and the list of its values. *)
Section MultiSpec.
Context {K V : Type} (keqb : K -> K -> bool) (veqb : V -> V -> bool) (kcap vcap : N).

Definition kmm_pre (l : list (K * list V)) (op : mm_op K V) : Prop :=
  match op with
  | MMInsert k v =>
      if has_entry keqb l k
      then forall l1 k0 vs l2, first_entry keqb l k l1 k0 vs l2 ->
             has veqb vs v = true \/ (len vs < vcap)%N
      else (1 <= vcap)%N /\ (len l < kcap)%N
  | MMInsertKey k => has_entry keqb l k = true \/ (len l < kcap)%N
  | MMOnSet k op =>
      has_entry keqb l k = true /\
      forall l1 k0 vs l2, first_entry keqb l k l1 k0 vs l2 -> kset_pre veqb vcap vs op
  | _ => True
  end.

Definition kmm_spec (l : list (K * list V)) (op : mm_op K V) (o : mm_out K V)
  (l' : list (K * list V)) : Prop :=
  match op with
  | MMInsert k v =>
      o = MMUnit /\
      if has_entry keqb l k
      then exists l1 k0 vs l2, first_entry keqb l k l1 k0 vs l2 /\
             l' = l1 ++ (k0, if has veqb vs v then vs else vs ++ [v]) :: l2
      else l' = l ++ [(k, [v])]
  | MMInsertKey k =>
      o = MMUnit /\ l' = if has_entry keqb l k then l else l ++ [(k, [])]
  | MMErase k v =>
      if has_entry keqb l k
      then exists l1 k0 vs l2 vs', first_entry keqb l k l1 k0 vs l2 /\
             (if has veqb vs v
              then o = MMNum 1 /\ exists w1 x w2, vs = w1 ++ x :: w2 /\ veqb x v = true /\
                     has veqb w1 v = false /\ Permutation (w1 ++ w2) vs'
              else o = MMNum 0 /\ vs' = vs) /\
             (vs' <> [] -> l' = l1 ++ (k0, vs') :: l2) /\
             (vs' = [] -> Permutation (l1 ++ l2) l')
      else o = MMNum 0 /\ l' = l
  | MMEraseKey k =>
      if has_entry keqb l k
      then o = MMNum 1 /\ exists l1 k0 vs l2, first_entry keqb l k l1 k0 vs l2 /\
             Permutation (l1 ++ l2) l'
      else o = MMNum 0 /\ l' = l
  | MMContains k => o = MMBool (has_entry keqb l k) /\ l' = l
  | MMContains2 k v =>
      (if has_entry keqb l k
       then exists l1 k0 vs l2, first_entry keqb l k l1 k0 vs l2 /\ o = MMBool (has veqb vs v)
       else o = MMBool false) /\ l' = l
  | MMOnSet k op =>
      exists l1 k0 vs l2 so vs', first_entry keqb l k l1 k0 vs l2 /\ o = MMSet so /\
        kset_spec veqb vs op so vs' /\ l' = l1 ++ (k0, vs') :: l2
  | MMSize => o = MMNum (len l) /\ l' = l
  | MMEmpty => (exists b, o = MMBool b /\ (b = true <-> l = [])) /\ l' = l
  | MMClear => o = MMUnit /\ l' = []
  | MMItems => o = MMList l /\ l' = l
  end.
End MultiSpec.
