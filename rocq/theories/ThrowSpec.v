(** Containers whose element operations throw: the guarantees, in terms of what the container
    holds. *)
From Coq Require Import Permutation.
From Verif Require Import Base CxVectorModel CxVectorSpec CxQueueModel CxQueueSpec CxSetModel CxMapModel ThrowModel.

(** The value left behind by an assignment that throws: the one given, or any. *)
Definition any_left {A} (j : option A) (x : A) : Prop := forall y, j = Some y -> x = y.

(** cx_vector: the list, with one half-assigned element more after a push_back that throws and
    without the last one after a pop_back that throws. *)
Definition vt_pre {A} (cap : N) (l : list A) (a : attempt (v_op A) (v_throw A)) : Prop :=
  match a with
  | Call op => vlist_step cap l op <> None
  | Throws (VTPush _) => (len l < cap)%N
  | Throws VTPop => l <> []
  end.
Definition vt_spec {A} (cap : N) (l : list A) (a : attempt (v_op A) (v_throw A)) (o : option (v_out A)) (l' : list A) : Prop :=
  match a with
  | Call op => exists o', vlist_step cap l op = Some (l', o') /\ o = Some o'
  | Throws (VTPush j) => o = None /\ exists x, any_left j x /\ l' = l ++ [x]
  | Throws VTPop => o = None /\ l' = removelast l
  end.

(** cx_queue, where the moves of pop do not throw. *)
Definition qt_pre {A} (cap : N) (l : list A) (a : attempt (q_op A) (q_throw A)) : Prop :=
  match a with
  | Call op => fifo_step cap l op <> None
  | Throws (QTPush _) => (len l < cap)%N
  | Throws (QTPop _) => False
  end.
Definition qt_spec {A} (cap : N) (l : list A) (a : attempt (q_op A) (q_throw A)) (o : option (q_out A)) (l' : list A) : Prop :=
  match a with
  | Call op => exists o', fifo_step cap l op = Some (l', o') /\ o = Some o'
  | Throws (QTPush j) => o = None /\ exists x, any_left j x /\ l' = l ++ [x]
  | Throws (QTPop _) => False
  end.

(** cx_set: all that is left of it is a list, in which a key may occur more than once. *)
Section Bag.
Context {K : Type} (cap : N).
(** [merged l xs l']: adding to [l] in turn those keys of [xs] that are not there yet. *)
Inductive merged : list K -> list K -> list K -> Prop :=
| merged_nil l : merged l [] l
| merged_old l x xs l' : In x l -> merged l xs l' -> merged l (x :: xs) l'
| merged_new l x xs l' : ~ In x l -> (len l < cap)%N -> merged (l ++ [x]) xs l' -> merged l (x :: xs) l'.
Definition bag_pre (l : list K) (a : attempt (s_op K) (s_throw K)) : Prop :=
  match a with
  | Call (SInsert k) => In k l \/ (len l < cap)%N
  | Call (SMerge xs) => exists l', merged l xs l'
  | Call SPop | Throws STPop => l <> []
  | Throws (STInsert k _) => ~ In k l /\ (len l < cap)%N
  | Throws (STErase k _) => In k l
  | _ => True
  end.
Definition bag_spec (l : list K) (a : attempt (s_op K) (s_throw K)) (o : option (s_out K)) (l' : list K) : Prop :=
  match a with
  | Call (SInsert k) => (In k l /\ o = Some (SBool false) /\ l' = l) \/ (~ In k l /\ o = Some (SBool true) /\ l' = l ++ [k])
  | Call (SErase k) => (In k l /\ o = Some (SNum 1) /\ Permutation (k :: l') l) \/ (~ In k l /\ o = Some (SNum 0) /\ l' = l)
  | Call (SMerge xs) => o = Some SUnit /\ merged l xs l'
  | Call SPop => exists k, l = l' ++ [k] /\ o = Some (SKey k)
  | Call SClear => o = Some SUnit /\ l' = []
  | Call (SContains k) => l' = l /\ exists b, o = Some (SBool b) /\ (b = true <-> In k l)
  | Call SSize => l' = l /\ o = Some (SNum (len l))
  | Call SEmpty => l' = l /\ exists b, o = Some (SBool b) /\ (b = true <-> l = [])
  | Call SItems => l' = l /\ o = Some (SList l)
  | Throws (STInsert _ j) => o = None /\ exists x, any_left j x /\ l' = l ++ [x]
  | Throws (STErase k j) => o = None /\ exists l1 l2, l = l1 ++ k :: l2 /\ ~ In k l1 /\ l' = removelast (l1 ++ left_with k j :: l2)
  | Throws STPop => o = None /\ l' = removelast l
  end.
End Bag.

(** cx_map: a list of entries, in which a key may occur more than once; get and the others
    find the first. *)
Section Entries.
Context {K V : Type} (cap : N).
Definition first_at (k : K) (v : V) (l1 l2 l : list (K * V)) : Prop :=
  l = l1 ++ (k, v) :: l2 /\ ~ In k (map fst l1).
Definition has (k : K) (l : list (K * V)) : Prop := In k (map fst l).
Definition ent_pre (l : list (K * V)) (a : attempt (m_op K V) (m_throw K V)) : Prop :=
  match a with
  | Call (MPut k _) => has k l \/ (len l < cap)%N
  | Call (MGet k) | Call (MGetAssign k _) | Throws (MTAssign k _) | Throws (MTErase k _) => has k l
  | Throws (MTAdd k _ _) => ~ has k l /\ (len l < cap)%N
  | Call MPop | Throws MTPop => l <> []
  | _ => True
  end.
Definition ent_spec (l : list (K * V)) (a : attempt (m_op K V) (m_throw K V)) (o : option (m_out K V)) (l' : list (K * V)) : Prop :=
  match a with
  | Call (MPut k v) =>
      (exists w l1 l2, first_at k w l1 l2 l /\ o = Some (MBool false) /\ l' = l1 ++ (k, v) :: l2)
      \/ (~ has k l /\ o = Some (MBool true) /\ l' = l ++ [(k, v)])
  | Call (MErase k) =>
      (exists w l1 l2, first_at k w l1 l2 l /\ o = Some (MNum 1) /\ Permutation ((k, w) :: l') l)
      \/ (~ has k l /\ o = Some (MNum 0) /\ l' = l)
  | Call (MGet k) => l' = l /\ exists w l1 l2, first_at k w l1 l2 l /\ o = Some (MVal w)
  | Call (MGetAssign k v) => exists w l1 l2, first_at k w l1 l2 l /\ o = Some MUnit /\ l' = l1 ++ (k, v) :: l2
  | Call (MContains k) => l' = l /\ exists b, o = Some (MBool b) /\ (b = true <-> has k l)
  | Call MPop => exists e, l = l' ++ [e] /\ o = Some (MEntry e)
  | Call MClear => o = Some MUnit /\ l' = []
  | Call MSize => l' = l /\ o = Some (MNum (len l))
  | Call MEmpty => l' = l /\ exists b, o = Some (MBool b) /\ (b = true <-> l = [])
  | Call MFull => l' = l /\ o = Some (MBool (len l =? cap)%N)
  | Call MItems => l' = l /\ o = Some (MList l)
  | Throws (MTAssign k j) => o = None /\ exists w l1 l2, first_at k w l1 l2 l /\ l' = l1 ++ (k, left_with w j) :: l2
  | Throws (MTAdd k v x) => o = None /\ exists old, l' = l ++ [half old (k, v) x]
  | Throws (MTErase k x) => o = None /\ exists w l1 l2 last, first_at k w l1 l2 l /\
      (exists r, l = r ++ [last]) /\ l' = removelast (l1 ++ half (k, w) last x :: l2)
  | Throws MTPop => o = None /\ l' = removelast l
  end.
End Entries.
