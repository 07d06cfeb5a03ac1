(** What a user expects of cx_map: a finite map [m : K -> option V]. *)
From Verif Require Import Base CxMapModel.

Section Spec.
Context {K V : Type} (eqb : K -> K -> bool) (cap : N).

(** [l] lists the bindings of [m], each key once, in some order. *)
Definition entries (m : K -> option V) (l : list (K * V)) : Prop :=
  NoDup (map fst l) /\ forall k v, In (k, v) l <-> m k = Some v.
Definition count (m : K -> option V) (n : N) : Prop := exists l, entries m l /\ len l = n.

Definition upd (m : K -> option V) (k : K) (o : option V) : K -> option V :=
  fun x => if eqb x k then o else m x.
Definition present (m : K -> option V) (k : K) : bool :=
  match m k with Some _ => true | None => false end.

Definition map_pre (m : K -> option V) (op : m_op K V) : Prop :=
  match op with
  | MPut k _ => present m k = true \/ exists n, count m n /\ (n < cap)%N
  | MGet k | MGetAssign k _ => present m k = true
  | MPop => exists k, present m k = true
  | _ => True
  end.

Definition map_spec (m : K -> option V) (op : m_op K V) (o : m_out K V)
  (m' : K -> option V) : Prop :=
  match op with
  | MPut k v => o = MBool (negb (present m k)) /\ forall x, m' x = upd m k (Some v) x
  | MErase k => o = MNum (if present m k then 1 else 0) /\ forall x, m' x = upd m k None x
  | MGet k => (exists v, m k = Some v /\ o = MVal v) /\ forall x, m' x = m x
  | MGetAssign k v => o = MUnit /\ forall x, m' x = upd m k (Some v) x
  | MContains k => o = MBool (present m k) /\ forall x, m' x = m x
  | MPop => exists k v, m k = Some v /\ o = MEntry (k, v) /\ forall x, m' x = upd m k None x
  | MClear => o = MUnit /\ forall x, m' x = None
  | MSize => (exists n, count m n /\ o = MNum n) /\ forall x, m' x = m x
  | MEmpty => (exists b, o = MBool b /\ (b = true <-> forall x, m x = None)) /\
              forall x, m' x = m x
  | MFull => (exists n, count m n /\ o = MBool (n =? cap)%N) /\ forall x, m' x = m x
  | MItems => (exists l, o = MList l /\ entries m l) /\ forall x, m' x = m x
  end.
End Spec.
