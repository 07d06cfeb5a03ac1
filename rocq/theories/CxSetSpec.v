(** What a user expects of cx_set: a mathematical set [m : K -> bool]. *)
From Verif Require Import Base CxSetModel.

Section Spec.
Context {K : Type} (eqb : K -> K -> bool) (cap : N).

(** [l] lists the members of [m], each once, in some order. *)
Definition enumerates (m : K -> bool) (l : list K) : Prop :=
  NoDup l /\ forall k, In k l <-> m k = true.
Definition card (m : K -> bool) (n : N) : Prop := exists l, enumerates m l /\ len l = n.

Definition in_list (l : list K) (k : K) : bool := existsb (eqb k) l.

(** Preconditions: the result must fit the capacity; pop_back needs an element. *)
Definition set_pre (m : K -> bool) (op : s_op K) : Prop :=
  match op with
  | SInsert k => m k = true \/ exists n, card m n /\ (n < cap)%N
  | SMerge l => exists n, card (fun k => m k || in_list l k) n /\ (n <= cap)%N
  | SPop => exists k, m k = true
  | _ => True
  end.

Definition set_spec (m : K -> bool) (op : s_op K) (o : s_out K) (m' : K -> bool) : Prop :=
  match op with
  | SInsert k => o = SBool (negb (m k)) /\ forall x, m' x = m x || eqb x k
  | SErase k => o = SNum (if m k then 1 else 0) /\ forall x, m' x = m x && negb (eqb x k)
  | SMerge l => o = SUnit /\ forall x, m' x = m x || in_list l x
  | SPop => exists k, m k = true /\ o = SKey k /\ forall x, m' x = m x && negb (eqb x k)
  | SClear => o = SUnit /\ forall x, m' x = false
  | SContains k => o = SBool (m k) /\ forall x, m' x = m x
  | SSize => (exists n, card m n /\ o = SNum n) /\ forall x, m' x = m x
  | SEmpty => (exists b, o = SBool b /\ (b = true <-> forall x, m x = false)) /\
              forall x, m' x = m x
  | SItems => (exists l, o = SList l /\ enumerates m l) /\ forall x, m' x = m x
  end.
End Spec.
