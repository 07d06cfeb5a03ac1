(** What a user expects of several containers in scope: each is a value of its own. *)
From Verif Require Import Base CxSetModel CxMapModel CxMultimapModel ValueCopyModel.

Section Spec.
Context {M Op O : Type} (pre : M -> Op -> Prop) (spec : M -> Op -> O -> M -> Prop).

(** What is known of a container after it was moved from: [None] if nothing. *)
Variable rest : M -> option M.
(** The calls that make sense on a container of which nothing is known, what they give and what it then
    holds: clear(). *)
Variable restart : Op -> O -> M -> Prop.

(** A container in scope: its value, or [None] when it was moved from and holds something nobody knows. *)
Definition moved (x : option M) : option M := match x with Some m => rest m | None => None end.

Definition there (ms : list (option M)) (i : nat) : Prop := nth_error ms i <> None.

(** Any container can be copied, assigned to and swapped; a member function is called on one whose value
    is known, when that value allows it; what was moved from can be cleared. *)
Definition values_pre (ms : list (option M)) (op : p_op Op) : Prop :=
  match op with
  | At i op =>
      exists x, nth_error ms i = Some x /\
      match x with Some m => pre m op | None => exists r m', restart op r m' end
  | Copy i | Move i => there ms i
  | Assign i j | Swap i j => there ms i /\ there ms j
  | MoveAssign i j => there ms i /\ there ms j /\ i <> j
  end.

(** The values afterwards, container by container: what is not named does not change. *)
Definition values_spec (ms : list (option M)) (op : p_op Op) (o : p_out O) (ms' : list (option M)) : Prop :=
  let n := length ms in
  match op with
  | At i op =>
      exists x r m', nth_error ms i = Some x /\
      match x with Some m => spec m op r m' | None => restart op r m' end /\ o = Out r /\
      forall k, nth_error ms' k = if Nat.eqb k i then Some (Some m') else nth_error ms k
  | Copy i =>
      o = NewObject n /\
      forall k, nth_error ms' k = if Nat.eqb k n then nth_error ms i else nth_error ms k
  | Assign i j =>
      o = NoOut /\
      forall k, nth_error ms' k = if Nat.eqb k i then nth_error ms j else nth_error ms k
  | Move i =>
      o = NewObject n /\
      forall k, nth_error ms' k =
        if Nat.eqb k n then nth_error ms i
        else if Nat.eqb k i then option_map moved (nth_error ms i) else nth_error ms k
  | MoveAssign i j =>
      o = NoOut /\
      forall k, nth_error ms' k =
        if Nat.eqb k i then nth_error ms j
        else if Nat.eqb k j then option_map moved (nth_error ms j) else nth_error ms k
  | Swap i j =>
      o = NoOut /\
      forall k, nth_error ms' k =
        if Nat.eqb k i then nth_error ms j
        else if Nat.eqb k j then nth_error ms i else nth_error ms k
  end.
End Spec.

(** A specification given as a function: the operation is allowed when it has a result. *)
Definition fn_pre {M Op O} (f : M -> Op -> option (M * O)) (m : M) (op : Op) : Prop := f m op <> None.
Definition fn_spec {M Op O} (f : M -> Op -> option (M * O)) (m : M) (op : Op) (o : O) (m' : M) : Prop :=
  f m op = Some (m', o).
(** ... and no call is needed to know the value again. *)
Definition fn_restart {M Op O} (f : M -> Op -> option (M * O)) (op : Op) (o : O) (m : M) : Prop := False.

(** clear() leaves nothing, whatever there was. *)
Definition set_restart {K} (op : s_op K) (o : s_out K) (m : K -> bool) : Prop :=
  op = SClear /\ o = SUnit /\ forall k, m k = false.
Definition map_restart {K V} (op : m_op K V) (o : m_out K V) (m : K -> option V) : Prop :=
  op = MClear /\ o = MUnit /\ forall k, m k = None.
Definition mm_restart {K V} (op : mm_op K V) (o : mm_out K V) (m : K -> option (V -> bool)) : Prop :=
  op = MMClear /\ o = MMUnit /\ forall k, m k = None.
