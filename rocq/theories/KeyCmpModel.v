(** The calls of cx_set, cx_map and cx_multimap again (CxSetModel, CxMapModel, CxMultimapModel), with every call of
    the == of a key or value type: which two objects it is given, and what happens if it throws. An == may answer
    anything, and differently each time: it is a function of the calls of == so far. *)
From Verif Require Import Base CxSetModel CxMapModel CxMultimapModel.

(** What a call ends with. *)
Inductive ending (A : Type) := Ret (a : A) | Thrown | Ub.
Arguments Ret {A}.
Arguments Thrown {A}.
Arguments Ub {A}.

Section Calls.
Context {E : Type}. (* a call of ==, with its operands *)

(** A call on an object: from its state and the calls of == so far to the same and the ending. *)
Definition call (S A : Type) := S -> list E -> ending A * S * list E.
Definition ret {S A} (a : A) : call S A := fun s tr => (Ret a, s, tr).
Definition bind {S A B} (m : call S A) (f : A -> call S B) : call S B := fun s tr =>
  match m s tr with
  | (Ret a, s', tr') => f a s' tr'
  | (Thrown, s', tr') => (Thrown, s', tr')
  | (Ub, s', tr') => (Ub, s', tr')
  end.
(** A part of a call that makes no comparisons. *)
Definition plainly {S A} (f : S -> option (S * A)) : call S A := fun s tr =>
  match f s with Some (s', a) => (Ret a, s', tr) | None => (Ub, s, tr) end.

(** The loops [for (auto &k : *this) if (k == key) ...] up to the first match, as in [find_idx]; [key x] is the
    left operand for the element [x]. *)
Section Scan.
Context {X T : Type} (ev : T -> T -> E) (eq : list E -> T -> T -> option bool) (key : X -> T).
Fixpoint scan (l : list X) (t : T) (tr : list E) : ending (option nat) * list E :=
  match l with
  | [] => (Ret None, tr)
  | x :: r =>
      let tr' := tr ++ [ev (key x) t] in
      match eq tr (key x) t with
      | None => (Thrown, tr')
      | Some true => (Ret (Some O), tr')
      | Some false =>
          match scan r t tr' with
          | (Ret (Some i), u) => (Ret (Some (S i)), u)
          | res => res
          end
      end
  end.
End Scan.

Section Set_.
Context {T : Type} (ev : T -> T -> E) (eq : list E -> T -> T -> option bool).

(** cx_set.hpp:58-62, :82-83. *)
Definition cs_find (t : T) : call (cset T) (option nat) := fun s tr =>
  match s_items s with
  | Some l => let '(r, u) := scan ev eq (fun x => x) l t tr in (r, s, u)
  | None => (Ub, s, tr)
  end.
Definition is_some {A} (o : option A) : bool := match o with Some _ => true | None => false end.
(** cx_set.hpp:57-64. *)
Definition cs_contains (t : T) : call (cset T) bool := bind (cs_find t) (fun o => ret (is_some o)).
(** cx_set.hpp:66-79. *)
Definition cs_insert (t : T) : call (cset T) bool :=
  bind (cs_contains t) (fun b =>
  if b then ret false
  else plainly (fun s => option_map (fun st => ({| s_storage := st; s_size := sz_inc (s_size s) |}, true))
                           (wr (s_storage s) (s_size s) t))).
(** cx_set.hpp:81-89. *)
Definition cs_erase (t : T) : call (cset T) N :=
  bind (cs_find t) (fun o =>
  match o with
  | None => ret 0%N
  | Some i => plainly (fun s =>
      let j := sz_dec (s_size s) in
      match rd (s_storage s) j with
      | Some y => option_map (fun st => ({| s_storage := st; s_size := j |}, 1%N)) (wr (s_storage s) (N.of_nat i) y)
      | None => None
      end)
  end).
(** cx_set.hpp:91-95. *)
Fixpoint cs_merge (l : list T) : call (cset T) unit :=
  match l with
  | [] => ret tt
  | x :: r => bind (cs_insert x) (fun _ => cs_merge r)
  end.

Definition cs_step (op : s_op T) : call (cset T) (s_out T) :=
  match op with
  | SInsert t => bind (cs_insert t) (fun b => ret (SBool b))
  | SErase t => bind (cs_erase t) (fun n => ret (SNum n))
  | SMerge l => bind (cs_merge l) (fun _ => ret SUnit)
  | SPop => plainly (fun s => option_map (fun '(s', k) => (s', SKey k)) (s_pop_back s))
  | SClear => plainly (fun s => Some (s_clear s, SUnit))
  | SContains t => bind (cs_contains t) (fun b => ret (SBool b))
  | SSize => plainly (fun s => Some (s, SNum (s_size s)))
  | SEmpty => plainly (fun s => Some (s, SBool (s_size s =? 0)%N))
  | SItems => plainly (fun s => option_map (fun l => (s, SList l)) (s_items s))
  end.
End Set_.

Section Map_.
Context {K V : Type} (ev : K -> K -> E) (eq : list E -> K -> K -> option bool).

(** cx_map.hpp:86-87, :95-96, :104-105, :114-115, :128-129. *)
Definition cm_find (k : K) : call (cmap K V) (option nat) := fun m tr =>
  match m_items m with
  | Some l => let '(r, u) := scan ev eq fst l k tr in (r, m, u)
  | None => (Ub, m, tr)
  end.
(** cx_map.hpp:84-101: the position of the reference it returns; unreachable() if there is none. *)
Definition cm_get (k : K) : call (cmap K V) nat :=
  bind (cm_find k) (fun o => match o with Some i => ret i | None => plainly (fun _ => None) end).
(** Reading and writing through that reference. *)
Definition cm_read (i : nat) : call (cmap K V) V :=
  plainly (fun m => option_map (fun e => (m, snd e)) (rd (m_storage m) (N.of_nat i))).
Definition cm_write (i : nat) (v : V) : call (cmap K V) unit :=
  plainly (fun m => option_map (fun m' => (m', tt)) (m_set_at m i v)).
(** cx_map.hpp:103-110. *)
Definition cm_contains (k : K) : call (cmap K V) bool := bind (cm_find k) (fun o => ret (is_some o)).
(** cx_map.hpp:112-125. *)
Definition cm_put (k : K) (v : V) : call (cmap K V) bool :=
  bind (cm_find k) (fun o =>
  match o with
  | Some i => bind (cm_write i v) (fun _ => ret false)
  | None => plainly (fun m => option_map (fun st => ({| m_storage := st; m_size := sz_inc (m_size m) |}, true))
                                (wr (m_storage m) (m_size m) (k, v)))
  end).
(** cx_map.hpp:127-135. *)
Definition cm_erase (k : K) : call (cmap K V) N :=
  bind (cm_find k) (fun o =>
  match o with
  | Some i => plainly (fun m =>
      let j := sz_dec (m_size m) in
      match rd (m_storage m) j with
      | Some e => option_map (fun st => ({| m_storage := st; m_size := j |}, 1%N)) (wr (m_storage m) (N.of_nat i) e)
      | None => None
      end)
  | None => ret 0%N
  end).

Definition cm_step (cap : N) (op : m_op K V) : call (cmap K V) (m_out K V) :=
  match op with
  | MPut k v => bind (cm_put k v) (fun b => ret (MBool b))
  | MErase k => bind (cm_erase k) (fun n => ret (MNum n))
  | MGet k => bind (cm_get k) (fun i => bind (cm_read i) (fun v => ret (MVal v)))
  | MGetAssign k v => bind (cm_get k) (fun i => bind (cm_write i v) (fun _ => ret MUnit))
  | MContains k => bind (cm_contains k) (fun b => ret (MBool b))
  | MPop => plainly (fun m => option_map (fun '(m', e) => (m', MEntry e)) (m_pop_back m))
  | MClear => plainly (fun m => Some (m_clear m, MUnit))
  | MSize => plainly (fun m => Some (m, MNum (m_size m)))
  | MEmpty => plainly (fun m => Some (m, MBool (m_size m =? 0)%N))
  | MFull => plainly (fun m => Some (m, MBool (m_size m =? cap)%N))
  | MItems => plainly (fun m => option_map (fun l => (m, MList l)) (m_items m))
  end.
End Map_.

Section Multimap_.
Context {K V : Type} (kev : K -> K -> E) (keq : list E -> K -> K -> option bool).
Context (vev : V -> V -> E) (veq : list E -> V -> V -> option bool) (vcap : N) (dv : V).
Notation mm := (cmap K (cset V)).

(** A call on the set that the reference at position [i] refers to. *)
Definition on_set {A} (i : nat) (c : call (cset V) A) : call mm A := fun m tr =>
  match rd (m_storage m) (N.of_nat i) with
  | Some (k, s) =>
      let '(r, s', tr') := c s tr in
      match wr (m_storage m) (N.of_nat i) (k, s') with
      | Some st => (r, {| m_storage := st; m_size := m_size m |}, tr')
      | None => (Ub, m, tr)
      end
  | None => (Ub, m, tr)
  end.
Definition make_set (vs : list V) : call mm (cset V) :=
  plainly (fun m => option_map (fun s => (m, s)) (s_make vcap dv vs)).

(** cx_multimap.hpp:54-60. *)
Definition cmm_insert (k : K) (v : V) : call mm unit :=
  bind (cm_contains kev keq k) (fun b =>
  if b then bind (cm_get kev keq k) (fun i => bind (on_set i (cs_insert vev veq v)) (fun _ => ret tt))
  else bind (make_set [v]) (fun s => bind (cm_put kev keq k s) (fun _ => ret tt))).
(** cx_multimap.hpp:61-65. *)
Definition cmm_insert_key (k : K) : call mm unit :=
  bind (cm_contains kev keq k) (fun b =>
  if b then ret tt else bind (make_set []) (fun s => bind (cm_put kev keq k s) (fun _ => ret tt))).
(** cx_multimap.hpp:73-83. *)
Definition cmm_erase (k : K) (v : V) : call mm N :=
  bind (cm_contains kev keq k) (fun b =>
  if b then
    bind (cm_get kev keq k) (fun i =>
    bind (on_set i (cs_erase vev veq v)) (fun r =>
    bind (cm_read i) (fun s =>
    if (s_size s =? 0)%N then bind (cm_erase kev keq k) (fun _ => ret r) else ret r)))
  else ret 0%N).
(** cx_multimap.hpp:101-104. *)
Definition cmm_contains2 (k : K) (v : V) : call mm bool :=
  bind (cm_contains kev keq k) (fun b =>
  if b then bind (cm_get kev keq k) (fun i => on_set i (cs_contains vev veq v)) else ret false).

Definition cmm_step (op : mm_op K V) : call mm (mm_out K V) :=
  match op with
  | MMInsert k v => bind (cmm_insert k v) (fun _ => ret MMUnit)
  | MMInsertKey k => bind (cmm_insert_key k) (fun _ => ret MMUnit)
  | MMErase k v => bind (cmm_erase k v) (fun n => ret (MMNum n))
  | MMEraseKey k => bind (cm_erase kev keq k) (fun n => ret (MMNum n))
  | MMContains k => bind (cm_contains kev keq k) (fun b => ret (MMBool b))
  | MMContains2 k v => bind (cmm_contains2 k v) (fun b => ret (MMBool b))
  | MMOnSet k sop => bind (cm_get kev keq k) (fun i => bind (on_set i (cs_step vev veq sop)) (fun o => ret (MMSet o)))
  | MMSize => plainly (fun m => Some (m, MMNum (m_size m)))
  | MMEmpty => plainly (fun m => Some (m, MMBool (m_size m =? 0)%N))
  | MMClear => plainly (fun m => Some (m_clear m, MMUnit))
  | MMItems => plainly (fun m => option_map (fun l => (m, MMList l)) (mm_items m))
  end.
End Multimap_.
End Calls.
Arguments call : clear implicits.
