(** Model of stdx::cx_map (include/stdx/cx_map.hpp). *)
From Verif Require Import Base CxSetModel.

Section CxMap.
Context {K V : Type} (eqb : K -> K -> bool). (* the key type's == *)

(** cx_map.hpp:15-20 and :35-36; an entry {key, value} is a pair. *)
Record cmap := { m_storage : list (K * V); m_size : N }.

(** cx_map.hpp:39-43 (constructors; [d] is value_type{}). [None]: rejected at compile time. *)
Definition m_make (cap : N) (d : K * V) (es : list (K * V)) : option cmap :=
  if (len es <=? cap)%N
  then Some {| m_storage := es ++ repeat d (N.to_nat (cap - len es)); m_size := len es |}
  else None.

(** cx_map.hpp:45-64: the entries a range-for visits. *)
Definition m_items (m : cmap) : option (list (K * V)) :=
  if (m_size m <=? len (m_storage m))%N
  then Some (firstn (N.to_nat (m_size m)) (m_storage m)) else None.

(** The search loops [for (auto &[k, v] : *this) if (k == key)] (:86-90, :104-108,
    :114-119, :128-133): position of the first entry with the key. Outer [None]: UB. *)
Definition m_find (m : cmap) (key : K) : option (option nat) :=
  option_map (find_idx (fun e => eqb (fst e) key)) (m_items m).

(** cx_map.hpp:84-101; [unreachable()] when the key is absent is undefined. *)
Definition m_get (m : cmap) (key : K) : option V :=
  match m_find m key with
  | Some (Some i) => option_map snd (rd (m_storage m) (N.of_nat i))
  | _ => None
  end.

(** Assignment through the reference returned by the non-const get (:84-92). *)
Definition m_set_at (m : cmap) (i : nat) (v : V) : option cmap :=
  match rd (m_storage m) (N.of_nat i) with
  | Some (k, _) => option_map (fun st => {| m_storage := st; m_size := m_size m |})
                     (wr (m_storage m) (N.of_nat i) (k, v))
  | None => None
  end.
Definition m_get_assign (m : cmap) (key : K) (v : V) : option cmap :=
  match m_find m key with Some (Some i) => m_set_at m i v | _ => None end.

(** cx_map.hpp:103-110. *)
Definition m_contains (m : cmap) (key : K) : option bool :=
  option_map (fun r => match r with Some _ => true | None => false end) (m_find m key).

(** cx_map.hpp:112-125 (put forwards to insert_or_assign). *)
Definition m_put (m : cmap) (key : K) (v : V) : option (cmap * bool) :=
  match m_find m key with
  | Some (Some i) => option_map (fun m' => (m', false)) (m_set_at m i v)
  | Some None =>
      option_map (fun st => ({| m_storage := st; m_size := sz_inc (m_size m) |}, true))
        (wr (m_storage m) (m_size m) (key, v))
  | None => None
  end.

(** cx_map.hpp:127-135. *)
Definition m_erase (m : cmap) (key : K) : option (cmap * N) :=
  match m_find m key with
  | Some (Some i) =>
      let j := sz_dec (m_size m) in
      match rd (m_storage m) j with
      | Some e => option_map (fun st => ({| m_storage := st; m_size := j |}, 1%N))
                    (wr (m_storage m) (N.of_nat i) e)
      | None => None
      end
  | Some None => Some (m, 0%N)
  | None => None
  end.

(** cx_map.hpp:78 and :80-82. *)
Definition m_clear (m : cmap) : cmap := {| m_storage := m_storage m; m_size := 0 |}.
Definition m_pop_back (m : cmap) : option (cmap * (K * V)) :=
  let j := sz_dec (m_size m) in
  option_map (fun e => ({| m_storage := m_storage m; m_size := j |}, e)) (rd (m_storage m) j).

Inductive m_op :=
| MPut (k : K) (v : V) | MErase (k : K) | MGet (k : K) | MGetAssign (k : K) (v : V)
| MContains (k : K) | MPop | MClear | MSize | MEmpty | MFull | MItems.
Inductive m_out :=
  MUnit | MBool (b : bool) | MNum (n : N) | MVal (v : V) | MEntry (e : K * V)
| MList (l : list (K * V)).

Definition m_step (cap : N) (m : cmap) (op : m_op) : outcome unit cmap m_out :=
  let ret r := match r with Some (m', o) => Done m' o [] | None => Undef end in
  match op with
  | MPut k v => ret (option_map (fun '(m', b) => (m', MBool b)) (m_put m k v))
  | MErase k => ret (option_map (fun '(m', n) => (m', MNum n)) (m_erase m k))
  | MGet k => ret (option_map (fun v => (m, MVal v)) (m_get m k))
  | MGetAssign k v => ret (option_map (fun m' => (m', MUnit)) (m_get_assign m k v))
  | MContains k => ret (option_map (fun b => (m, MBool b)) (m_contains m k))
  | MPop => ret (option_map (fun '(m', e) => (m', MEntry e)) (m_pop_back m))
  | MClear => Done (m_clear m) MUnit []
  | MSize => Done m (MNum (m_size m)) [] (* :66-68 *)
  | MEmpty => Done m (MBool (m_size m =? 0)%N) [] (* :74-76 *)
  | MFull => Done m (MBool (m_size m =? cap)%N) [] (* :71-73 *)
  | MItems => ret (option_map (fun l => (m, MList l)) (m_items m))
  end.
End CxMap.
Arguments cmap : clear implicits.
Arguments m_op : clear implicits.
Arguments m_out : clear implicits.
