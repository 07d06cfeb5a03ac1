(** Model of stdx::cx_set (include/stdx/cx_set.hpp). *)
From Verif Require Import Base.

Section CxSet.
Context {K : Type} (eqb : K -> K -> bool). (* the key type's == *)

(** cx_set.hpp:13-14. *)
Record cset := { s_storage : list K; s_size : N }.

(** cx_set.hpp:25-29 (constructor; [d] is Key{}). [None]: rejected at compile time. *)
Definition s_make (cap : N) (d : K) (ts : list K) : option cset :=
  if (len ts <=? cap)%N
  then Some {| s_storage := ts ++ repeat d (N.to_nat (cap - len ts)); s_size := len ts |}
  else None.

(** cx_set.hpp:31-50: what a range-for over [begin(), end()) visits. Iterating past the
    array is undefined. *)
Definition s_items (s : cset) : option (list K) :=
  if (s_size s <=? len (s_storage s))%N
  then Some (firstn (N.to_nat (s_size s)) (s_storage s)) else None.

(** The range-for loops that stop at the first match (:58-63, :82-87). *)
Fixpoint find_idx {A} (p : A -> bool) (l : list A) : option nat :=
  match l with
  | [] => None
  | x :: r => if p x then Some O else option_map S (find_idx p r)
  end.

(** cx_set.hpp:57-64. *)
Definition s_contains (s : cset) (k : K) : option bool :=
  match s_items s with
  | Some l => Some (match find_idx (fun x => eqb x k) l with Some _ => true | None => false end)
  | None => None
  end.

(** cx_set.hpp:66-79. *)
Definition s_insert (s : cset) (k : K) : option (cset * bool) :=
  match s_contains s k with
  | Some true => Some (s, false)
  | Some false =>
      match wr (s_storage s) (s_size s) k with
      | Some st => Some ({| s_storage := st; s_size := sz_inc (s_size s) |}, true)
      | None => None
      end
  | None => None
  end.

(** cx_set.hpp:81-89: [k = storage[--current_size]] at the first match. *)
Definition s_erase (s : cset) (k : K) : option (cset * N) :=
  match s_items s with
  | Some l =>
      match find_idx (fun x => eqb x k) l with
      | Some i =>
          let j := sz_dec (s_size s) in
          match rd (s_storage s) j with
          | Some y =>
              match wr (s_storage s) (N.of_nat i) y with
              | Some st => Some ({| s_storage := st; s_size := j |}, 1%N)
              | None => None
              end
          | None => None
          end
      | None => Some (s, 0%N)
      end
  | None => None
  end.

(** cx_set.hpp:91-95: [l] is what iterating the other container visits. *)
Fixpoint s_merge (s : cset) (l : list K) : option cset :=
  match l with
  | [] => Some s
  | x :: r => match s_insert s x with Some (s', _) => s_merge s' r | None => None end
  end.

(** cx_set.hpp:101 and :103-105. *)
Definition s_clear (s : cset) : cset := {| s_storage := s_storage s; s_size := 0 |}.
Definition s_pop_back (s : cset) : option (cset * K) :=
  let j := sz_dec (s_size s) in
  option_map (fun x => ({| s_storage := s_storage s; s_size := j |}, x)) (rd (s_storage s) j).

Inductive s_op :=
| SInsert (k : K) | SErase (k : K) | SMerge (l : list K) | SPop | SClear
| SContains (k : K) | SSize | SEmpty | SItems.
Inductive s_out := SUnit | SBool (b : bool) | SNum (n : N) | SKey (k : K) | SList (l : list K).

Definition s_step (s : cset) (op : s_op) : outcome unit cset s_out :=
  let ret r := match r with Some (s', o) => Done s' o [] | None => Undef end in
  match op with
  | SInsert k => ret (option_map (fun '(s', b) => (s', SBool b)) (s_insert s k))
  | SErase k => ret (option_map (fun '(s', n) => (s', SNum n)) (s_erase s k))
  | SMerge l => ret (option_map (fun s' => (s', SUnit)) (s_merge s l))
  | SPop => ret (option_map (fun '(s', k) => (s', SKey k)) (s_pop_back s))
  | SClear => Done (s_clear s) SUnit []
  | SContains k => ret (option_map (fun b => (s, SBool b)) (s_contains s k))
  | SSize => Done s (SNum (s_size s)) [] (* :52-54 *)
  | SEmpty => Done s (SBool (s_size s =? 0)%N) [] (* :97-99 *)
  | SItems => ret (option_map (fun l => (s, SList l)) (s_items s))
  end.
End CxSet.
Arguments cset : clear implicits.
Arguments s_op : clear implicits.
Arguments s_out : clear implicits.
