(** cx_vector, cx_queue, cx_set, cx_map and cx_multimap called with references to their own elements: an
    argument taken by const reference is read from the container each time the code reads it. *)
From Verif Require Import Base CxVectorModel CxQueueModel CxSetModel CxMapModel CxMultimapModel.

(** An argument of type [A const &]: an object elsewhere, or the element at [place]. *)
Inductive arg (Place A : Type) := Elsewhere (x : A) | Element (place : Place).
Arguments Elsewhere {Place A}. Arguments Element {Place A}.
Definition read {Place A S} (at_ : S -> Place -> option A) (s : S) (a : arg Place A) : option A :=
  match a with Elsewhere x => Some x | Element p => at_ s p end.

(** cx_vector.hpp:130-133; [v[i] = value] through :103-106. *)
Definition v_at {A} (v : vector A) (i : N) : option A := rd (v_storage v) i.
Definition va_push {A} (v : vector A) (a : arg N A) : option (vector A) :=
  match read v_at v a with Some x => v_write v (v_size v) x (sz_inc (v_size v)) | None => None end.
Definition va_set {A} (v : vector A) (i : N) (a : arg N A) : option (vector A) :=
  match read v_at v a with Some x => v_write v i x (v_size v) | None => None end.

(** cx_queue.hpp:84-91: the indices and the size change before the argument is read. *)
Definition q_at {A} (q : queue A) (i : N) : option A := rd (q_storage q) i.
Definition qa_push {A} (cap : N) (q : queue A) (a : arg N A) : option (queue A) :=
  let i := sz_inc (q_push q) in
  let i := if (i =? cap)%N then 0%N else i in
  let q1 := {| q_storage := q_storage q; q_push := i; q_pop := q_pop q; q_size := sz_inc (q_size q) |} in
  match read q_at q1 a with
  | Some x => match wr (q_storage q1) (q_push q1) x with
              | Some st => Some {| q_storage := st; q_push := q_push q1; q_pop := q_pop q1; q_size := q_size q1 |}
              | None => None
              end
  | None => None
  end.

(** The search loops of cx_set (:58-63, :82-87) and cx_map (:86-90, :104-108, :114-119, :128-133): from
    position [i], [todo] positions; each round reads the element and the argument.  Outer [None]:
    undefined. *)
Fixpoint search {K} (eqb : K -> K -> bool) (element : N -> option K) (argument : option K) (todo : nat) (i : N) : option (option N) :=
  match todo with
  | O => Some None
  | S todo => match element i, argument with
              | Some x, Some k => if eqb x k then Some (Some i) else search eqb element argument todo (i + 1)
              | _, _ => None
              end
  end.

Section Set_.
Context {K : Type} (eqb : K -> K -> bool).
Definition s_at (s : cset K) (i : N) : option K := rd (s_storage s) i.
(** [here]: where the argument is looked up, which for a multimap is not the set alone. *)
Section Within.
Context {S Place : Type} (at_ : S -> Place -> option K) (get_set : S -> option (cset K)) (put_set : S -> cset K -> option S).
Definition sw_search (s : S) (a : arg Place K) : option (option N) :=
  match get_set s with Some c => search eqb (s_at c) (read at_ s a) (N.to_nat (s_size c)) 0 | None => None end.
(** cx_set.hpp:57-64 *)
Definition sw_contains (s : S) (a : arg Place K) : option bool :=
  match sw_search s a with Some (Some _) => Some true | Some None => Some false | None => None end.
(** cx_set.hpp:66-72: [storage[current_size++] = key], the size first. *)
Definition sw_insert (s : S) (a : arg Place K) : option (S * bool) :=
  match sw_contains s a with
  | Some true => Some (s, false)
  | Some false =>
      match get_set s with
      | Some c => match read at_ s a with
                  | Some k => match wr (s_storage c) (s_size c) k with
                              | Some st => match put_set s {| s_storage := st; s_size := sz_inc (s_size c) |} with
                                           | Some s' => Some (s', true) | None => None end
                              | None => None
                              end
                  | None => None
                  end
      | None => None
      end
  | None => None
  end.
(** cx_set.hpp:81-89 *)
Definition sw_erase (s : S) (a : arg Place K) : option (S * N) :=
  match sw_search s a with
  | Some (Some i) =>
      match get_set s with
      | Some c => let j := sz_dec (s_size c) in
                  match rd (s_storage c) j with
                  | Some y => match wr (s_storage c) i y with
                              | Some st => match put_set s {| s_storage := st; s_size := j |} with
                                           | Some s' => Some (s', 1%N) | None => None end
                              | None => None
                              end
                  | None => None
                  end
      | None => None
      end
  | Some None => Some (s, 0%N)
  | None => None
  end.
End Within.
Definition sa_contains := sw_contains s_at (@Some (cset K)).
Definition sa_insert := sw_insert s_at (@Some (cset K)) (fun _ c => Some c).
Definition sa_erase := sw_erase s_at (@Some (cset K)) (fun _ c => Some c).
End Set_.

Section Map_.
Context {K V : Type} (eqb : K -> K -> bool).
Definition m_key_at (m : cmap K V) (i : N) : option K := option_map fst (rd (m_storage m) i).
Definition m_value_at (m : cmap K V) (i : N) : option V := option_map snd (rd (m_storage m) i).
Definition ma_search (m : cmap K V) (a : arg N K) : option (option N) :=
  search eqb (m_key_at m) (read m_key_at m a) (N.to_nat (m_size m)) 0.
(** cx_map.hpp:103-110 *)
Definition ma_contains (m : cmap K V) (a : arg N K) : option bool :=
  match ma_search m a with Some (Some _) => Some true | Some None => Some false | None => None end.
(** cx_map.hpp:84-92: where the reference that get returns points. *)
Definition ma_get (m : cmap K V) (a : arg N K) : option N := match ma_search m a with Some (Some i) => Some i | _ => None end.
(** Assigning to the value at [i], keeping the key. *)
Definition m_assign_at (m : cmap K V) (i : N) (v : V) : option (cmap K V) :=
  match rd (m_storage m) i with
  | Some (k, _) => match wr (m_storage m) i (k, v) with Some st => Some {| m_storage := st; m_size := m_size m |} | None => None end
  | None => None
  end.
(** cx_map.hpp:112-122: [v = value], or [storage[current_size++] = {key, value}], the size first. *)
Definition ma_put (m : cmap K V) (a : arg N K) (b : arg N V) : option (cmap K V * bool) :=
  match ma_search m a with
  | Some (Some i) => match read m_value_at m b with
                     | Some v => match m_assign_at m i v with Some m' => Some (m', false) | None => None end
                     | None => None
                     end
  | Some None =>
      let m1 := {| m_storage := m_storage m; m_size := sz_inc (m_size m) |} in
      match read m_key_at m1 a, read m_value_at m1 b with
      | Some k, Some v => match wr (m_storage m1) (m_size m) (k, v) with
                          | Some st => Some ({| m_storage := st; m_size := m_size m1 |}, true)
                          | None => None
                          end
      | _, _ => None
      end
  | None => None
  end.
(** cx_map.hpp:127-135 *)
Definition ma_erase (m : cmap K V) (a : arg N K) : option (cmap K V * N) :=
  match ma_search m a with
  | Some (Some i) =>
      let j := sz_dec (m_size m) in
      match rd (m_storage m) j with
      | Some e => match wr (m_storage m) i e with Some st => Some ({| m_storage := st; m_size := j |}, 1%N) | None => None end
      | None => None
      end
  | Some None => Some (m, 0%N)
  | None => None
  end.
End Map_.

Section Multimap_.
Context {K V : Type} (keqb : K -> K -> bool) (veqb : V -> V -> bool) (vcap : N) (dv : V).
(** A value: element [j] of the set of entry [i]. *)
Definition mm_value_at (m : mmap (K := K) (V := V)) (p : N * N) : option V :=
  match rd (m_storage m) (fst p) with Some (_, s) => rd (s_storage s) (snd p) | None => None end.
Definition set_at_ (i : N) (m : mmap (K := K) (V := V)) : option (cset V) := option_map snd (rd (m_storage m) i).
(** cx_multimap.hpp:54-60 *)
Definition mma_insert (m : mmap (K := K) (V := V)) (a : arg N K) (b : arg (N * N) V) : option (mmap (K := K) (V := V)) :=
  match ma_contains keqb m a with
  | Some true =>
      match ma_get keqb m a with
      | Some i => match sw_insert veqb mm_value_at (set_at_ i) (fun m s => m_assign_at m i s) m b with Some (m', _) => Some m' | None => None end
      | None => None
      end
  | Some false =>
      match read mm_value_at m b with
      | Some v => match s_make vcap dv [v] with
                  | Some s => match ma_put keqb m a (Elsewhere s) with Some (m', _) => Some m' | None => None end
                  | None => None
                  end
      | None => None
      end
  | None => None
  end.
(** cx_multimap.hpp:73-83: the key is read again after the set has changed. *)
Definition mma_erase (m : mmap (K := K) (V := V)) (a : arg N K) (b : arg (N * N) V) : option (mmap (K := K) (V := V) * N) :=
  match ma_contains keqb m a with
  | Some true =>
      match ma_get keqb m a with
      | Some i =>
          match sw_erase veqb mm_value_at (set_at_ i) (fun m s => m_assign_at m i s) m b with
          | Some (m', r) =>
              match set_at_ i m' with
              | Some s' => if (s_size s' =? 0)%N
                           then match ma_erase keqb m' a with Some (m'', _) => Some (m'', r) | None => None end
                           else Some (m', r)
              | None => None
              end
          | None => None
          end
      | None => None
      end
  | Some false => Some (m, 0%N)
  | None => None
  end.
End Multimap_.
