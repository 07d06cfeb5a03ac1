(** Model of the references and iterators the containers hand out: the containers keep their
    elements in a std::array member, so a reference is the index of a slot of that array. It
    designates whatever the slot holds when it is used. On top of the models of cx_queue,
    cx_map, cx_set and cx_vector. *)
From Verif Require Import Base CxQueueModel CxVectorModel CxSetModel CxMapModel.

(** ** cx_queue *)
Section Queue.
Context {A : Type}.
(** front() returns storage[pop_index] (cx_queue.hpp:65-73), back() returns
    storage[push_index] (:74-82), push returns the slot it assigned, storage[push_index]
    (:90, :98). *)
Definition q_front_ref (q : queue A) : N := q_pop q.
Definition q_back_ref (q : queue A) : N := q_push q.
Definition q_push_ref (cap : N) (q : queue A) (v : A) : option N :=
  option_map snd (push_body cap q v).
(** Reading and assigning through the reference. *)
Definition q_read (q : queue A) (r : N) : option A := rd (q_storage q) r.
Definition q_assign (q : queue A) (r : N) (v : A) : option (queue A) :=
  option_map fst (set_at q r v).
End Queue.

(** ** cx_map *)
Section Map.
Context {K V : Type} (eqb : K -> K -> bool).
(** get(key) (cx_map.hpp:84-101): the first slot with the key. *)
Definition m_ref (m : cmap K V) (k : K) : option N :=
  match m_find eqb m k with Some (Some i) => Some (N.of_nat i) | _ => None end.
Definition m_read (m : cmap K V) (r : N) : option V := option_map snd (rd (m_storage m) r).
Definition m_assign (m : cmap K V) (r : N) (v : V) : option (cmap K V) := m_set_at m (N.to_nat r) v.
End Map.

(** ** cx_set: an iterator to a key (begin() + i, cx_set.hpp:31-50) *)
Section Set_.
Context {K : Type} (eqb : K -> K -> bool).
Definition s_ref (s : cset K) (k : K) : option N :=
  match s_items s with
  | Some l => option_map N.of_nat (find_idx (fun x => eqb x k) l)
  | None => None
  end.
End Set_.

(** ** cx_vector: operator[], front() and back() (cx_vector.hpp:84-110), push_back's result
    (:130-136) *)
Section Vector.
Context {A : Type}.
Definition v_index_ref (v : vector A) (i : N) : option N :=
  if (i <? len (v_storage v))%N then Some i else None.
Definition v_back_ref (v : vector A) : option N := v_index_ref v (sz_dec (v_size v)).
Definition v_read (v : vector A) (r : N) : option A := rd (v_storage v) r.
Definition v_assign (v : vector A) (r : N) (x : A) : option (vector A) := v_write v r x (v_size v).
End Vector.
