(** What is left of a container when an operation of the element type throws in the middle of
    a call: include/stdx/cx_vector.hpp, cx_queue.hpp, cx_set.hpp, cx_map.hpp, on top of the
    models of those containers.

    An assignment that throws leaves its target with any value of its type: [left_with old j] is
    [old] for [j = None] (an assignment that undoes what it did), or the given one.  In every
    call the counters change before the element operation runs. *)
From Verif Require Import Base CxVectorModel CxQueueModel CxSetModel CxMapModel.

Definition left_with {A} (old : A) (j : option A) : A := match j with Some x => x | None => old end.
(** [storage[i] = ...] that throws. *)
Definition bad_wr {A} (st : list A) (i : N) (j : option A) : option (list A) :=
  match rd st i with Some old => wr st i (left_with old j) | None => None end.
(** A call that returns or one that throws. *)
Inductive attempt (Op Th : Type) := Call (o : Op) | Throws (t : Th).
Arguments Call {Op Th}. Arguments Throws {Op Th}.
(** One step of a history with both; the output of a throwing call is [None]. *)
Definition either {P S Op Th O} (step : S -> Op -> outcome P S O) (bad : S -> Th -> option S)
  (s : S) (a : attempt Op Th) : outcome P S (option O) :=
  match a with
  | Call op => match step s op with
               | Done s' o ps => Done s' (Some o) ps | Stopped s' p => Stopped s' p | Undef => Undef end
  | Throws t => match bad s t with Some s' => Done s' None [] | None => Undef end
  end.

Section Vector.
Context {A : Type}.
(** push_back (cx_vector.hpp:130-136): the assignment [storage[current_size++] = value] throws.
    pop_back (:138-140): the copy of [storage[--current_size]] throws. *)
Inductive v_throw := VTPush (j : option A) | VTPop.
Definition v_bad (v : vector A) (t : v_throw) : option (vector A) :=
  match t with
  | VTPush j => option_map (fun st => {| v_storage := st; v_size := sz_inc (v_size v) |})
                  (bad_wr (v_storage v) (v_size v) j)
  | VTPop => option_map (fun _ => {| v_storage := v_storage v; v_size := sz_dec (v_size v) |})
               (rd (v_storage v) (sz_dec (v_size v)))
  end.
End Vector.
Arguments v_throw : clear implicits.

Section Queue.
Context {A : Type}.
(** push (cx_queue.hpp:84-99): [storage[push_index] = value] throws, after the indices moved.
    pop (:101-109): [auto entry = std::move(storage[pop_index++])] throws, before the test for
    the end of the storage and before [--current_size]; [j] is what the element is left with. *)
Inductive q_throw := QTPush (j : option A) | QTPop (j : option A).
Definition q_bad (cap : N) (q : queue A) (t : q_throw) : option (queue A) :=
  match t with
  | QTPush j =>
      let i := sz_inc (q_push q) in
      let i := if (i =? cap)%N then 0%N else i in
      option_map (fun st => {| q_storage := st; q_push := i; q_pop := q_pop q; q_size := sz_inc (q_size q) |})
        (bad_wr (q_storage q) i j)
  | QTPop j =>
      option_map (fun st => {| q_storage := st; q_push := q_push q; q_pop := sz_inc (q_pop q); q_size := q_size q |})
        (bad_wr (q_storage q) (q_pop q) j)
  end.
End Queue.
Arguments q_throw : clear implicits.

Section Set_.
Context {K : Type} (eqb : K -> K -> bool).
(** insert (cx_set.hpp:66-79) of a key not yet there, erase (:81-89) of one that is there, and
    pop_back (:103-105).  merge (:91-95) that throws is a merge of the keys before, then an
    insert that throws. *)
Inductive s_throw := STInsert (k : K) (j : option K) | STErase (k : K) (j : option K) | STPop.
Definition s_bad (s : cset K) (t : s_throw) : option (cset K) :=
  match t with
  | STInsert k j =>
      match s_contains eqb s k with
      | Some false => option_map (fun st => {| s_storage := st; s_size := sz_inc (s_size s) |})
                        (bad_wr (s_storage s) (s_size s) j)
      | _ => None
      end
  | STErase k j =>
      match s_items s with
      | Some l =>
          match find_idx (fun x => eqb x k) l, rd (s_storage s) (sz_dec (s_size s)) with
          | Some i, Some _ => option_map (fun st => {| s_storage := st; s_size := sz_dec (s_size s) |})
                                (bad_wr (s_storage s) (N.of_nat i) j)
          | _, _ => None
          end
      | None => None
      end
  | STPop => option_map (fun _ => {| s_storage := s_storage s; s_size := sz_dec (s_size s) |})
               (rd (s_storage s) (sz_dec (s_size s)))
  end.
End Set_.
Arguments s_throw : clear implicits.

Section Map.
Context {K V : Type} (eqb : K -> K -> bool).
(** Entries are assigned member by member (cx_map.hpp:15-20): the key first, then the value.
    [InKey j]: the key's assignment throws; [InValue j]: the value's does, the key is new. *)
Inductive member := InKey (j : option K) | InValue (j : option V).
Definition half (old new : K * V) (x : member) : K * V :=
  match x with InKey j => (left_with (fst old) j, snd old) | InValue j => (fst new, left_with (snd old) j) end.
(** insert_or_assign (:112-125) of a key that is there ([MTAssign]) or not ([MTAdd]), erase
    (:127-135), pop_back (:80-82).  Simplified: an exception from building the temporary
    [{key, value}] (:120) comes before the counter changes and leaves the map as it was. *)
Inductive m_throw :=
| MTAssign (k : K) (j : option V) | MTAdd (k : K) (v : V) (x : member) | MTErase (k : K) (x : member) | MTPop.
Definition m_bad (m : cmap K V) (t : m_throw) : option (cmap K V) :=
  match t with
  | MTAssign k j =>
      match m_find eqb m k with
      | Some (Some i) => match rd (m_storage m) (N.of_nat i) with
                         | Some e => m_set_at m i (left_with (snd e) j) | None => None end
      | _ => None
      end
  | MTAdd k v x =>
      match m_find eqb m k, rd (m_storage m) (m_size m) with
      | Some None, Some old => option_map (fun st => {| m_storage := st; m_size := sz_inc (m_size m) |})
                                 (wr (m_storage m) (m_size m) (half old (k, v) x))
      | _, _ => None
      end
  | MTErase k x =>
      let j := sz_dec (m_size m) in
      match m_find eqb m k, rd (m_storage m) j with
      | Some (Some i), Some last =>
          match rd (m_storage m) (N.of_nat i) with
          | Some old => option_map (fun st => {| m_storage := st; m_size := j |})
                          (wr (m_storage m) (N.of_nat i) (half old last x))
          | None => None
          end
      | _, _ => None
      end
  | MTPop => option_map (fun _ => {| m_storage := m_storage m; m_size := sz_dec (m_size m) |})
               (rd (m_storage m) (sz_dec (m_size m)))
  end.
End Map.
Arguments member : clear implicits. Arguments m_throw : clear implicits.
