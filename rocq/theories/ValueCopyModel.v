(** Model of copying, assigning, moving and swapping the fixed-capacity containers.
    None of the five class templates declares a copy or move constructor, an assignment operator or a
    destructor (cx_vector.hpp:15-151, cx_queue.hpp:35-108, cx_set.hpp:12-118, cx_map.hpp:24-154,
    cx_multimap.hpp:12-139), so each has the implicit ones, which act member by member: the std::array
    element by element, the size and the indices as integers. *)
From Verif Require Import Base CxVectorModel CxQueueModel CxSetModel CxMapModel.

(** Several objects of one class in scope, named by their position. *)
Inductive p_op (Op : Type) :=
| At (i : nat) (op : Op)        (* a member function called on object i *)
| Copy (i : nat)                (* auto z = x; *)
| Assign (i j : nat)            (* x = y; *)
| Move (i : nat)                (* auto z = std::move(x); *)
| MoveAssign (i j : nat)        (* x = std::move(y); *)
| Swap (i j : nat).             (* std::swap(x, y); *)
Arguments At {Op}. Arguments Copy {Op}. Arguments Assign {Op}. Arguments Move {Op}.
Arguments MoveAssign {Op}. Arguments Swap {Op}.

Inductive p_out (O : Type) :=
| Out (o : O)                   (* what the member function gave *)
| NewObject (k : nat)           (* the new object's name *)
| NoOut.
Arguments Out {O}. Arguments NewObject {O}. Arguments NoOut {O}.

Section Pool.
Context {P S Op O : Type} (step : S -> Op -> outcome P S O) (left : S -> S).

(** [left s] is what moving from an object in state [s] leaves behind. Naming an object that is not
    there is no program ([Undef]); so, here, is moving an object into itself, which is up to the element
    type. std::swap is the three moves. *)
Definition p_step (ss : list S) (op : p_op Op) : outcome P (list S) (p_out O) :=
  match op with
  | At i op =>
      match nth_error ss i with
      | Some s =>
          match step s op with
          | Done s' o ps => Done (set_nth i s' ss) (Out o) ps
          | Stopped s' p => Stopped (set_nth i s' ss) p
          | Undef => Undef
          end
      | None => Undef
      end
  | Copy i =>
      match nth_error ss i with
      | Some s => Done (ss ++ [s]) (NewObject (length ss)) []
      | None => Undef
      end
  | Assign i j =>
      match nth_error ss i, nth_error ss j with
      | Some _, Some t => Done (set_nth i t ss) NoOut []
      | _, _ => Undef
      end
  | Move i =>
      match nth_error ss i with
      | Some s => Done (set_nth i (left s) ss ++ [s]) (NewObject (length ss)) []
      | None => Undef
      end
  | MoveAssign i j =>
      if Nat.eqb i j then Undef
      else
        match nth_error ss i, nth_error ss j with
        | Some _, Some t => Done (set_nth i t (set_nth j (left t) ss)) NoOut []
        | _, _ => Undef
        end
  | Swap i j =>
      match nth_error ss i, nth_error ss j with
      | Some s, Some t => Done (set_nth j s (set_nth i t ss)) NoOut []
      | _, _ => Undef
      end
  end.
End Pool.

(** cx_vector.hpp:16-17: the implicit move constructor moves every element of the array, used or not,
    and copies the size. [mv x] is what moving from [x] leaves. *)
Definition v_left {A} (mv : A -> A) (v : vector A) : vector A :=
  {| v_storage := map mv (v_storage v); v_size := v_size v |}.

(** cx_queue.hpp:36-39. *)
Definition q_left {A} (mv : A -> A) (q : queue A) : queue A :=
  {| q_storage := map mv (q_storage q); q_push := q_push q; q_pop := q_pop q; q_size := q_size q |}.

(** cx_set.hpp:13-14. *)
Definition s_left {K} (mv : K -> K) (s : cset K) : cset K :=
  {| s_storage := map mv (s_storage s); s_size := s_size s |}.

(** cx_map.hpp:15-20, 35-36: an entry is a plain pair of key and value, and both are moved. *)
Definition m_left {K V} (mvk : K -> K) (mvv : V -> V) (m : cmap K V) : cmap K V :=
  {| m_storage := map (fun e => (mvk (fst e), mvv (snd e))) (m_storage m); m_size := m_size m |}.

(** cx_multimap.hpp:13-19: a cx_map whose values are cx_sets. *)
Definition mm_left {K V} (mvk : K -> K) (mvv : V -> V) : cmap K (cset V) -> cmap K (cset V) :=
  m_left mvk (s_left mvv).
