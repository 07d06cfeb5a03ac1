(** References into a cx_multimap (include/stdx/cx_multimap.hpp), on top of the models of
    cx_map, cx_set and of references into them: the sets live in the slots of the map's array
    and the values in the slots of each set's array. *)
From Verif Require Import Base CxSetModel CxMapModel CxMultimapModel RefModel.

Section RefMulti.
Context {K V : Type} (keqb : K -> K -> bool) (veqb : V -> V -> bool).
(** get(k) (cx_multimap.hpp:85-92): the slot of the set. *)
Definition mm_ref (m : @mmap K V) (k : K) : option N := m_ref keqb m k.
(** An iterator of get(k) standing at the value v: the slot of the set and the one in it. *)
Definition mm_vref (m : @mmap K V) (k : K) (v : V) : option (N * N) :=
  match mm_ref m k with
  | Some r => match m_read m r with
              | Some s => option_map (pair r) (s_ref veqb s v)
              | None => None
              end
  | None => None
  end.
(** What is in that slot now. *)
Definition mm_vread (m : @mmap K V) (r : N * N) : option V :=
  match m_read m (fst r) with Some s => rd (s_storage s) (snd r) | None => None end.
End RefMulti.
