(** What is left of a cx_multimap (include/stdx/cx_multimap.hpp) when a copy, move or assignment
    of a key or value throws in the middle of a call; on top of the models of the containers and
    of exceptions in cx_set and cx_map. *)
From Verif Require Import Base CxSetModel CxMapModel CxMultimapModel ThrowModel.

Section ThrowMulti.
Context {K V : Type} (keqb : K -> K -> bool) (veqb : V -> V -> bool) (vcap : N) (dv : V).
Notation mmap := (cmap K (cset V)).

(** A cx_set is assigned member by member (cx_set.hpp:13-14): the elements of the array in turn,
    then the size.  [set_part old new n j]: the assignment of element [n] throws. *)
Definition set_part (old new : cset V) (n : nat) (j : option V) : cset V :=
  {| s_storage := firstn n (s_storage new) ++
       match skipn n (s_storage old) with x :: t => left_with x j :: t | [] => [] end;
     s_size := s_size old |}.
(** Where the assignment of an entry (cx_map.hpp:15-20) throws: in the key, or in element [n] of
    the set. *)
Inductive place := AtKey (j : option K) | AtValue (n : nat) (j : option V).
Definition member_at (old new : K * cset V) (x : place) : member K (cset V) :=
  match x with AtKey j => InKey j | AtValue n j => InValue (Some (set_part (snd old) (snd new) n j)) end.

(** [MMTSet k t]: an operation of the set of [k] throws, in insert (:56) or erase (:76) or when
    called through get(k) (:85-92).  [MMTAdd k v x]: the assignment of the new entry in
    insert(k, v) (:58) or insert(k) (:63, [v = None]) throws.  [MMTErase k x]: the one in erase(k)
    (:71) throws.  [MMTEraseLast k v x]: erase(k, v) has emptied the set and throws at :78.
    Simplified as in ThrowModel: an exception from building a temporary changes nothing. *)
Inductive mm_throw :=
| MMTSet (k : K) (t : s_throw V) | MMTAdd (k : K) (v : option V) (x : place)
| MMTErase (k : K) (x : place) | MMTEraseLast (k : K) (v : V) (x : place).

Definition bad_erase (m : mmap) (k : K) (x : place) : option mmap :=
  match m_find keqb m k, rd (m_storage m) (sz_dec (m_size m)) with
  | Some (Some i), Some last =>
      match rd (m_storage m) (N.of_nat i) with
      | Some old => m_bad keqb m (MTErase k (member_at old last x))
      | None => None
      end
  | _, _ => None
  end.
Definition mm_bad (m : mmap) (t : mm_throw) : option mmap :=
  match t with
  | MMTSet k t =>
      match m_get keqb m k with
      | Some s => match s_bad veqb s t with Some s' => m_get_assign keqb m k s' | None => None end
      | None => None
      end
  | MMTAdd k v x =>
      match s_make vcap dv (match v with Some v => [v] | None => [] end), rd (m_storage m) (m_size m) with
      | Some s, Some old => m_bad keqb m (MTAdd k s (member_at old (k, s) x))
      | _, _ => None
      end
  | MMTErase k x => bad_erase m k x
  | MMTEraseLast k v x =>
      match m_get keqb m k with
      | Some s =>
          match s_erase veqb s v with
          | Some (s', _) =>
              if (s_size s' =? 0)%N
              then match m_get_assign keqb m k s' with Some m' => bad_erase m' k x | None => None end
              else None
          | None => None
          end
      | None => None
      end
  end.
End ThrowMulti.
Arguments place : clear implicits. Arguments mm_throw : clear implicits.
