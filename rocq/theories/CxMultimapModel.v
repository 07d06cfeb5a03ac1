(** Model of stdx::cx_multimap (include/stdx/cx_multimap.hpp), on top of the models of
    cx_map and cx_set. *)
From Verif Require Import Base CxSetModel CxMapModel.

Section CxMultimap.
Context {K V : Type} (keqb : K -> K -> bool) (veqb : V -> V -> bool).
Context (kcap vcap : N) (dk : K) (dv : V). (* KeyN, ValueN, Key{}, Value{} *)

(** cx_multimap.hpp:17-19. *)
Definition mmap := cmap K (cset V).

Definition empty_set : option (cset V) := s_make vcap dv [].
(** Default construction: an empty cx_map of empty cx_sets. *)
Definition mm_init : option mmap :=
  match empty_set with Some es => m_make kcap (dk, es) [] | None => None end.

(** cx_multimap.hpp:54-60; [set_t{v}] needs ValueN >= 1 (compile-time check). *)
Definition mm_insert (m : mmap) (k : K) (v : V) : option mmap :=
  match m_contains keqb m k with
  | Some true =>
      match m_get keqb m k with
      | Some s => match s_insert veqb s v with
                  | Some (s', _) => m_get_assign keqb m k s'
                  | None => None
                  end
      | None => None
      end
  | Some false =>
      match s_make vcap dv [v] with
      | Some s => option_map fst (m_put keqb m k s)
      | None => None
      end
  | None => None
  end.

(** cx_multimap.hpp:61-65. *)
Definition mm_insert_key (m : mmap) (k : K) : option mmap :=
  match m_contains keqb m k with
  | Some true => Some m
  | Some false =>
      match empty_set with Some s => option_map fst (m_put keqb m k s) | None => None end
  | None => None
  end.

(** cx_multimap.hpp:73-83. *)
Definition mm_erase (m : mmap) (k : K) (v : V) : option (mmap * N) :=
  match m_contains keqb m k with
  | Some true =>
      match m_get keqb m k with
      | Some s =>
          match s_erase veqb s v with
          | Some (s', r) =>
              match m_get_assign keqb m k s' with
              | Some m' =>
                  if (s_size s' =? 0)%N
                  then option_map (fun '(m'', _) => (m'', r)) (m_erase keqb m' k)
                  else Some (m', r)
              | None => None
              end
          | None => None
          end
      | None => None
      end
  | Some false => Some (m, 0%N)
  | None => None
  end.

(** cx_multimap.hpp:101-104. *)
Definition mm_contains2 (m : mmap) (k : K) (v : V) : option bool :=
  match m_contains keqb m k with
  | Some true => match m_get keqb m k with Some s => s_contains veqb s v | None => None end
  | Some false => Some false
  | None => None
  end.

(** cx_multimap.hpp:28-47: what a loop over the multimap and over each of its sets visits. *)
Fixpoint mm_lists (l : list (K * cset V)) : option (list (K * list V)) :=
  match l with
  | [] => Some []
  | (k, s) :: r => match s_items s, mm_lists r with Some vs, Some t => Some ((k, vs) :: t) | _, _ => None end
  end.
Definition mm_items (m : mmap) : option (list (K * list V)) :=
  match m_items m with Some l => mm_lists l | None => None end.

(** [MMOnSet k op]: any operation on the cx_set referenced by get(k) (:85-92). *)
Inductive mm_op :=
| MMInsert (k : K) (v : V) | MMInsertKey (k : K) | MMErase (k : K) (v : V) | MMEraseKey (k : K)
| MMContains (k : K) | MMContains2 (k : K) (v : V) | MMOnSet (k : K) (op : s_op V)
| MMSize | MMEmpty | MMClear | MMItems.
Inductive mm_out := MMUnit | MMBool (b : bool) | MMNum (n : N) | MMSet (o : s_out V)
| MMList (l : list (K * list V)).

Definition mm_step (m : mmap) (op : mm_op) : outcome unit mmap mm_out :=
  let ret r := match r with Some (m', o) => Done m' o [] | None => Undef end in
  match op with
  | MMInsert k v => ret (option_map (fun m' => (m', MMUnit)) (mm_insert m k v))
  | MMInsertKey k => ret (option_map (fun m' => (m', MMUnit)) (mm_insert_key m k))
  | MMErase k v => ret (option_map (fun '(m', n) => (m', MMNum n)) (mm_erase m k v))
  | MMEraseKey k => ret (option_map (fun '(m', n) => (m', MMNum n)) (m_erase keqb m k)) (* :70-72 *)
  | MMContains k => ret (option_map (fun b => (m, MMBool b)) (m_contains keqb m k)) (* :98-100 *)
  | MMContains2 k v => ret (option_map (fun b => (m, MMBool b)) (mm_contains2 m k v))
  | MMOnSet k sop =>
      match m_get keqb m k with
      | Some s =>
          match s_step veqb s sop with
          | Done s' o _ => ret (option_map (fun m' => (m', MMSet o)) (m_get_assign keqb m k s'))
          | _ => Undef
          end
      | None => Undef
      end
  | MMSize => Done m (MMNum (m_size m)) [] (* :49-51 *)
  | MMEmpty => Done m (MMBool (m_size m =? 0)%N) [] (* :94-96 *)
  | MMClear => Done (m_clear m) MMUnit [] (* :106 *)
  | MMItems => ret (option_map (fun l => (m, MMList l)) (mm_items m))
  end.
End CxMultimap.
Arguments mm_op : clear implicits.
Arguments mm_out : clear implicits.
