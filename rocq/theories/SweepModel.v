(** Model of loops over a cx_set or a cx_map that erase the element they are at
    (include/stdx/cx_set.hpp, cx_map.hpp; the containers are those of CxSetModel.v and
    CxMapModel.v).  Iterators are pointers into the storage (cx_set.hpp:31-50,
    cx_map.hpp:45-64), here indices; every slot of the storage can be read, whether or not it
    is below the size.  The key given to erase may be a reference to the slot: erase reads
    it for the last time before it writes (cx_set.hpp:82-86, cx_map.hpp:128-132). *)
From Verif Require Import Base CxSetModel CxMapModel.
Open Scope N_scope.

(** Once: for (auto &x : c), which evaluates c.end() before the loop.
    Anew: for (auto it = c.begin(); it != c.end(); ++it), which evaluates it every time. *)
Inductive bound := Once | Anew.
(** [RunsOff]: undefined behaviour, the loop goes past the storage. *)
Inductive sweep_result (C E : Type) := Ends (visited : list E) (c : C) | RunsOff.
Arguments Ends {C E}. Arguments RunsOff {C E}.

Section Loop.
Context {C E : Type} (size : C -> N) (slot : C -> N -> option E) (erase : C -> E -> option C) (p : E -> bool).
(** [if (p(x)) c.erase(x)] for x from slot [i] on; [stop]: the index of the end if taken once. *)
Fixpoint sweep_from (rounds : nat) (stop : option N) (c : C) (i : N) : sweep_result C E :=
  if i =? match stop with Some e => e | None => size c end then Ends [] c
  else match rounds, slot c i with
       | S r, Some x =>
           match (if p x then erase c x else Some c) with
           | Some c' => match sweep_from r stop c' (i + 1) with Ends v c'' => Ends (x :: v) c'' | RunsOff => RunsOff end
           | None => RunsOff
           end
       | _, _ => RunsOff
       end.
End Loop.

(** One round per slot of the storage: a loop that needs more has left it. *)
Definition set_sweep {K} (eqb : K -> K -> bool) (p : K -> bool) (b : bound) (s : cset K) : sweep_result (cset K) K :=
  sweep_from s_size (fun s i => rd (s_storage s) i) (fun s k => option_map fst (s_erase eqb s k)) p
    (length (s_storage s)) (match b with Once => Some (s_size s) | Anew => None end) s 0.
Definition map_sweep {K V} (eqb : K -> K -> bool) (p : K * V -> bool) (b : bound) (m : cmap K V) : sweep_result (cmap K V) (K * V) :=
  sweep_from m_size (fun m i => rd (m_storage m) i) (fun m e => option_map fst (m_erase eqb m (fst e))) p
    (length (m_storage m)) (match b with Once => Some (m_size m) | Anew => None end) m 0.
