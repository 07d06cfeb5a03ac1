(** cx_multimap with calls that throw: a list of keys, each with the list of its values, in which
    keys and values may occur more than once; a call finds the first entry of its key. *)
From Coq Require Import Permutation.
From Verif Require Import Base CxSetModel CxMultimapModel ThrowModel ThrowSpec ThrowMultiModel.

Section Spec.
Context {K V : Type} (kcap vcap : N).
Notation contents := (list (K * list V)).

Definition mmt_pre (l : contents) (a : attempt (mm_op K V) (mm_throw K V)) : Prop :=
  let room k := ~ has k l -> (len l < kcap)%N in
  match a with
  | Call (MMInsert k v) => (1 <= vcap)%N /\ room k /\
      forall ws l1 l2, first_at k ws l1 l2 l -> In v ws \/ (len ws < vcap)%N
  | Call (MMInsertKey k) => room k
  | Call (MMOnSet k op) => exists ws l1 l2, first_at k ws l1 l2 l /\ bag_pre vcap ws (Call op)
  | Call _ => True
  | Throws (MMTSet k t) => exists ws l1 l2, first_at k ws l1 l2 l /\ bag_pre vcap ws (Throws t)
  | Throws (MMTAdd k v x) => ~ has k l /\ (len l < kcap)%N /\ (v <> None -> (1 <= vcap)%N) /\
      match x with AtKey _ => True | AtValue n _ => (N.of_nat n < vcap)%N end
  | Throws (MMTErase k x) => has k l /\ match x with AtKey _ => True | AtValue n _ => (N.of_nat n < vcap)%N end
  | Throws (MMTEraseLast k v x) => (exists l1 l2, first_at k [v] l1 l2 l) /\
      match x with AtKey _ => True | AtValue n _ => (N.of_nat n < vcap)%N end
  end.

(** The set with [ws] is assigned the one with [wl], and the assignment of element [n] throws: it still has
    as many, of which those before [n] are new as far as [wl] has them, and those after [n] are as before. *)
Definition half_assigned (n : nat) (j : option V) (ws wl ws' : list V) : Prop :=
  length ws' = length ws /\
  (forall i x, i < n -> i < length ws -> nth_error wl i = Some x -> nth_error ws' i = Some x) /\
  (forall x, nth_error ws n = Some x -> nth_error ws' n = Some (left_with x j)) /\
  (forall i, n < i -> nth_error ws' i = nth_error ws i).
(** What an erase that throws leaves of [l1 ++ (k, ws) :: l2], whose last key is [kl]. *)
Definition half_erased (k : K) (ws : list V) (l1 l2 : contents) (x : place K V) (l' : contents) : Prop :=
  match x with
  | AtKey j => l' = removelast (l1 ++ (left_with k j, ws) :: l2)
  | AtValue n j => exists r kl wl ws', l1 ++ (k, ws) :: l2 = r ++ [(kl, wl)] /\
      half_assigned n j ws wl ws' /\ l' = removelast (l1 ++ (kl, ws') :: l2)
  end.

Definition mmt_spec (l : contents) (a : attempt (mm_op K V) (mm_throw K V)) (o : option (mm_out K V)) (l' : contents) : Prop :=
  match a with
  | Call (MMInsert k v) => o = Some MMUnit /\
      ((exists ws l1 l2, first_at k ws l1 l2 l /\
          (In v ws /\ l' = l \/ ~ In v ws /\ l' = l1 ++ (k, ws ++ [v]) :: l2))
       \/ (~ has k l /\ l' = l ++ [(k, [v])]))
  | Call (MMInsertKey k) => o = Some MMUnit /\ ((has k l /\ l' = l) \/ (~ has k l /\ l' = l ++ [(k, [])]))
  | Call (MMErase k v) =>
      (exists ws l1 l2 ws', first_at k ws l1 l2 l /\
         (In v ws /\ o = Some (MMNum 1) /\ Permutation (v :: ws') ws \/ ~ In v ws /\ o = Some (MMNum 0) /\ ws' = ws) /\
         (ws' <> [] /\ l' = l1 ++ (k, ws') :: l2 \/ ws' = [] /\ Permutation l' (l1 ++ l2)))
      \/ (~ has k l /\ o = Some (MMNum 0) /\ l' = l)
  | Call (MMEraseKey k) =>
      (exists ws l1 l2, first_at k ws l1 l2 l /\ o = Some (MMNum 1) /\ Permutation l' (l1 ++ l2))
      \/ (~ has k l /\ o = Some (MMNum 0) /\ l' = l)
  | Call (MMContains k) => l' = l /\ exists b, o = Some (MMBool b) /\ (b = true <-> has k l)
  | Call (MMContains2 k v) => l' = l /\ exists b, o = Some (MMBool b) /\
      (b = true <-> exists ws l1 l2, first_at k ws l1 l2 l /\ In v ws)
  | Call (MMOnSet k op) => exists ws l1 l2 so ws', first_at k ws l1 l2 l /\ bag_spec vcap ws (Call op) (Some so) ws' /\
      o = Some (MMSet so) /\ l' = l1 ++ (k, ws') :: l2
  | Call MMSize => l' = l /\ o = Some (MMNum (len l))
  | Call MMEmpty => l' = l /\ exists b, o = Some (MMBool b) /\ (b = true <-> l = [])
  | Call MMClear => o = Some MMUnit /\ l' = []
  | Call MMItems => l' = l /\ o = Some (MMList l)
  | Throws (MMTSet k t) => o = None /\ exists ws l1 l2 ws', first_at k ws l1 l2 l /\
      bag_spec vcap ws (Throws t) None ws' /\ l' = l1 ++ (k, ws') :: l2
  | Throws (MMTAdd k v x) => o = None /\ exists k' ws, l' = l ++ [(k', ws)] /\ (len ws <= vcap)%N /\
      match x with
      | AtKey j => any_left j k'
      | AtValue n j => k' = k /\ exists ws0, half_assigned n j ws0 (match v with Some v => [v] | None => [] end) ws
      end
  | Throws (MMTErase k x) => o = None /\ exists ws l1 l2, first_at k ws l1 l2 l /\ half_erased k ws l1 l2 x l'
  | Throws (MMTEraseLast k v x) => o = None /\ exists l1 l2, first_at k [v] l1 l2 l /\ half_erased k [] l1 l2 x l'
  end.
End Spec.
