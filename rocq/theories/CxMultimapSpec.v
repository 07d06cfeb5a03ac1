(** What a user expects of cx_multimap: a finite map from keys to sets of values
    [m : K -> option (V -> bool)]; a key may be present with an empty set. *)
From Verif Require Import Base CxSetModel CxSetSpec CxMultimapModel.

Section Spec.
Context {K V : Type} (keqb : K -> K -> bool) (veqb : V -> V -> bool) (kcap vcap : N).
Definition mm := K -> option (V -> bool).

Definition has_key (m : mm) (k : K) : bool := match m k with Some _ => true | None => false end.
Definition has_value (m : mm) (k : K) (v : V) : bool :=
  match m k with Some s => s v | None => false end.
Definition keys_are (m : mm) (n : N) : Prop := card (has_key m) n.

(** Sameness of two multimaps / of a multimap except for one key. *)
Definition opt_set_eq (a b : option (V -> bool)) : Prop :=
  match a, b with
  | Some s, Some t => forall v, s v = t v
  | None, None => True
  | _, _ => False
  end.
Definition same (m m' : mm) : Prop := forall k, opt_set_eq (m' k) (m k).
Definition only_at (m m' : mm) (k : K) (o : option (V -> bool)) : Prop :=
  opt_set_eq (m' k) o /\ forall x, x <> k -> opt_set_eq (m' x) (m x).

Definition mm_pre (m : mm) (op : mm_op K V) : Prop :=
  match op with
  | MMInsert k v =>
      match m k with
      | Some s => set_pre veqb vcap s (SInsert v)
      | None => (1 <= vcap)%N /\ exists n, keys_are m n /\ (n < kcap)%N
      end
  | MMInsertKey k => has_key m k = true \/ exists n, keys_are m n /\ (n < kcap)%N
  | MMOnSet k op => exists s, m k = Some s /\ set_pre veqb vcap s op
  | _ => True
  end.

Definition mm_spec (m : mm) (op : mm_op K V) (o : mm_out K V) (m' : mm) : Prop :=
  match op with
  | MMInsert k v =>
      o = MMUnit /\ only_at m m' k (Some (fun x => has_value m k x || veqb x v))
  | MMInsertKey k =>
      o = MMUnit /\ only_at m m' k (Some (fun x => has_value m k x))
  | MMErase k v =>
      (* reports whether (k,v) was there; removes it; a key left with no values goes *)
      o = MMNum (if has_value m k v then 1 else 0) /\
      ((exists x, x <> v /\ has_value m k x = true) ->
         only_at m m' k (Some (fun x => has_value m k x && negb (veqb x v)))) /\
      ((forall x, x <> v -> has_value m k x = false) -> only_at m m' k None)
  | MMEraseKey k => o = MMNum (if has_key m k then 1 else 0) /\ only_at m m' k None
  | MMContains k => o = MMBool (has_key m k) /\ same m m'
  | MMContains2 k v => o = MMBool (has_value m k v) /\ same m m'
  | MMOnSet k op =>
      exists s so s', m k = Some s /\ o = MMSet so /\ set_spec veqb s op so s' /\
                      only_at m m' k (Some s')
  | MMSize => (exists n, keys_are m n /\ o = MMNum n) /\ same m m'
  | MMEmpty => (exists b, o = MMBool b /\ (b = true <-> forall k, m k = None)) /\ same m m'
  | MMClear => o = MMUnit /\ forall k, m' k = None
  | MMItems => (* every key once, each with its values, once *)
      (exists l, o = MMList l /\ enumerates (has_key m) (map fst l) /\
         forall k vs, In (k, vs) l -> enumerates (has_value m k) vs) /\ same m m'
  end.
End Spec.
