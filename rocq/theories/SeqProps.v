(** Properties C68-C70: make_array, template_for_each and priority_t. *)
From Verif Require Import Base Ints TupleSpec SeqSpec SeqModel SeqProofs.
Open Scope ub_scope.

(** C68. make_array(sequence, f) calls f<i>() once for each i of the sequence, in order, and holds the
    results in that order; when they have one type, also that of f<0>. *)
Theorem C68_make_array_partial {W I T R} (zero : I) type_of (conv : T -> T -> option (R -> R)) (f : W -> I -> W * R) w is A :
  type_of zero = Some A -> (forall i, In i is -> type_of i = Some A) -> (exists c, conv A A = Some c /\ forall r, c r = r) ->
  exists w' rs, make_array_fn zero type_of conv f w is = Some (w', (A, rs)) /\ calls f w is w' rs.
Proof. exact (make_same zero type_of conv f w is A). Qed.
Print Assumptions C68_make_array_partial.
(** make_array<N>(f): f<0>, ..., f<N-1>. *)
Theorem C68_make_array_n_partial {W T R} type_of (conv : T -> T -> option (R -> R)) (f : W -> Z -> W * R) w n A : (0 <= n)%Z ->
  type_of 0%Z = Some A -> (forall i, (0 <= i < n)%Z -> type_of i = Some A) -> (exists c, conv A A = Some c /\ forall r, c r = r) ->
  exists is w' rs, counts n is /\ make_array_n type_of conv f w n = Some (w', (A, rs)) /\ calls f w is w' rs.
Proof. exact (make_n type_of conv f w n A). Qed.
Print Assumptions C68_make_array_n_partial.
(** make_array<D>(sequence) and make_array<D, N>(): the values D<i>. *)
Theorem C68_values_partial {I T R} (zero : I) type_of (conv : T -> T -> option (R -> R)) (D : I -> R) is A :
  type_of zero = Some A -> (forall i, In i is -> type_of i = Some A) -> (exists c, conv A A = Some c /\ forall r, c r = r) ->
  make_array_values zero type_of conv D is = Some (A, map D is).
Proof. exact (values_same zero type_of conv D is A). Qed.
Print Assumptions C68_values_partial.
Theorem C68_values_n_partial {T R} type_of (conv : T -> T -> option (R -> R)) (D : Z -> R) n A : (0 <= n)%Z ->
  type_of 0%Z = Some A -> (forall i, (0 <= i < n)%Z -> type_of i = Some A) -> (exists c, conv A A = Some c /\ forall r, c r = r) ->
  exists is, counts n is /\ make_array_values_n type_of conv D n = Some (A, map D is).
Proof. exact (values_n type_of conv D n A). Qed.
Print Assumptions C68_values_n_partial.
(** Results of several integer types: if it compiles, the calls are the same and no value changes. *)
Theorem C68_integers {W} zero type_of (f : W -> Z -> W * Z) w is w' A vs :
  (forall i t, type_of i = Some t -> 0 < width t)%Z -> (forall w i t, type_of i = Some t -> in_range t (snd (f w i))) ->
  make_array_fn zero type_of brace f w is = Some (w', (A, vs)) -> calls f w is w' vs /\ Forall (in_range A) vs.
Proof. exact (make_ints zero type_of f w is w' A vs). Qed.
Print Assumptions C68_integers.
(** It compiles exactly if each result can initialize an element of the type of f<0>(), whether the
    sequence has 0 or not: ... *)
Theorem C68_compiles {W I T R} (zero : I) type_of (conv : T -> T -> option (R -> R)) (f : W -> I -> W * R) w is :
  make_array_fn zero type_of conv f w is <> None <->
  exists A, type_of zero = Some A /\ forall i, In i is -> exists t, type_of i = Some t /\ conv t A <> None.
Proof. exact (make_compiles zero type_of conv f w is). Qed.
Print Assumptions C68_compiles.
(** ... without f<0> there is no array, whatever the sequence. *)
Theorem C68_zero_refuted {W I T R} (zero : I) type_of (conv : T -> T -> option (R -> R)) (f : W -> I -> W * R) w is :
  type_of zero = None -> make_array_fn zero type_of conv f w is = None.
Proof. exact (make_zero zero type_of conv f w is). Qed.
Print Assumptions C68_zero_refuted.
(** template_for_each calls f for each element of the list, once, in order. *)
Theorem C68_template_for_each {W I R} (f : W -> I -> W * R) w l : exists rs, calls f w l (template_for_each f w l) rs.
Proof. exact (for_each_calls f w l). Qed.
Print Assumptions C68_template_for_each.
Example C68_nonvacuous :
  let f (w : list Z) (i : Z) := (w ++ [i], i * i)%Z in
  make_array_n (fun _ => Some (Sint 32)) brace f [] 4 = Some ([0; 1; 2; 3], (Sint 32, [0; 1; 4; 9]))%Z /\
  template_for_each f [] [5; 3; 5]%Z = [5; 3; 5]%Z /\
  make_array_fn 0%Z (fun i => Some (if (i =? 0)%Z then Sint 64 else Uint 8)) brace f [] [2; 0]%Z = Some ([2; 0], (Sint 64, [4; 0]))%Z /\
  make_array_fn 0%Z (fun i => Some (if (i =? 0)%Z then Uint 8 else Sint 64)) brace f [] [2; 0]%Z = None /\
  make_array_fn 0%Z (fun i => if (i =? 0)%Z then None else Some (Sint 32)) brace f [] [2; 3]%Z = None.
Proof. vm_compute. now repeat split. Qed.

(** C69. An array made of integers has their values, in order, in a type that has all of them. *)
Theorem C69_kept iw xs A vs : (0 < iw)%Z -> Forall (fun x => (0 < width (fst x))%Z /\ in_range (fst x) (snd x)) xs ->
  make_array iw xs = Some (A, vs) -> vs = map snd xs /\ Forall (in_range A) vs.
Proof. exact (fun I => make_array_kept iw I xs A vs). Qed.
Print Assumptions C69_kept.
(** The same with the type given. *)
Theorem C69_kept_as D xs vs : (0 < width D)%Z -> Forall (fun x => (0 < width (fst x))%Z /\ in_range (fst x) (snd x)) xs ->
  make_array_as D xs = Some vs -> vs = map snd xs /\ Forall (in_range D) vs.
Proof. exact (as_kept D xs vs). Qed.
Print Assumptions C69_kept_as.
(** With the type given it compiles exactly if that type has all values of the others. *)
Theorem C69_compiles_as D xs : Forall (fun x => (0 < width (fst x))%Z) xs ->
  make_array_as D xs <> None <-> Forall (fun x => holds D (fst x)) xs.
Proof. exact (as_compiles D xs). Qed.
Print Assumptions C69_compiles_as.
(** Without, it compiles for types all signed or all unsigned; ... *)
Theorem C69_one_sign_partial iw b xs : Forall (fun x => signed (fst x) = b /\ (0 < width (fst x))%Z) xs -> make_array iw xs <> None.
Proof. exact (one_sign iw b xs). Qed.
Print Assumptions C69_one_sign_partial.
(** ... if they are all the same, the elements have that type; ... *)
Theorem C69_same_type iw t x xs : (0 < width t)%Z -> Forall (in_range t) (x :: xs) ->
  make_array iw (map (pair t) (x :: xs)) = Some (t, x :: xs).
Proof. exact (same_type iw t x xs). Qed.
Print Assumptions C69_same_type.
(** ... but not for a signed value with an unsigned one that is no narrower than it and int. *)
Theorem C69_mixed_refuted iw s u x y : (0 < s <= u)%Z -> (iw <= u)%Z ->
  make_array iw [(Sint s, x); (Uint u, y)] = None /\ make_array iw [(Uint u, y); (Sint s, x)] = None.
Proof. exact (mixed iw s u x y). Qed.
Print Assumptions C69_mixed_refuted.
Example C69_nonvacuous :
  make_array 32 [(Uint 8, 200); (Sint 16, -5); (Sint 64, 7)]%Z = Some (Sint 64, [200; -5; 7])%Z /\
  make_array 32 [(Uint 8, 200); (Uint 16, 5)]%Z = Some (Sint 32, [200; 5])%Z /\
  make_array 32 [(Sint 32, 1); (Uint 32, 1)]%Z = None /\ make_array_as (Uint 8) [(Sint 32, 1)]%Z = None.
Proof. vm_compute. now repeat split. Qed.

(** C70. A call with priority<N> chooses the viable overload with the highest priority up to N: it
    resolves to overload i exactly if i is a candidate and every other one has lower priority. *)
Theorem C70_priority N os i : resolve N os = Some i <->
  exists k, candidate N os i k /\ forall j k', candidate N os j k' -> j <> i -> (k' < k)%nat.
Proof. exact (resolve_iff N os i). Qed.
Print Assumptions C70_priority.
(** With distinct priorities and a candidate there is always a choice. *)
Theorem C70_distinct N os : NoDup (map fst os) -> (exists i k, candidate N os i k) -> exists i, resolve N os = Some i.
Proof. exact (resolve_distinct N os). Qed.
Print Assumptions C70_distinct.
Example C70_nonvacuous :
  resolve 2 [(0, true); (2, false); (1, true); (3, true)] = Some 2 /\ resolve 1 [(1, true); (1, true)] = None /\
  resolve 0 [(1, true)] = None /\ candidate 2 [(0, true); (1, true)] 1 1.
Proof. vm_compute. repeat split. lia. Qed.
