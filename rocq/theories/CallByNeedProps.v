(** C37 call_by_need. *)
From Verif Require Import Base BaseLemmas TupleModel CallByNeedModel CallByNeedSpec CallByNeedProofs.

(** With a temporary tuple of functions (not an lvalue): every function is called once, in
    order, with its chosen arguments; then come the arguments no function got. *)
Theorem C37_call_by_need : forall F A W (ok : F -> list A -> bool) (run : W -> F -> list A -> W * option A) fs args w cs,
  Forall2 (chosen ok args) fs cs ->
  exists w' rs us, call_by_need ok run fs args false w = Some (w', map Some (rs ++ us)) /\
    called run args w fs cs w' rs /\ passed_on args cs us.
Proof. intros F A W ok run fs args w cs H. apply call_ok; exact H. Qed.
Print Assumptions C37_call_by_need.
(** Every function that can be called with some contiguous arguments has one choice. *)
Theorem C37_choice : forall F A (ok : F -> list A -> bool) args f,
  (exists b l, b + l <= length args /\ ok f (window args b l) = true) -> exists! bl, chosen ok args f bl.
Proof.
  intros F A ok args f [b [l [H1 H2]]]. destruct (chosen_exists (W := unit) ok (fun w _ _ => (w, None)) args f b l H1 H2) as [bl H]. exists bl. split; [exact H|]. intros bl' H'. exact (chosen_fun (W := unit) ok (fun w _ _ => (w, None)) args f bl bl' H H').
Qed.
Print Assumptions C37_choice.
(** Otherwise the program does not compile. *)
Theorem C37_no_choice : forall F A W (ok : F -> list A -> bool) (run : W -> F -> list A -> W * option A) fs args lvalue w f,
  In f fs -> (forall b l, b + l <= length args -> ok f (window args b l) = false) ->
  call_by_need ok run fs args lvalue w = None.
Proof. intros F A W ok run fs args lvalue w f. apply call_fails. Qed.
Print Assumptions C37_no_choice.
(** When the functions are an lvalue no function is ever called: either the program does not
    compile, or there are one function and one argument and the argument comes back. *)
Theorem C37_lvalue_refuted : forall F A W (ok : F -> list A -> bool) (run : W -> F -> list A -> W * option A) fs args w w' r,
  fs <> [] -> call_by_need ok run fs args true w = Some (w', r) ->
  exists f a, fs = [f] /\ args = [a] /\ w' = w /\ r = [Some a].
Proof. intros F A W ok run fs args. apply call_lvalue. Qed.
Print Assumptions C37_lvalue_refuted.
(** Functions are their argument types; arguments are (type, value). *)
Definition accepts (f : list nat) (xs : list (nat * nat)) : bool := if list_eq_dec Nat.eq_dec f (map fst xs) then true else false.
Definition sum (w : list (list nat)) (f : list nat) (xs : list (nat * nat)) : list (list nat) * option (nat * nat) :=
  (w ++ [map snd xs], if length f =? 0 then None else Some (9, List.fold_left Nat.add (map snd xs) 0)).
Example C37_example :
  call_by_need accepts sum [[2; 3]; []; [3]] [(1, 10); (2, 20); (3, 30); (4, 40)] false []
  = Some ([[20; 30]; []; [30]], [Some (9, 50); Some (9, 30); Some (1, 10); Some (4, 40)]) /\
  call_by_need accepts sum [[2; 2]] [(1, 10); (2, 20)] false [] = None.
Proof. split; reflexivity. Qed.
Example C37_choice_example : Forall2 (chosen accepts [(1, 10); (2, 20); (3, 30); (4, 40)]) [[2; 3]; []; [3]] [(1, 2); (0, 0); (2, 1)].
Proof.
  assert (E : forall f bl, pick accepts [(1, 10); (2, 20); (3, 30); (4, 40)] f = Some bl -> chosen accepts [(1, 10); (2, 20); (3, 30); (4, 40)] f bl) by (intros f bl; apply (pick_Some accepts sum)).
  do 3 (apply Forall2_cons; [apply E; reflexivity|]). apply Forall2_nil.
Qed.
Example C37_lvalue_example :
  call_by_need accepts sum [[1]] [(1, 10)] true [] = Some ([], [Some (1, 10)]) /\
  call_by_need accepts sum [[1]] [(1, 10)] false [] = Some ([[10]], [Some (9, 10)]) /\
  call_by_need accepts sum [[1]] [(1, 10); (2, 20)] true [] = None.
Proof. repeat split. Qed.
