(** Property C141: copies of latched and cached values. *)
From Verif Require Import Base LatchCopyModel LatchCopySpec LatchCopyProofs.
Open Scope N_scope.

(** Every history over any number of objects gives exactly what the past says: an object holds the value of its last
    evaluation or of the object it was made from, asks its function only if it holds none, and is not changed by what is
    done to its copies. Histories that name no such object or do not compile are exactly the others. *)
Theorem C141_history :
  forall W V F (call : F -> W -> W * option V) left_v left_f copyable assignable w ops rs w' fs,
  (exists s, history call left_v left_f copyable assignable (start w) ops = Some (rs, s) /\ world s = w' /\ made s = fs) <->
  explained call left_v left_f copyable assignable [] w ops rs w' fs.
Proof. intros. apply (history_iff call left_v left_f copyable assignable ops [] (start w) (rep_start left_v left_f w)). Qed.
Print Assumptions C141_history.

(** A copy of an object that has been evaluated has the same value, without another call; and so has the original, as long
    as neither is reset, refreshed, assigned to, written or moved from. *)
Theorem C141_copy :
  forall W V F (call : F -> W -> W * option V) left_v left_f copyable assignable w before i v rs s between rs' s',
  history call left_v left_f copyable assignable (start w) (before ++ [Access i; Copy i]) = Some (rs ++ [Got v; Nothing], s) ->
  let k := N.of_nat (length (List.filter creates before)) in
  Forall (fun o => leaves o i = true /\ leaves o k = true) between ->
  history call left_v left_f copyable assignable s between = Some (rs', s') ->
  exists s'', history call left_v left_f copyable assignable s' [Access k; Access i] = Some ([Got v; Got v], s'') /\
  world s'' = world s' /\ made s'' = made s'.
Proof. intros W V F call left_v left_f copyable assignable. exact (copies_share call left_v left_f copyable assignable). Qed.
Print Assumptions C141_copy.

(** However often an evaluated object and its copies are copied and accessed, the function is called once. *)
Theorem C141_one_call :
  forall W V F (call : F -> W -> W * option V) left_v left_f copyable assignable w f w1 v ops rs s,
  call f w = (w1, Some v) -> Forall (fun o => looks o = true) ops ->
  history call left_v left_f copyable assignable (start w) (Make f :: Access 0 :: ops) = Some (rs, s) ->
  made s = [f] /\ world s = w1 /\ exists rs', rs = Nothing :: Got v :: rs' /\
  Forall2 (fun o r => r = match o with Access _ | Take _ => Got v | HasValue _ => Says true | _ => Nothing end) ops rs'.
Proof. intros W V F call left_v left_f copyable assignable. exact (one_call call left_v left_f copyable assignable). Qed.
Print Assumptions C141_one_call.

(** FINDING: an object that was moved from still says that it has a value, and gives what the move left of it instead of
    calling the function again. *)
Theorem C141_moved_refuted :
  forall W V F (call : F -> W -> W * option V) left_v left_f copyable assignable w before i v rs s,
  history call left_v left_f copyable assignable (start w) (before ++ [Access i]) = Some (rs ++ [Got v], s) ->
  exists s', history call left_v left_f copyable assignable s [Move i; HasValue i; Access i]
    = Some ([Nothing; Says true; Got (left_v v)], s') /\ made s' = made s.
Proof. intros W V F call left_v left_f copyable assignable. exact (moved_ call left_v left_f copyable assignable). Qed.
Print Assumptions C141_moved_refuted.

(** FINDING: value() of an rvalue gives a const rvalue: a value that can only be moved cannot be taken out, and one that can
    be copied is copied, not moved, and stays. *)
Theorem C141_take_refuted :
  forall W V F (call : F -> W -> W * option V) left_v left_f assignable,
  (forall s i, step call left_v left_f false assignable s (Take i) = None) /\
  forall w before i v rs s,
  history call left_v left_f true assignable (start w) (before ++ [Take i]) = Some (rs ++ [Got v], s) ->
  exists s', history call left_v left_f true assignable s [Access i] = Some ([Got v], s') /\ made s' = made s.
Proof.
  intros W V F call left_v left_f assignable. split.
  - intros s i. cbn. destruct (rd (objects s) i); reflexivity.
  - intros w before i v rs s. exact (taken call left_v left_f true assignable w before i v rs s eq_refl).
Qed.
Print Assumptions C141_take_refuted.

(** Two functions over a world that counts; the second throws the first time. Copies, a reset, a write and a move. *)
Definition counting (f w : N) : N * option N := (w + 1, if (f =? 7) && (w =? 1) then None else Some (f + w)).
Example C141_nonvacuous :
  option_map (fun x => (fst x, made (snd x))) (history counting (fun _ => 0) (fun f => f) true true (start 0)
    [Make 3; Access 0; Copy 0; Make 7; Access 2; Access 2; Access 1; Refresh 0; Access 1; Write 0 50; CopyAssign 1 0; Reset 0;
     HasValue 0; Access 1; Move 1; Access 3; Access 1; Access 0])
  = Some ([Nothing; Got 3; Nothing; Nothing; Threw; Got 9; Got 3; Got 6; Got 3; Nothing; Nothing; Nothing;
           Says false; Got 50; Nothing; Got 50; Got 0; Got 7], [3; 7; 7; 3; 3]).
Proof. vm_compute. reflexivity. Qed.
(** The hypotheses of C141_copy. *)
Example C141_copy_nonvacuous :
  let s := State [Object 3 None; Object 4 (Some 4); Object 4 (Some 4)] 1 [4] in
  history counting (fun _ => 0) (fun f => f) true true (start 0) ([Make 3; Make 4] ++ [Access 1; Copy 1])
    = Some ([Nothing; Nothing] ++ [Got 4; Nothing], s) /\
  option_map fst (history counting (fun _ => 0) (fun f => f) true true s [Access 0; Reset 0; Copy 2; HasValue 1])
    = Some [Got 4; Nothing; Nothing; Says true] /\
  Forall (fun o => leaves (V := N) (F := N) o 1 = true /\ leaves o 2 = true) [Access 0; Reset 0; Copy 2; HasValue 1].
Proof. vm_compute. repeat constructor. Qed.
