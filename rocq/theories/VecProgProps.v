(** Property C03, resize_and_overwrite with callbacks that read the storage or throw. *)
From Verif Require Import Base CxVectorModel CxVectorSpec CxVectorProofs VecProgModel VecProgSpec VecProgProofs.
Open Scope N_scope.

(** Every history of calls, those of resize_and_overwrite with any callback included, gives what a list gives, as long as
    the callbacks stay within the capacity and read and keep only elements of the list or written before. *)
Theorem C03_overwrite_with_any_callback :
  forall A cap (d : A) ts v ops l outs,
  cap < size_mod -> v_make cap d ts = Some v ->
  spec_run (vplist_step cap) ts ops = Some (l, outs) ->
  exists v', run (vp_step cap) v ops = Done v' outs [].
Proof.
  intros A cap d ts v ops l outs Hc Hm Hs.
  destruct (vp_run_ok cap ops v ts l outs Hc (v_make_rep _ _ _ _ Hm) Hs) as (v' & E & _). eauto.
Qed.
Print Assumptions C03_overwrite_with_any_callback.

(** The size that a callback returns is not checked: if it is more than the capacity, size() gives it and a loop over
    the vector is undefined. *)
Theorem C03_overwrite_unchecked :
  forall A cap (d : A) ts v ops l outs n,
  cap < size_mod -> v_make cap d ts = Some v ->
  spec_run (vplist_step cap) ts ops = Some (l, outs) -> cap < n ->
  exists v', run (vp_step cap) v (ops ++ [Overwrite (fun _ => Return n); Plain VSize])
    = Done v' (outs ++ [Finished true; PlainOut (VNum n)]) [] /\
  vp_step cap v' (Plain VItems) = Undef.
Proof.
  intros A cap d ts v ops l outs n Hc Hm Hs Hn.
  destruct (vp_run_ok cap ops v ts l outs Hc (v_make_rep _ _ _ _ Hm) Hs) as (v1 & E & R).
  destruct (overwrite_too_large cap v1 l n R Hn) as (v2 & H1 & H2 & H3). exists v2. split; [|exact H3].
  rewrite (BaseLemmas.run_app _ _ _ _ _ _ _ E). cbn [run]. rewrite H1, H2. reflexivity.
Qed.
Print Assumptions C03_overwrite_unchecked.

(** {1, 2, 3} reversed in place, doubled, then a callback that throws after one assignment. *)
Example C03_overwrite_nonvacuous :
  exists v, v_make 6 0 [1; 2; 3] = Some v /\ exists v',
  run (vp_step 6) v
    [Overwrite (fun _ => Read 0 (fun a => Read 2 (fun c => Write 0 c (Write 2 a (Return 3))))); Plain VItems;
     Overwrite (fun n => Read 0 (fun a => Write 3 a (Write 4 a (Return (n - 1))))); Plain VItems;
     Overwrite (fun _ => Write 1 7 (Write 5 9 Throw)); Plain VItems]
  = Done v' [Finished true; PlainOut (VList [3; 2; 1]); Finished true; PlainOut (VList [3; 2; 1; 3; 3]);
             Finished false; PlainOut (VList [3; 7; 1; 3; 3])] [].
Proof. eexists. split; [reflexivity|]. eexists. reflexivity. Qed.
