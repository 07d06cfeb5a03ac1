(** Property C132: types of namespace std as arguments of the algorithms. *)
From Verif Require Import Base LookupModel LookupSpec LookupProofs.

(** An iterator of std::vector<int> as libstdc++ has it, a closure, std::string, std::byte. *)
Definition vector_iterator : ty := Class User [Pointer Builtin; Class Std [Builtin]].
Definition closure : ty := Class User [].
Definition string : ty := Class Std [Builtin].
Definition byte : ty := Enum Std Builtin.

(** for_each_butlastn and for_each_butlast return the function and the iterators, if the iterator is not a
    random-access iterator, or there are further iterators, or neither iterator nor function have to do
    with namespace std. *)
Theorem C132_for_each_butlast_partial :
  forall c it op extra,
  (c = Forward \/ extra <> [] \/ (~ from_std it /\ ~ from_std op)) ->
  for_each_butlastn c it op extra = Some (Class Stdx (op :: it :: extra)).
Proof. exact for_each_ours. Qed.
Print Assumptions C132_for_each_butlast_partial.
Theorem C132_initial_medial_final_partial :
  forall c it iop mop fop, (c = Forward \/ (~ from_std it /\ ~ from_std mop)) ->
  initial_medial_final c it iop mop fop = Some (Class Stdx [iop; mop; fop]).
Proof. exact imf_ours. Qed.
Print Assumptions C132_initial_medial_final_partial.

(** Otherwise std::for_each_n is taken: the result is an iterator, not a tuple... *)
Theorem C132_for_each_butlast_refuted :
  forall it op, from_std it \/ from_std op ->
  for_each_butlastn RandomAccess it op [] = Some it.
Proof. exact for_each_theirs. Qed.
Print Assumptions C132_for_each_butlast_refuted.
(** ...so that initial_medial_final does not compile, unless the iterator is itself a stdx::tuple of two. *)
Theorem C132_initial_medial_final_refuted :
  forall it iop mop fop, from_std it \/ from_std mop -> (forall a b, it <> Class Stdx [a; b]) ->
  initial_medial_final RandomAccess it iop mop fop = None.
Proof.
  intros it iop mop fop H N. unfold initial_medial_final. rewrite (for_each_theirs it mop H).
  destruct it as [|t|t|n u|n args]; try reflexivity. destruct n; try reflexivity.
  destruct args as [|a [|b [|x y]]]; try reflexivity. destruct (N a b eq_refl).
Qed.
Print Assumptions C132_initial_medial_final_refuted.

Example C132_for_each_nonvacuous :
  from_std vector_iterator /\ ~ from_std (Pointer Builtin) /\ ~ from_std closure /\
  for_each_butlastn RandomAccess (Pointer Builtin) closure [] = Some (Class Stdx [closure; Pointer Builtin]) /\
  for_each_butlastn RandomAccess vector_iterator closure [Pointer Builtin]
    = Some (Class Stdx [closure; vector_iterator; Pointer Builtin]) /\
  for_each_butlastn RandomAccess vector_iterator closure [] = Some vector_iterator /\
  initial_medial_final RandomAccess vector_iterator closure closure closure = None /\
  initial_medial_final RandomAccess (Pointer string) closure closure closure = None /\
  initial_medial_final RandomAccess (Pointer Builtin) closure closure closure = Some (Class Stdx [closure; closure; closure]).
Proof.
  split; [|split; [|split; [|repeat split]]].
  - apply (argument_of_std _ _ (Class Std [Builtin])); [right; left; reflexivity|constructor].
  - intros H. inversion H as [ | |t H1| | ]. inversion H1.
  - intros H. inversion H as [ | | | |n args a H1 H2]. destruct H1.
Qed.

(** cartesian_product_copy and cartesian_product give the documented tuple of tuples exactly if no element
    that is used has to do with namespace std, and otherwise do not compile. The elements used are those of
    the tuples with no empty tuple behind them. *)
Theorem C132_cartesian_exactly :
  forall ts,
  ((forall e, In e (used ts) -> ~ from_std e) ->
     cartesian_product_copy ts = Some (tuple_of_tuples (combinations (map (map value_type) ts))) /\
     cartesian_product ts = Some (tuple_of_tuples (combinations (map (map reference_type) ts)))) /\
  ((exists e, In e (used ts) /\ from_std e) ->
     cartesian_product_copy ts = None /\ cartesian_product ts = None).
Proof.
  intros ts. split; [intros H; split|intros (e & H & F); split].
  - apply (product_ok make_tuple value_type copy_one_ok from_std_value). exact H.
  - apply (product_ok forward_as_tuple reference_type forward_one_ok from_std_reference). exact H.
  - apply (product_no make_tuple value_type copy_one_ok copy_one_no from_std_value ts e H F).
  - apply (product_no forward_as_tuple reference_type forward_one_ok forward_one_no from_std_reference ts e H F).
Qed.
Print Assumptions C132_cartesian_exactly.
(** In particular tuples without such elements... *)
Theorem C132_cartesian_partial :
  forall ts, (forall t e, In t ts -> In e t -> ~ from_std e) ->
  cartesian_product_copy ts = Some (tuple_of_tuples (combinations (map (map value_type) ts))) /\
  cartesian_product ts = Some (tuple_of_tuples (combinations (map (map reference_type) ts))).
Proof.
  intros ts H. apply C132_cartesian_exactly. intros e He. destruct (used_some ts e He) as (t & H1 & H2). exact (H t e H1 H2).
Qed.
Print Assumptions C132_cartesian_partial.
(** ...and tuples that are not empty, one element of which is of such a type. *)
Theorem C132_cartesian_refuted :
  forall ts t e, (forall u, In u ts -> u <> []) -> In t ts -> In e t -> from_std e ->
  cartesian_product_copy ts = None /\ cartesian_product ts = None.
Proof.
  intros ts t e N Ht He F. apply C132_cartesian_exactly. exists e. split; [|exact F].
  rewrite (used_all ts N). apply in_concat. exists t. split; assumption.
Qed.
Print Assumptions C132_cartesian_refuted.

Example C132_cartesian_nonvacuous :
  cartesian_product_copy [[Builtin; closure]; [Ref Builtin]]
    = Some (Class Stdx [Class Stdx [Builtin; Builtin]; Class Stdx [closure; Builtin]]) /\
  cartesian_product [[Builtin]; [closure]] = Some (Class Stdx [Class Stdx [Ref Builtin; Ref closure]]) /\
  cartesian_product_copy [[Builtin]; [closure; string]] = None /\
  cartesian_product [[Class Std []]] = None /\
  cartesian_product [[string]; []] = Some (Class Stdx []) /\
  cartesian_product [[]; [string]] = None.
Proof. repeat split. Qed.

(** to_underlying as the library calls it: the underlying type of every enumeration, up to C++20; *)
Theorem C132_to_underlying_partial :
  (forall n u, to_underlying false (Enum n u) = Some u) /\
  (forall cxx23 n u, n <> Std -> to_underlying cxx23 (Enum n u) = Some u) /\
  (forall cxx23 t, (forall n u, t <> Enum n u) -> to_underlying cxx23 t = Some t).
Proof.
  split; [|split].
  - intros n u. unfold to_underlying, resolve. cbn [andb]. rewrite Bool.andb_false_r. reflexivity.
  - intros b n u N. unfold to_underlying. rewrite found_not; [reflexivity|].
    intros a [<-|[]] F. inversion F. congruence.
  - intros b t H. assert (E : is_enum t = false) by (destruct t; try reflexivity; exfalso; exact (H _ _ eq_refl)).
    unfold to_underlying, resolve. rewrite E, Bool.andb_false_r, Bool.andb_false_r.
    destruct t; try reflexivity. exfalso. exact (H _ _ eq_refl).
Qed.
Print Assumptions C132_to_underlying_partial.
(** from C++23 on, not for enumerations of namespace std. *)
Theorem C132_to_underlying_refuted : forall u, to_underlying true (Enum Std u) = None.
Proof. reflexivity. Qed.
Print Assumptions C132_to_underlying_refuted.

Example C132_to_underlying_nonvacuous :
  to_underlying false byte = Some Builtin /\ to_underlying true (Enum User Builtin) = Some Builtin /\
  to_underlying true closure = Some closure /\ to_underlying true byte = None.
Proof. repeat split. Qed.
