(** C111: which arguments ct_format formats at compile time, and as what. *)
From Verif Require Import Base CtStringModel CtFormatModel FmtArgModel FmtArgSpec.

Section Props.
Variable enum_name : nat -> Z -> list N.
Variable type_name : nat -> list N.
Variable ct_format_as : nat -> thing.
Notation kind := (FmtArgModel.kind enum_name type_name).
Notation arg_value := (FmtArgModel.arg_value enum_name type_name).

Lemma arg_value_ct x d : compile_time enum_name type_name x d -> arg_value x = Some (V d).
Proof. induction 1; cbn; try reflexivity. rewrite IHcompile_time. reflexivity. Qed.
Lemma arg_value_splice x r : splice x r -> kind x = ARes r /\ arg_value (Cx x) = Some (VRes r).
Proof.
  induction 1 as [k args named|x r H [IH1 IH2]].
  - destruct k as [s|s], args as [|a args]; split; reflexivity.
  - split; [|cbn [FmtArgModel.arg_value] in *; rewrite IH2; reflexivity].
    unfold FmtArgModel.kind. rewrite IH2. reflexivity.
Qed.

(** Each kind of argument is taken as the documentation says, through any number of wrappers. *)
Theorem C111_kinds :
  (forall x d, compile_time enum_name type_name x d -> kind x = ACt d) /\
  (forall x r, splice x r -> kind x = ARes r) /\
  (forall x, runtime x -> kind x = ARt x).
Proof.
  repeat split.
  - intros x d H. unfold FmtArgModel.kind. rewrite (arg_value_ct x d H). reflexivity.
  - intros x r H. apply (arg_value_splice x r H).
  - intros x H. destruct H; reflexivity.
Qed.

(** These are all the arguments but objects of types with ct_format_as, wrapped or not. *)
Theorem C111_all : forall x,
  (exists d, compile_time enum_name type_name x d) \/ (exists r, splice x r) \/ runtime x \/ (exists c, innermost x = Custom c).
Proof.
  induction x as [z|s|e z|c|z|e z|t|k|k args named|x IH]; try (right; right; left; constructor).
  - right; right; right. exists c. reflexivity.
  - left. eexists. constructor.
  - left. eexists. constructor.
  - left. eexists. constructor.
  - left. destruct k; eexists; constructor.
  - right; left. eexists. constructor.
  - destruct IH as [[d H]|[[r H]|[H|[c H]]]].
    + left. exists d. now constructor.
    + right; left. exists r. now constructor.
    + left. destruct H; eexists; constructor.
    + right; right; right. exists c. exact H.
Qed.

Lemma wrapped_some x : arg_value (Cx x) <> None.
Proof.
  induction x as [| | | | | | |[]|k args named|x IH]; try (cbn; discriminate).
  - cbn. destruct k, args; discriminate.
  - change (arg_value (Cx (Cx x))) with (match arg_value (Cx x) with Some v => Some v | None => None end).
    destruct (arg_value (Cx x)); [discriminate|congruence].
Qed.
(** Wrapping again changes nothing. *)
Theorem C111_wrap_again : forall x, kind (Cx (Cx x)) = kind (Cx x).
Proof.
  intros x. pose proof (wrapped_some x) as H. unfold FmtArgModel.kind.
  change (arg_value (Cx (Cx x))) with (match arg_value (Cx x) with Some v => Some v | None => None end).
  destruct (arg_value (Cx x)); [reflexivity|congruence].
Qed.

(** An object of a type with ct_format_as is formatted as what that function gives. *)
Theorem C111_custom : forall fmt1 typed fmt xs c ys,
  (forall c', ct_format_as c <> Custom c') ->
  FmtArgModel.ct_format enum_name type_name ct_format_as fmt1 typed fmt (xs ++ Custom c :: ys) =
  FmtArgModel.ct_format enum_name type_name ct_format_as fmt1 typed fmt (xs ++ ct_format_as c :: ys).
Proof.
  intros fmt1 typed fmt xs c ys H. unfold FmtArgModel.ct_format. rewrite !map_app. cbn [map].
  assert (format_as ct_format_as (ct_format_as c) = ct_format_as c) as -> by (destruct (ct_format_as c) eqn:E; try reflexivity; edestruct H; eauto).
  reflexivity.
Qed.

(** Which string type a result has makes no difference when it is formatted again, wrapped or not. *)
Theorem C111_output_types : forall k k' args named,
  chars k = chars k' ->
  kind (Res k args named) = kind (Res k' args named) /\ kind (Cx (Res k args named)) = kind (Cx (Res k' args named)) /\
  kind (Cx (Res k args named)) = kind (Res k args named).
Proof.
  intros k k' args named E.
  assert (forall k, kind (Res k args named) = ARes (mk_result (chars k) args named)) as A by (intros; apply arg_value_splice; constructor).
  assert (forall k, kind (Cx (Res k args named)) = ARes (mk_result (chars k) args named)) as B by (intros; apply arg_value_splice; repeat constructor).
  rewrite !A, !B, E. auto.
Qed.

(** Formatting with "{}", in a formatter that leaves strings as they are, gives the same characters, runtime
    arguments and named arguments. *)
Theorem C111_collapse : forall fmt1 typed k args named,
  (forall s, fmt1 [123; 125]%N (DText s) = Some s) ->
  FmtArgModel.ct_format enum_name type_name ct_format_as fmt1 typed [123; 125]%N [Res k args named] =
  Some (Res (if typed then StrType (chars k) else Cts (chars k)) args named).
Proof.
  intros fmt1 typed k args named HF. unfold FmtArgModel.ct_format. cbn [map format_as].
  assert (kind (Res k args named) = ARes (mk_result (chars k) args named)) as -> by (apply arg_value_splice; constructor).
  unfold CtFormatModel.ct_format.
  assert (count_specifiers [123; 125]%N = Some 1%N) as -> by (vm_compute; reflexivity).
  assert (split_specifiers (1 + 1) [123; 125]%N = Some [mk_split [123; 125]%N 0%N; mk_split [] 0%N]) as -> by (vm_compute; reflexivity).
  change (1 =? len [ARes (V := datum) (mk_result (chars k) args named)])%N with true. cbn [format_all].
  unfold format_piece. cbn [sp_view sp_start].
  assert (extract_format1_str [123; 125]%N 0%N = Some ([123; 125]%N, [])) as -> by (vm_compute; reflexivity).
  cbn [fst snd format1 r_str]. rewrite HF. cbn. rewrite !app_nil_r.
  assert (forall l, map (apply_offset 0 0) l = l) as M.
  { induction l as [|[n b e] l IH]; [reflexivity|]. cbn. rewrite IH. unfold apply_offset, is_runtime; cbn. destruct (e <? b)%Z; cbn; rewrite !Z.add_0_r; reflexivity. }
  rewrite M. destruct typed; reflexivity.
Qed.

(** A wrapped object of a type with ct_format_as is given to fmt as it is: the function is not used. *)
Theorem C111_wrapped_custom_refuted : forall c, kind (format_as ct_format_as (Cx (Custom c))) = ACt (DCustom c).
Proof. reflexivity. Qed.
(** And a result with a string type is not a compile-time value: unary + does not give its string, although
    it has no runtime arguments. *)
Theorem C111_plus : forall k named,
  (plus_res (Res k [] named) = Some (chars k) <-> exists s, k = Cts s) /\
  (forall a args, plus_res (Res k (a :: args) named) = None).
Proof.
  intros [s|s] named; cbn; (split; [split|]); intros; try reflexivity; try discriminate; eauto.
  destruct H; discriminate.
Qed.
End Props.
(** Non-vacuity: "a{}b{}" with CX_VALUE(7) and 9, and the result in "{}!". *)
Local Definition f1 (s : list N) (d : datum) : option (list N) :=
  match d with DText t => Some (firstn (length s - 2) s ++ t) | DNum z => Some (firstn (length s - 2) s ++ [Z.to_N (48 + z)]) | DCustom _ => None end.
Example formats : FmtArgModel.ct_format (fun _ _ => [101%N]) (fun _ => [116%N]) (fun c => Num 0) f1 false [97; 123; 125; 98; 123; 125]%N [Cx (Num 7); Num 9]
  = Some (Res (Cts [97; 55; 98; 123; 125]%N) [Num 9] []).
Proof. vm_compute. reflexivity. Qed.
Example formats_again : FmtArgModel.ct_format (fun _ _ => [101%N]) (fun _ => [116%N]) (fun c => Num 0) f1 true [123; 125; 33]%N [Cx (Res (StrType [97; 55; 98; 123; 125]%N) [Num 9] [])]
  = Some (Res (StrType [97; 55; 98; 123; 125; 33]%N) [Num 9] []).
Proof. vm_compute. reflexivity. Qed.
Example kinds_met : compile_time (fun _ _ => [101%N]) (fun _ => [116%N]) (Cx (Cx (EnumV 0 1))) (DText [101%N]) /\
  splice (Cx (Cx (Res (Cts [97%N]) [Num 1] []))) (mk_result [97%N] [Num 1] []) /\ runtime (EnumV 0 1).
Proof. repeat constructor. Qed.
Print Assumptions C111_kinds.
Print Assumptions C111_all.
Print Assumptions C111_wrap_again.
Print Assumptions C111_custom.
Print Assumptions C111_output_types.
Print Assumptions C111_collapse.
Print Assumptions C111_wrapped_custom_refuted.
Print Assumptions C111_plus.
