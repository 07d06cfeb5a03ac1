(** * Properties C34 to C36: compile-time formatting *)
From Verif Require Import Base BaseLemmas CtStringModel CtStringProofs UdlSpec FmtModel FmtSpec FmtProofs CtFormatModel CtFormatSpec CtFormatProofs CtFormatProofs2 FreeFmt.
Open Scope N_scope.

(** ** C34 *)
(** Any format string: the pieces concatenate to the original, and there is one more than counted
    specifiers. *)
Theorem C34_lossless : forall s, exists n ps,
  count_specifiers s = Some n /\ split_specifiers (n + 1) s = Some ps /\ len ps = n + 1 /\ flat_map sp_view ps = s.
Proof. exact split_lossless. Qed.
Print Assumptions C34_lossless.
(** A well-formed format string: the specifiers are counted, and each piece is the literal text
    before one specifier, then that specifier, its position recorded; the last piece is the rest. *)
Theorem C34_pieces : forall l, Forall item_ok l ->
  count_specifiers (fmt_text l) = Some (specs l) /\
  split_specifiers (specs l + 1) (fmt_text l) =
    Some (map (fun '(lit, (name, opts)) => mk_split (fmt_text lit ++ item_text (Spec name opts)) (len (fmt_text lit))) (fst (cut l))
          ++ [mk_split (fmt_text (snd (cut l))) (len (fmt_text (snd (cut l))))]).
Proof.
  intros l H. destruct (split_ok l H) as (H1 & H2). split; [exact H1|]. rewrite H2. unfold pieces_of. f_equal. f_equal. apply map_ext. intros (lit & name & opts). reflexivity.
Qed.
Print Assumptions C34_pieces.
(** [cut] takes a sequence of items apart at its specifiers and nowhere else. *)
Theorem C34_cut : forall l, flat_map (fun '(lit, (name, opts)) => lit ++ [Spec name opts]) (fst (cut l)) ++ snd (cut l) = l /\
  Forall (fun x => forallb (fun i => negb (is_spec i)) (fst x) = true) (fst (cut l)) /\ forallb (fun i => negb (is_spec i)) (snd (cut l)) = true.
Proof. exact cut_sound. Qed.
Print Assumptions C34_cut.
(** "a{{ {x:#} b{}}" *)
Example C34_pieces_example : exists l, Forall item_ok l /\ fmt_text l = [97; 123; 123; 32; 123; 120; 58; 35; 125; 32; 98; 123; 125; 125] /\ specs l = 2 /\
  split_specifiers 3 (fmt_text l) = Some [mk_split [97; 123; 123; 32; 123; 120; 58; 35; 125] 4; mk_split [32; 98; 123; 125] 2; mk_split [125] 1].
Proof.
  exists [Ch 97; Esc; Ch 32; Spec [120] (Some [35]); Ch 32; Ch 98; Spec [] None; Ch 125]. split; [|repeat split; vm_compute; reflexivity].
  repeat constructor; cbn; try discriminate; intuition discriminate.
Qed.
(** Formatting: the result is the literal text and the texts of the compile-time arguments in
    order, with the specifiers of runtime arguments kept, and the runtime arguments in order.
    [text] says what a formatter writes for a value; literal text satisfying [P] it leaves as is. *)
Theorem C34_format : forall V X text of_str fmt1 P l args segs,
  @verbatim V text fmt1 P -> Forall item_ok l -> Forall (fun x => P (fmt_text (fst x))) (fst (cut l)) ->
  @formats V X text of_str (fst (cut l)) args segs ->
  exists r, ct_format fmt1 of_str (fmt_text l) args = Some r /\
    r_str r = text_of segs ++ fmt_text (snd (cut l)) /\ r_args r = args_of segs.
Proof.
  intros V X text of_str fmt1 P l args segs Hv Hok HP F. destruct (ct_format_ok text of_str fmt1 P l args segs Hv Hok HP F) as (r & E & (M1 & M2 & _)).
  exists r. split; [exact E|]. rewrite M1, M2, text_of_app, args_of_app. cbn [text_of args_of flat_map seg_text seg_args]. rewrite !app_nil_r. auto.
Qed.
Print Assumptions C34_format.
(** The freestanding formatter writes every literal text without an opening brace as it is. *)
Theorem C34_freestanding : verbatim free_text free_fmt1 (fun lit => ~ In 123 lit).
Proof. exact free_verbatim. Qed.
Print Assumptions C34_freestanding.
(** "{a} is {}{:x}!" with the compile-time values -12 and 255 and one runtime value between them. *)
Example C34_format_example : exists l args segs, Forall item_ok l /\ Forall (fun x => ~ In 123 (fmt_text (fst x))) (fst (cut l)) /\ @formats value nat free_text VRange (fst (cut l)) args segs /\
  ct_format free_fmt1 VRange (fmt_text l) args = Some (mk_result [45; 49; 50; 32; 123; 125; 102; 102; 33] [7%nat] [mk_named [97] 0 3]).
Proof.
  exists [Spec [97] None; Ch 32; Spec [] None; Spec [] (Some [120]); Ch 33], [ACt (VInt (IInt true 32) (-12)); ARt 7%nat; ACt (VInt (IInt false 8) 255)].
  eexists. split; [repeat constructor; cbn; try discriminate; intuition discriminate|]. split; [cbn; repeat constructor; cbn; intuition discriminate|].
  split; [|vm_compute; reflexivity]. cbn [cut fst snd]. econstructor.
  - exists [45; 49; 50]. split; [|reflexivity]. cbn [free_text FmtSpec.text has_width]. split; [split; [lia|cbn; lia]|]. exists [1; 2]. repeat split; [repeat constructor|right; exists 1, [2]; split; [reflexivity|discriminate]].
  - econstructor; [reflexivity|]. econstructor; [|constructor].
    exists [102; 102]. split; [|reflexivity]. cbn [free_text FmtSpec.text has_width]. split; [split; [lia|cbn; lia]|]. exists [15; 15]. repeat split; [repeat constructor|right; exists 15, [15]; split; [reflexivity|discriminate]].
Qed.
(** A wrong number of arguments does not compile. *)
Theorem C34_arity : forall V X fmt1 of_str l (args : list (arg V X)), Forall item_ok l -> len args <> specs l -> ct_format fmt1 of_str (fmt_text l) args = None.
Proof. intros V X fmt1 of_str. exact (ct_format_arity of_str fmt1). Qed.
Print Assumptions C34_arity.
(** Not every piece ends in a specifier when braces are nested in one ("{:{}}"): two specifiers are
    counted, only one piece has one, and no arguments compile. *)
Theorem C34_nested_refuted : forall V X fmt1 of_str a b tail (args : list (arg V X)), a <> [] -> plain a -> plain b -> ~ In 123 tail ->
  ct_format fmt1 of_str (123 :: a ++ 123 :: b ++ 125 :: tail) args = None.
Proof. intros V X fmt1 of_str. exact (nested_refused (fun _ _ _ => True) of_str fmt1 (fun _ => True)). Qed.
Print Assumptions C34_nested_refuted.
Example C34_nested_example : count_specifiers [123; 58; 123; 125; 125] = Some 2 /\ split_specifiers 3 [123; 58; 123; 125; 125] = Some [mk_split [123; 58; 123; 125] 0; mk_split [125] 1; mk_split [] 0].
Proof. split; vm_compute; reflexivity. Qed.

(** ** C35 *)
(** Every entry of the named arguments: the recorded span is the text of that argument, or the
    recorded index is the position of that runtime argument; and every named argument has one. *)
Theorem C35_named : forall V X text of_str fmt1 P l args segs,
  @verbatim V text fmt1 P -> Forall item_ok l -> Forall (fun x => P (fmt_text (fst x))) (fst (cut l)) ->
  @formats V X text of_str (fst (cut l)) args segs ->
  exists r, ct_format fmt1 of_str (fmt_text l) args = Some r /\
    (forall a, In a (r_named r) ->
      (is_runtime a = false /\ exists t, In (NamedText (na_name a) t) segs /\ part (r_str r) (na_begin a) (na_end a) = t) \/
      (is_runtime a = true /\ exists t x, In (Runtime (na_name a) t x) segs /\ rd (r_args r) (Z.to_N (na_begin a)) = Some x)) /\
    (forall n t, In (NamedText n t) segs -> exists a, In a (r_named r) /\ is_runtime a = false /\ na_name a = n /\ part (r_str r) (na_begin a) (na_end a) = t) /\
    (forall n t x, In (Runtime n t x) segs -> n <> [] -> exists a, In a (r_named r) /\ is_runtime a = true /\ na_name a = n /\ rd (r_args r) (Z.to_N (na_begin a)) = Some x).
Proof.
  intros V X text of_str fmt1 P l args segs Hv Hok HP F. destruct (ct_format_ok text of_str fmt1 P l args segs Hv Hok HP F) as (r & E & M).
  exists r. split; [exact E|]. exact (named_all r segs _ M).
Qed.
Print Assumptions C35_named.
(** The entries come in the order of the arguments: exactly the segments' names and positions. *)
Theorem C35_named_order : forall V X text of_str fmt1 P l args segs,
  @verbatim V text fmt1 P -> Forall item_ok l -> Forall (fun x => P (fmt_text (fst x))) (fst (cut l)) ->
  @formats V X text of_str (fst (cut l)) args segs ->
  exists r, ct_format fmt1 of_str (fmt_text l) args = Some r /\ r_named r = named_of 0 0 segs.
Proof.
  intros V X text of_str fmt1 P l args segs Hv Hok HP F. destruct (ct_format_ok text of_str fmt1 P l args segs Hv Hok HP F) as (r & E & (_ & _ & M)).
  exists r. split; [exact E|]. rewrite M, named_of_app. cbn [named_of]. rewrite !app_nil_r. reflexivity.
Qed.
Print Assumptions C35_named_order.
(** A nested result: "{b}" formatted with 5, inside "x{}y{c}" with a runtime argument. *)
Example C35_example : let inner := mk_result [53] [] [mk_named [98] 0 1] in
  ct_format free_fmt1 VRange (fmt_text [Ch 120; Spec [] None; Ch 121; Spec [99] None]) [@ARes value nat inner; ARt 3%nat]
    = Some (mk_result [120; 53; 121; 123; 125] [3%nat] [mk_named [98] 1 2; mk_named [99] 0 (-1)]) /\ made_of inner [NamedText [98] [53]].
Proof. split; [vm_compute; reflexivity|]. repeat split. Qed.
(** Putting results and strings together: the arguments follow one another, and the spans and
    positions move with their text and arguments. *)
Theorem C35_concatenation : forall X (r1 r2 : result X) s l1 l2, made_of r1 l1 -> made_of r2 l2 ->
  made_of (plus r1 r2) (l1 ++ l2) /\ made_of (plus_str r1 s) (l1 ++ [Plain s]) /\ made_of (str_plus s r1) (Plain s :: l1).
Proof. exact @made_of_concatenation. Qed.
Print Assumptions C35_concatenation.
(** "x" + "{b}" of 5 and a runtime argument named c: the span of b moves, the position of c does not. *)
Example C35_concatenation_example : made_of (str_plus [120] (mk_result [53; 123; 125] [3%nat] [mk_named [98] 0 1; mk_named [99] 0 (-1)])) [Plain [120]; NamedText [98] [53]; Runtime [99] [123; 125] 3%nat] /\
  r_named (str_plus [120] (mk_result [53; 123; 125] [3%nat] [mk_named [98] 0 1; mk_named [99] 0 (-1)])) = [mk_named [98] 1 2; mk_named [99] 0 (-1)].
Proof. repeat split. Qed.
(** With a formatter that undoes the escape "{{" in the literal text, the recorded beginning is
    off by one for each escape before the specifier: the span is not the text of the argument. *)
Theorem C35_escape_refuted : forall V X (text : option (list N) -> V -> list N -> Prop) of_str fmt1 lit name opts v t,
  (forall l o v t, text o v t -> fmt1 (l ++ bare o) v = Some (unescaped l ++ t)) ->
  Forall item_ok (lit ++ [Spec name opts]) -> Forall (fun i => match i with Ch c => c <> 125 | Esc => True | Spec _ _ => False end) lit -> In Esc lit ->
  name <> [] -> text opts v t -> t <> [] ->
  exists r a, @ct_format V X fmt1 of_str (fmt_text (lit ++ [Spec name opts])) [ACt v] = Some r /\ r_str r = unescaped (fmt_text lit) ++ t /\ r_named r = [a] /\
    na_begin a = (Z.of_N (len (unescaped (fmt_text lit))) + Z.of_N (len (filter (fun i => match i with Esc => true | _ => false end) lit)))%Z /\
    part (r_str r) (na_begin a) (na_end a) <> t.
Proof. exact escape_refuted. Qed.
Print Assumptions C35_escape_refuted.
(** "{{{a}" with a value written as "7": the result is "{7", the recorded span is [2, 2). *)
Example C35_escape_example : let text := fun o (_ : unit) t => o = None /\ t = [55] in
  let fmt1 := fun s (_ : unit) => Some (unescaped (firstn (length s - 2) s) ++ [55]) in
  (forall l o v t, text o v t -> fmt1 (l ++ bare o) v = Some (unescaped l ++ t)) /\ Forall item_ok ([Esc] ++ [Spec [97] None]) /\
  @ct_format unit nat fmt1 (fun _ => tt) (fmt_text ([Esc] ++ [Spec [97] None])) [ACt tt] = Some (mk_result [123; 55] [] [mk_named [97] 2 2]).
Proof.
  cbv zeta. split; [|split; [repeat constructor; cbn; try discriminate; intuition discriminate|vm_compute; reflexivity]].
  intros l o v t (-> & ->). unfold bare. cbn [opts_text app]. rewrite app_length. cbn [length]. replace (length l + 2 - 2)%nat with (length l) by lia. rewrite firstn_app, firstn_all, Nat.sub_diag. cbn [firstn]. rewrite app_nil_r. reflexivity.
Qed.

(** ** C36 *)
(** The freestanding formatter: formatted_size is the number of characters written, which are the
    literal text before, the text of the value, and the literal text after; the string stays
    NUL-terminated. *)
Theorem C36_format : forall pre hex post v s, ~ In 123 pre -> ~ In 0 post -> FmtSpec.text (spec_base hex) v s ->
  formatted_size (pre ++ spec_text hex ++ post ++ [0]) v = Some (len (pre ++ s ++ post)) /\
  fmt_format (pre ++ spec_text hex ++ post ++ [0]) v = Some (pre ++ s ++ post ++ [0]).
Proof. exact fmt_ok. Qed.
Print Assumptions C36_format.
(** Every integer of every width has such a text, and only one. *)
Theorem C36_numerals : forall hex t z, has_width t z -> exists s, FmtSpec.text (spec_base hex) (VInt t z) s /\ forall s', FmtSpec.text (spec_base hex) (VInt t z) s' -> s' = s.
Proof. exact numerals. Qed.
Print Assumptions C36_numerals.
(** The most negative 8-bit integer in hexadecimal: "<{:x}>" *)
Example C36_example : has_width (IInt true 8) (-128) /\ fmt_format [60; 123; 58; 120; 125; 62; 0] (VInt (IInt true 8) (-128)) = Some [60; 45; 56; 48; 62; 0] /\
  fmt_format [123; 125; 0] (VInt (IInt false 64) 18446744073709551615) = Some [49; 56; 52; 52; 54; 55; 52; 52; 48; 55; 51; 55; 48; 57; 53; 53; 49; 54; 49; 53; 0].
Proof. split; [split; [lia|cbn; lia]|]. split; vm_compute; reflexivity. Qed.
(** Anything but {} and {:x} is refused. *)
Theorem C36_refuses : forall pre t v, ~ In 123 pre -> (forall r, t <> 125 :: r) -> (forall r, t <> 58 :: 120 :: 125 :: r) -> fmt_format (pre ++ 123 :: t) v = None.
Proof. exact fmt_refuses. Qed.
Print Assumptions C36_refuses.
(** Two exceptions.  true is never formatted: the loop divides by static_cast<bool>(10), however
    long it runs. *)
Theorem C36_bool_refuted : forall hex fuel, value_size fuel (mk_spec (len (spec_text hex)) (Z.of_N (spec_base hex))) (VInt IBool 1) = None.
Proof. intros hex fuel. unfold value_size. change (1 =? 0)%Z with false. cbv iota. apply bool_diverges. destruct hex; discriminate. Qed.
Print Assumptions C36_bool_refuted.
(** A NUL after the specifier ends the copy: the rest of the string stays zero. *)
Theorem C36_nul_refuted : forall pre hex p q v s, ~ In 123 pre -> ~ In 0 p -> FmtSpec.text (spec_base hex) v s ->
  fmt_format (pre ++ spec_text hex ++ (p ++ 0 :: q) ++ [0]) v = Some (pre ++ s ++ p ++ repeat 0 (length q + 2)).
Proof. exact fmt_nul. Qed.
Print Assumptions C36_nul_refuted.
Example C36_nul_example : fmt_format [123; 125; 97; 0; 98; 0] (VInt (IInt true 32) 7) = Some [55; 97; 0; 0; 0].
Proof. vm_compute. reflexivity. Qed.
