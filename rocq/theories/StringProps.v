(** * Properties C32 and C33: compile-time strings and literals *)
From Verif Require Import Base BaseLemmas CtStringModel CtStringSpec CtStringProofs UdlModel UdlSpec UdlProofs.
Open Scope N_scope.

(** ** C32 *)
(** The concatenation has the characters of both in order and is NUL-terminated. *)
Theorem C32_concat : forall a b, good a -> good b -> exists s, concat a b = Some s /\ view s = view a ++ view b /\ exists l, s = l ++ [0].
Proof. intros a b Ha Hb. exists ((view a ++ view b) ++ [0]). split; [exact (concat_ok a b Ha Hb)|]. split; [apply view_app|eexists; reflexivity]. Qed.
Print Assumptions C32_concat.
(** It is associative, and "" is a unit on both sides. *)
Theorem C32_concat_monoid : forall a b c, good a -> good b -> good c ->
  (exists ab bc abc, concat a b = Some ab /\ concat b c = Some bc /\ concat ab c = Some abc /\ concat a bc = Some abc) /\
  (exists x y, concat a [0] = Some x /\ concat [0] a = Some y /\ equal x a = true /\ equal y a = true).
Proof.
  intros a b c Ha Hb Hc. assert (G : forall l : list N, good (l ++ [0])) by (intros l E; destruct l; discriminate). split.
  - exists ((view a ++ view b) ++ [0]), ((view b ++ view c) ++ [0]), ((view a ++ view b ++ view c) ++ [0]). rewrite !concat_ok by auto. rewrite !view_app, <- !app_assoc. auto.
  - exists (view a ++ [0]), (view a ++ [0]). assert (good [0]) by discriminate. rewrite !concat_ok by auto. change (view [0]) with (@nil N). rewrite app_nil_r. repeat split; apply chars_eq_ok, view_app.
Qed.
Print Assumptions C32_concat_monoid.
Example C32_concat_example : concat [97; 0; 98; 0] [99; 0] = Some [97; 0; 98; 99; 0] /\ good [97; 0; 98; 0].
Proof. split; [vm_compute; reflexivity|discriminate]. Qed.
(** Strings are equal when they have the same characters; size, iteration and reverse iteration see
    the characters without the terminator. *)
Theorem C32_characters : forall a b, good a -> good b ->
  (equal a b = true <-> view a = view b) /\ size a = len (view a) /\ (empty a = true <-> view a = []) /\ reversed a = rev (view a) /\ (forall c, view (view a ++ [c]) = view a).
Proof.
  intros a b Ha Hb. split; [apply chars_eq_ok|]. split; [apply size_view|]. split; [|split; [apply reversed_ok; exact Ha|intros c; apply view_app]].
  unfold empty. rewrite N.eqb_eq. destruct (good_app a Ha) as (c & E). assert (L : len a = len (view a) + 1) by (rewrite E at 1; rewrite len_app; reflexivity).
  rewrite L. destruct (view a) as [|x l]; [change (len (@nil N)) with 0; split; [reflexivity|lia]|]. rewrite len_cons. split; [lia|discriminate].
Qed.
Print Assumptions C32_characters.
(** A string constructed from a pointer and a size. *)
Theorem C32_from_pointer : forall p n, n <= len p -> exists s, of_ptr (n + 1) p n = Some s /\ good s /\ view s = firstn (N.to_nat n) p.
Proof. intros p n H. eexists. split; [apply of_ptr_ok; exact H|]. split; [intros E; destruct (firstn (N.to_nat n) p); discriminate|apply view_app]. Qed.
Print Assumptions C32_from_pointer.
(** split: the parts around the first occurrence. *)
Theorem C32_split : forall c cs, In c cs -> exists a b, split c (cs ++ [0]) = Some (a ++ [0], b ++ [0]) /\ cs = a ++ [c] ++ b /\ ~ In c a.
Proof.
  intros c cs H. destruct (in_split_first c cs H) as (a & b & -> & Hn). exists a, b. split; [|split; [reflexivity|exact Hn]]. rewrite <- app_assoc. cbn [app]. apply split_present. exact Hn.
Qed.
Print Assumptions C32_split.
(** split of a character that is not there. *)
Theorem C32_split_absent : forall c cs, ~ In c cs -> c <> 0 -> split c (cs ++ [0]) = Some (cs ++ [0], [0]).
Proof. intros c cs H H0. apply split_absent. intros Hi. apply in_app_or in Hi as [Hi|[Hi|[]]]; [contradiction|congruence]. Qed.
Print Assumptions C32_split_absent.
Example C32_split_example : split 46 [97; 46; 98; 46; 99; 0] = Some ([97; 0], [98; 46; 99; 0]) /\ split 46 [97; 0] = Some ([97; 0], [0]) /\ In 46 [97; 46; 98].
Proof. split; [vm_compute; reflexivity|]. split; [vm_compute; reflexivity|cbn; auto]. Qed.
(** Splitting at NUL a string without one is not (S, ""): it does not compile, because the
    terminator is found. *)
Theorem C32_split_nul_refuted : forall cs, ~ In 0 cs -> split 0 (cs ++ [0]) = None.
Proof. exact (split_terminator 0). Qed.
Print Assumptions C32_split_nul_refuted.
(** Types of characters and strings convert both ways. *)
Theorem C32_types : (forall cs, to_type (from_type cs) = Some cs) /\ (forall s, good s -> exists cs, to_type s = Some cs /\ equal (from_type cs) s = true).
Proof.
  split.
  - intros cs. unfold from_type. rewrite to_type_ok by (intros E; destruct cs; discriminate). rewrite view_app. reflexivity.
  - intros s H. exists (view s). split; [apply to_type_ok; exact H|]. apply chars_eq_ok. apply view_app.
Qed.
Print Assumptions C32_types.

(** ** C33 *)
(** A literal that fits denotes its positional value, in all four bases, with separators anywhere
    and either case. *)
Theorem C33_literal : forall w b l, well_formed b l -> positional (radix b) (digits l) < 2 ^ w ->
  parse_literal w (text b l) = Some (positional (radix b) (digits l)).
Proof. exact parse_fits. Qed.
Print Assumptions C33_literal.
(** 0xFf'00 *)
Example C33_literal_example : exists b l, well_formed b l /\ text b l = [48; 120; 70; 102; 39; 48; 48] /\ parse_literal 32 (text b l) = Some 65280.
Proof. exists (Hex false), [Dig 15 true; Dig 15 false; Sep; Dig 0 false; Dig 0 true]. split; [split; [repeat constructor|exact I]|]. split; vm_compute; reflexivity. Qed.
(** A literal that does not fit is accepted with a smaller value. *)
Theorem C33_overflow_refuted : forall w b l, well_formed b l -> 2 ^ w <= positional (radix b) (digits l) ->
  exists v, parse_literal w (text b l) = Some v /\ v < positional (radix b) (digits l) /\ v = positional (radix b) (digits l) mod 2 ^ w.
Proof.
  intros w b l H Hge. destruct (parse_overflows w b l H Hge) as (v & E & Hlt). exists v. split; [exact E|]. split; [exact Hlt|]. rewrite parse_ok in E by exact H. congruence.
Qed.
Print Assumptions C33_overflow_refuted.
Example C33_overflow_example : parse_literal 32 (text Decimal [Dig 4 false; Dig 2 false; Dig 9 false; Dig 4 false; Dig 9 false; Dig 6 false; Dig 7 false; Dig 2 false; Dig 9 false; Dig 6 false]) = Some 0.
Proof. vm_compute. reflexivity. Qed.
(** A character that is no digit of the base is refused. *)
Theorem C33_rejects : forall w b cs c, own_prefix b cs -> c < 256 -> In c cs -> ~ allowed b c -> parse_literal w (prefix b ++ cs) = None.
Proof. exact parse_rejects. Qed.
Print Assumptions C33_rejects.
(** 0792 *)
Example C33_rejects_example : own_prefix Octal [55; 57; 50] /\ ~ allowed Octal 57 /\ parse_literal 32 [48; 55; 57; 50] = None.
Proof.
  split; [intros H; cbn in H; intuition discriminate|]. split; [|vm_compute; reflexivity]. intros (i & Hi & Hb). destruct i as [d u|]; [|discriminate]. unfold below in Hb. cbn in Hb. inversion Hb; subst.
  cbn [item_char] in Hi. destruct (N.ltb_spec d 10); lia.
Qed.
(** The unit literals multiply, when the product fits in 64 bits. *)
Theorem C33_units : forall n,
  (n * 1000 < 2 ^ 64 -> k_literal n = n * 1000) /\ (n * 1000000 < 2 ^ 64 -> M_literal n = n * 1000000) /\ (n * 1000000000 < 2 ^ 64 -> G_literal n = n * 1000000000) /\
  (n * 2 ^ 10 < 2 ^ 64 -> ki_literal n = n * 2 ^ 10) /\ (n * 2 ^ 20 < 2 ^ 64 -> Mi_literal n = n * 2 ^ 20) /\ (n * 2 ^ 30 < 2 ^ 64 -> Gi_literal n = n * 2 ^ 30) /\
  (n < 2 ^ 32 -> lsb_literal n = n).
Proof.
  intros n. unfold k_literal, M_literal, G_literal, ki_literal, Mi_literal, Gi_literal, lsb_literal.
  change (2 ^ 64) with 18446744073709551616. change (2 ^ 10) with 1024. change (2 ^ 20) with 1048576. change (2 ^ 30) with 1073741824. change (2 ^ 32) with 4294967296.
  repeat split; intros H; repeat rewrite (N.mod_small (_ * 1024)) by lia; rewrite ?N.mod_small by lia; lia.
Qed.
Print Assumptions C33_units.
(** One that does not fit is accepted, too, with a smaller value. *)
Theorem C33_units_overflow_refuted : forall n,
  (2 ^ 64 <= n * 1000 -> k_literal n < n * 1000) /\ (2 ^ 64 <= n * 1000000 -> M_literal n < n * 1000000) /\ (2 ^ 64 <= n * 1000000000 -> G_literal n < n * 1000000000) /\
  (2 ^ 64 <= n * 2 ^ 10 -> ki_literal n < n * 2 ^ 10) /\ (2 ^ 64 <= n * 2 ^ 20 -> Mi_literal n < n * 2 ^ 20) /\ (2 ^ 64 <= n * 2 ^ 30 -> Gi_literal n < n * 2 ^ 30) /\
  (2 ^ 32 <= n -> lsb_literal n < n).
Proof.
  intros n.
  assert (H64 : forall x, x mod 2 ^ 64 < 2 ^ 64) by (intros; apply N.mod_lt; discriminate).
  repeat split; intros H; (eapply N.lt_le_trans; [|exact H]); first [apply H64|apply N.mod_lt; discriminate].
Qed.
Print Assumptions C33_units_overflow_refuted.
Example C33_units_overflow_example : k_literal (2 ^ 61) = 0 /\ 2 ^ 64 <= 2 ^ 61 * 1000 /\ lsb_literal (2 ^ 32) = 0.
Proof. repeat split; vm_compute; congruence. Qed.
Example C33_units_example : Gi_literal 2 = 2147483648 /\ 2 * 2 ^ 30 < 2 ^ 64.
Proof. split; vm_compute; reflexivity. Qed.
