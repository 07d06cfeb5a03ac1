(** Format strings as sequences of items, and what formatting them must give. *)
From Verif Require Import Base CtFormatModel.
Open Scope N_scope.

(** ** Format strings *)
(** A format string is made of characters other than an opening brace, escaped opening braces, and
    specifiers: a brace, an optional name, an optional colon with the rest, a closing brace. *)
Inductive item := Ch (c : N) | Esc | Spec (name : list N) (opts : option (list N)).
Definition plain (s : list N) : Prop := Forall (fun c => c <> 123 /\ c <> 125) s.
Definition item_ok (i : item) : Prop :=
  match i with
  | Ch c => c <> 123
  | Esc => True
  | Spec name opts => plain name /\ ~ In 58 name /\ (match opts with Some o => plain o | None => True end)
  end.
Definition opts_text (opts : option (list N)) : list N := match opts with Some o => 58 :: o | None => [] end.
(** The specifier without its name. *)
Definition bare (opts : option (list N)) : list N := 123 :: opts_text opts ++ [125].
Definition item_text (i : item) : list N :=
  match i with Ch c => [c] | Esc => [123; 123] | Spec name opts => 123 :: name ++ opts_text opts ++ [125] end.
Definition fmt_text (l : list item) : list N := flat_map item_text l.
Definition is_spec (i : item) : bool := match i with Spec _ _ => true | _ => false end.
(** The number of specifiers, and the literal text, specifier by specifier. *)
Definition specs (l : list item) : N := len (filter is_spec l).
Fixpoint cut (l : list item) : list (list item * (list N * option (list N))) * list item :=
  match l with
  | [] => ([], [])
  | Spec n o :: r => (([], (n, o)) :: fst (cut r), snd (cut r))
  | i :: r =>
      match cut r with
      | ((p, s) :: ps, t) => ((i :: p, s) :: ps, t)
      | ([], t) => ([], i :: t)
      end
  end.

(** ** Results *)
(** What a result is made of, from left to right: text, text of a named compile-time argument, and
    a runtime argument with the specifier left for it and its name, if it has one. *)
Inductive seg (X : Type) :=
| Plain (s : list N)
| NamedText (name s : list N)
| Runtime (name : list N) (s : list N) (x : X).
Arguments Plain {X} _.
Arguments NamedText {X} _ _.
Arguments Runtime {X} _ _ _.
Definition seg_text {X} (s : seg X) : list N := match s with Plain t => t | NamedText _ t => t | Runtime _ t _ => t end.
Definition seg_args {X} (s : seg X) : list X := match s with Runtime _ _ x => [x] | _ => [] end.
Definition text_of {X} (l : list (seg X)) : list N := flat_map seg_text l.
Definition args_of {X} (l : list (seg X)) : list X := flat_map seg_args l.
(** The named arguments: the span of a text, the position of a runtime argument. *)
Fixpoint named_of {X} (so ao : N) (l : list (seg X)) : list named_arg :=
  match l with
  | [] => []
  | s :: r =>
      (match s with
       | Plain _ => []
       | NamedText n t => [mk_named n (Z.of_N so) (Z.of_N (so + len t))]
       | Runtime n _ _ => if len n =? 0 then [] else [mk_named n (Z.of_N ao) (Z.of_N ao - 1)]
       end) ++ named_of (so + len (seg_text s)) (ao + len (seg_args s)) r
  end.
Definition made_of {X} (r : result X) (l : list (seg X)) : Prop :=
  r_str r = text_of l /\ r_args r = args_of l /\ r_named r = named_of 0 0 l.
(** The part [b, e) of a string. *)
Definition part (s : list N) (b e : Z) : list N := firstn (Z.to_nat (e - b)) (skipn (Z.to_nat b) s).

(** ** Formatting *)
Section Formatting.
Context {V X : Type}.
(** [text opts v t]: [t] is the text of the value [v] under a specifier with options [opts]. *)
Variable text : option (list N) -> V -> list N -> Prop.
Variable of_str : list N -> V.
(** The formatter writes literal text satisfying [P] as it is, then the text of the value. *)
Definition verbatim (fmt1 : list N -> V -> option (list N)) (P : list N -> Prop) : Prop :=
  forall lit opts v t, P lit -> text opts v t -> fmt1 (lit ++ bare opts) v = Some (lit ++ t).
(** The segments one argument contributes. *)
Definition arg_segs (name : list N) (opts : option (list N)) (a : arg V X) (l : list (seg X)) : Prop :=
  match a with
  | ACt v => exists t, text opts v t /\ l = [if len name =? 0 then Plain t else NamedText name t]
  | ARes r => made_of r l /\ text opts (of_str (r_str r)) (r_str r)
  | ARt x => l = [Runtime name (bare opts) x]
  end.
(** The segments of a whole format string, given those of its arguments. *)
Inductive formats : list (list item * (list N * option (list N))) -> list (arg V X) -> list (seg X) -> Prop :=
| formats_nil : formats [] [] []
| formats_cons lit name opts a l ps args rest :
    arg_segs name opts a l -> formats ps args rest ->
    formats ((lit, (name, opts)) :: ps) (a :: args) (Plain (fmt_text lit) :: l ++ rest).
End Formatting.
(** Literal text with the escapes undone. *)
Fixpoint unescaped (s : list N) : list N :=
  match s with
  | 123 :: 123 :: r => 123 :: unescaped r
  | 125 :: 125 :: r => 125 :: unescaped r
  | c :: r => c :: unescaped r
  | [] => []
  end.
