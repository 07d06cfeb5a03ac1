(** What formatting means, as {fmt} and std::format define it, for strings and arguments known at the same
    time; to compare with ct_format, which formats what it can and leaves the rest for later. *)
From Verif Require Import Base CtFormatModel.
Open Scope N_scope.

(** A field: its name and its options. *)
Notation field := (list N * option (list N))%type.

Section Formatting.
Context {V : Type}.
(** The text of a value under the options after the colon, if there is a colon; [None]: not allowed. *)
Variable text : option (list N) -> V -> option (list N).

(** What is inside the braces: nothing, or a colon and options. *)
Definition field_text (inside : list N) (v : V) : option (list N) :=
  match inside with
  | [] => text None v
  | c :: opts => if c =? 58 then text (Some opts) v else None
  end.

(** Reading from left to right.  Doubled braces stand for single ones, and a brace that is neither doubled
    nor part of a field is an error; there are as many arguments as fields. *)
Inductive reading := Outside | AfterOpen | AfterClose | Inside (read : list N).
Definition emit (t : list N) (rest : option (list N)) : option (list N) := option_map (app t) rest.
Fixpoint read (at_ : reading) (s : list N) (args : list V) : option (list N) :=
  match s with
  | [] => match at_, args with Outside, [] => Some [] | _, _ => None end
  | c :: s =>
      match at_ with
      | Outside => if c =? 123 then read AfterOpen s args
                   else if c =? 125 then read AfterClose s args
                   else emit [c] (read Outside s args)
      | AfterClose => if c =? 125 then emit [125] (read Outside s args) else None
      | AfterOpen | Inside _ =>
          let sofar := match at_ with Inside r => r | _ => [] end in
          if c =? 123 then match at_ with AfterOpen => emit [123] (read Outside s args) | _ => None end
          else if c =? 125 then
            match args with
            | v :: args => match field_text sofar v with Some t => emit t (read Outside s args) | None => None end
            | [] => None
            end
          else read (Inside (sofar ++ [c])) s args
      end
  end.
Definition format (s : list N) (args : list V) : option (list N) := read Outside s args.

(** A format string as its author sees it: literal text, with braces doubled, and fields with a name (a
    tag that does not matter for the text) and options. *)
Inductive ch := Lit (c : N) | OpenBrace | CloseBrace.
Definition written (l : list ch) : list N := flat_map (fun x => match x with Lit c => [c] | OpenBrace => [123; 123] | CloseBrace => [125; 125] end) l.
Definition meant (l : list ch) : list N := flat_map (fun x => match x with Lit c => [c] | OpenBrace => [123] | CloseBrace => [125] end) l.
Definition no_braces (s : list N) : Prop := forall c, In c s -> c <> 123 /\ c <> 125.
Definition literal (l : list ch) : Prop := forall c, In (Lit c) l -> c <> 123 /\ c <> 125.
Definition unescaped (l : list ch) : Prop := ~ In OpenBrace l /\ ~ In CloseBrace l.
Definition proper (f : field) : Prop :=
  no_braces (fst f) /\ ~ In 58 (fst f) /\ match snd f with Some o => no_braces o | None => True end.
Definition source (fs : list (list ch * field)) (tail : list ch) : list N :=
  flat_map (fun x => written (fst x) ++ [123] ++ fst (snd x) ++ match snd (snd x) with Some o => 58 :: o | None => [] end ++ [125]) fs ++ written tail.
Definition well_formed (fs : list (list ch * field)) (tail : list ch) : Prop :=
  (forall x, In x fs -> literal (fst x) /\ proper (snd x)) /\ literal tail.
(** All at once: [ts] are the texts of the arguments. *)
Fixpoint at_once (fs : list (list ch * field)) (ts : list (list N)) (tail : list ch) : list N :=
  match fs, ts with
  | x :: fs, t :: ts => meant (fst x) ++ t ++ at_once fs ts tail
  | _, _ => meant tail
  end.
(** ** Two stages
    An argument of ct_format is known at compile time ([ACt]), at run time ([ARt]), or the result of
    another ct_format ([ARes]); [of_str] makes a value of a string.  What it becomes in the end: *)
Variable of_str : list N -> V.
Definition finally (opts : option (list N)) (a : arg V V) (t : list N) : Prop :=
  match a with
  | ACt v => text opts v = Some t
  | ARt v => text opts v = Some t
  | ARes r => format (r_str r) (r_args r) = Some t /\ text opts (of_str (r_str r)) = Some (r_str r)
  end.
(** No braces where ct_format formats early: neither in the literal text before the field nor in the text
    of the argument. *)
Definition safe (lit : list ch) (a : arg V V) (t : list N) : Prop :=
  match a with ACt _ => unescaped lit /\ no_braces t | ARes _ => unescaped lit | ARt _ => True end.
(** A brace that is neither doubled nor the beginning of a field. *)
Definition stray_brace (s : list N) : Prop :=
  (exists x c y, s = x ++ 123 :: c :: y /\ no_braces x /\ c <> 123 /\ c <> 125 /\ c <> 58) \/
  (exists x c y, s = x ++ 125 :: c :: y /\ no_braces x /\ c <> 125).
End Formatting.
Inductive all3 {A B C} (R : A -> B -> C -> Prop) : list A -> list B -> list C -> Prop :=
| all3_nil : all3 R [] [] []
| all3_cons a b c la lb lc : R a b c -> all3 R la lb lc -> all3 R (a :: la) (b :: lb) (c :: lc).
