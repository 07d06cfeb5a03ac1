(** Model of STATIC_ASSERT in include/stdx/static_assert.hpp.

    A program text is a list of tokens; what the tokens mean (the value of a constant expression, the
    string ct_format makes, C10-C12) is a parameter. *)
From Verif Require Import Base.

(** [Less] is a [<] that follows the name of a template; other [<] are [Other].  A [>>] is two
    [Greater] [temp.names]. *)
Inductive token (Sym : Type) := Comma | LParen | RParen | Less | Greater | Other (s : Sym).
Arguments Comma {Sym}. Arguments LParen {Sym}. Arguments RParen {Sym}. Arguments Less {Sym}. Arguments Greater {Sym}. Arguments Other {Sym}.

(** What a constant expression may be. *)
Inductive constant := CBool (b : bool) | CInt (z : Z) | NotArithmetic.
(** A program either compiles or it does not, with a message or without one. *)
Inductive outcome := Compiles | FailsWith (message : list N) | FailsOtherwise.

Section StaticAssert.
Context {Sym : Type}.
Notation text := (list (token Sym)).
Variable value : text -> option constant.          (* [None]: not a constant expression *)
Variable format : list text -> option (list N).    (* STDX_CT_FORMAT; [None]: does not compile *)

(** The arguments of a macro [cpp.replace]: commas outside parentheses separate them. *)
Fixpoint macro_arguments (depth : nat) (l : text) : list text :=
  match l with
  | [] => [[]]
  | Comma :: l => match depth with
                  | O => [] :: macro_arguments 0 l
                  | _ => match macro_arguments depth l with [] => [] | a :: r => (Comma :: a) :: r end
                  end
  | t :: l =>
      let depth' := match t with LParen => S depth | RParen => depth - 1 | _ => depth end in
      match macro_arguments depth' l with [] => [] | a :: r => (t :: a) :: r end
  end.

(** A template argument [temp.names]: up to the first [>] that is not nested.  [open]: the brackets
    that are open, [true] for a parenthesis.  The result: the argument, and what follows the [>]. *)
Fixpoint template_argument (open : list bool) (l : text) : option (text * text) :=
  match l with
  | [] => None
  | t :: l =>
      let go open := match template_argument open l with Some (a, r) => Some (t :: a, r) | None => None end in
      match t, open with
      | Greater, [] => Some ([], l)
      | Greater, false :: open => go open
      | LParen, _ => go (true :: open)
      | Less, _ => go (false :: open)
      | RParen, true :: open => go open
      | RParen, _ => None
      | _, _ => go open
      end
  end.
(** A converted constant expression of type bool [expr.const]: no narrowing. *)
Definition to_bool (c : constant) : option bool :=
  match c with
  | CBool b => Some b
  | CInt z => if (z =? 0)%Z then Some false else if (z =? 1)%Z then Some true else None
  | NotArithmetic => None
  end.
(** std::string_view{+S.str}: a pointer to characters, up to the first NUL. *)
Fixpoint c_string (s : list N) : list N := match s with [] => [] | c :: s => if (c =? 0)%N then [] else c :: c_string s end.
(** static_assert.hpp:36-37 if the language's static_assert takes such messages ([modern]); :10-24, 47-48
    otherwise: emit<S>() exists only for true. *)
Definition check (modern b : bool) (s : list N) : outcome :=
  if b then Compiles else FailsWith (if modern then c_string s else s).
(** static_assert.hpp:31-40, 45-50: [.template operator()<cond>()], where the lambda formats the
    message in both cases. *)
Definition static_assert (modern : bool) (invocation : text) : outcome :=
  match macro_arguments 0 invocation with
  | [] => FailsOtherwise
  | cond :: rest =>
      match template_argument [] (cond ++ [Greater; LParen; RParen]) with
      | Some (arg, [LParen; RParen]) =>
          match value arg, format rest with
          | Some c, Some s => match to_bool c with Some b => check modern b s | None => FailsOtherwise end
          | _, _ => FailsOtherwise
          end
      | _ => FailsOtherwise
      end
  end.
End StaticAssert.
