(** Model of include/stdx/pp_map.hpp: the macros, and the part of the C++ preprocessor that
    expands them.

    Macro expansion follows [cpp.replace] as GCC and Clang implement it.  The input is a stream of
    tokens; while the replacement of a macro is being rescanned the macro is disabled, and a [Pop]
    mark in the stream says where its replacement ends.  A name read while its macro is disabled is
    painted: it is never expanded again.  Arguments are expanded on their own before they are
    substituted.  There is no # or ## in the macros modelled.  [None]: an error (unbalanced
    parentheses, wrong number of arguments), or more steps than [fuel]. *)
From Verif Require Import Base.
Open Scope ub_scope.
Open Scope nat_scope.

(** The macros of pp_map.hpp (STDX_ left out), and those of the program ([User]). *)
Inductive mac :=
| EVAL0 | EVAL1 | EVAL2 | EVAL3 | EVAL4 | EVAL5 | EVAL
| MAP_END | MAP_OUT | EMPTY | DEFER | GET_END2 | GET_END1 | GET_END | NEXT0 | NEXT1 | NEXT
| MAP_A | MAP_B | DROP0 | DROP1 | MAP | User (u : nat).
Definition mac_eq_dec (a b : mac) : {a = b} + {a <> b}.
Proof. decide equality. apply Nat.eq_dec. Defined.
Definition mem (m : mac) (l : list mac) : bool := if in_dec mac_eq_dec m l then true else false.

(** Preprocessing tokens.  [Plain] is any token that is not a macro name, parenthesis or comma. *)
Inductive tok := LP | RP | CM | Plain (n : N) | Name (m : mac) (painted : bool).
Definition nm (m : mac) : tok := Name m false.
Inductive item := T (t : tok) | Pop (m : mac).

(** Replacement lists: tokens, named parameters and __VA_ARGS__. *)
Inductive btok := B (t : tok) | Par (i : nat) | VaArgs.
(** Object-like, or function-like: the number of named parameters, whether it is variadic,
    whether the whole replacement list is inside __VA_OPT__, and the replacement list. *)
Inductive mdef := Obj (b : list tok) | Fun (np : nat) (variadic va_opt : bool) (b : list btok).

(** Replacement lists are written as lists of pieces. *)
Definition call (m : mac) (args : list btok) : list btok := B (nm m) :: B LP :: args ++ [B RP].
Definition end_mark : list btok := [B LP; B RP; B LP; B RP; B LP; B RP].
Definition zero : tok := Plain 0.

Section Cpp.
Context (user : nat -> mdef).

Definition def (m : mac) : mdef :=
  match m with
  (* pp_map.hpp:5 *)
  | EVAL0 => Fun 0 true false [VaArgs]
  (* pp_map.hpp:6-11 *)
  | EVAL1 => Fun 0 true false (call EVAL0 (call EVAL0 (call EVAL0 [VaArgs])))
  | EVAL2 => Fun 0 true false (call EVAL1 (call EVAL1 (call EVAL1 [VaArgs])))
  | EVAL3 => Fun 0 true false (call EVAL2 (call EVAL2 (call EVAL2 [VaArgs])))
  | EVAL4 => Fun 0 true false (call EVAL3 (call EVAL3 (call EVAL3 [VaArgs])))
  | EVAL5 => Fun 0 true false (call EVAL4 (call EVAL4 (call EVAL4 [VaArgs])))
  | EVAL => Fun 0 true false (call EVAL5 [VaArgs])
  (* pp_map.hpp:13-14 *)
  | MAP_END => Fun 0 true false []
  | MAP_OUT => Obj []
  (* pp_map.hpp:16-17 *)
  | EMPTY => Fun 0 false false []
  | DEFER => Fun 1 false false [Par 0; B (nm EMPTY); B LP; B RP]
  (* pp_map.hpp:19-21 *)
  | GET_END2 => Fun 0 false false [B zero; B CM; B (nm MAP_END)]
  | GET_END1 => Fun 0 true false [B (nm GET_END2)]
  | GET_END => Fun 0 true false [B (nm GET_END1)]
  (* pp_map.hpp:22-24 *)
  | NEXT0 => Fun 2 true false [Par 1; B (nm MAP_OUT)]
  | NEXT1 => Fun 2 false false (call DEFER [B (nm NEXT0)] ++ [B LP; Par 0; B CM; Par 1; B CM; B zero; B RP])
  | NEXT => Fun 2 false false (call NEXT1 [B (nm GET_END); Par 0; B CM; Par 1])
  (* pp_map.hpp:27-30 *)
  | MAP_A => Fun 3 true false ([B CM; Par 0; B LP; Par 1; B RP] ++ call DEFER (call NEXT [Par 2; B CM; B (nm MAP_B)]) ++
                               [B LP; Par 0; B CM; Par 2; B CM; VaArgs; B RP])
  | MAP_B => Fun 3 true false ([B CM; Par 0; B LP; Par 1; B RP] ++ call DEFER (call NEXT [Par 2; B CM; B (nm MAP_A)]) ++
                               [B LP; Par 0; B CM; Par 2; B CM; VaArgs; B RP])
  (* pp_map.hpp:32-33 *)
  | DROP0 => Fun 1 true false [VaArgs]
  | DROP1 => Fun 0 true false (call DROP0 [VaArgs])
  (* pp_map.hpp:35-37 *)
  | MAP => Fun 1 true true
      (call DROP1 (B zero :: call EVAL (call MAP_A ([Par 0; B CM; VaArgs; B CM] ++ end_mark ++ [B CM] ++ end_mark ++ [B CM] ++ end_mark ++ [B CM; B zero]))))
  | User u => user u
  end.

(** Names are painted when they are read while disabled. *)
Definition paint (dis : list mac) (t : tok) : tok :=
  match t with Name m _ => if mem m dis then Name m true else t | _ => t end.
(** The next token, past the ends of replacements (which enables their macros again), if it is a
    left parenthesis. *)
Fixpoint open_paren (dis : list mac) (s : list item) : option (list mac * list item) :=
  match s with
  | Pop m :: r => open_paren (remove mac_eq_dec m dis) r
  | T LP :: r => Some (dis, r)
  | _ => None
  end.
(** The tokens up to the matching right parenthesis. *)
Fixpoint grab (depth : nat) (dis : list mac) (s : list item) : option (list tok * list mac * list item) :=
  match s with
  | [] => None
  | Pop m :: r => grab depth (remove mac_eq_dec m dis) r
  | T t :: r =>
      match t, depth with
      | RP, O => Some ([], dis, r)
      | _, _ =>
          let d := match t with LP => S depth | RP => depth - 1 | _ => depth end in
          x <- grab d dis r;;
          match x with (a, dis', r') => Some (paint dis t :: a, dis', r') end
      end
  end.
(** Cutting at the first comma outside parentheses. *)
Fixpoint cut (depth : nat) (l : list tok) : list tok * option (list tok) :=
  match l with
  | [] => ([], None)
  | t :: r =>
      match t, depth with
      | CM, O => ([], Some r)
      | _, _ =>
          let d := match t with LP => S depth | RP => depth - 1 | _ => depth end in
          match cut d r with (a, b) => (t :: a, b) end
      end
  end.
(** At most [k] arguments, and the rest (after a comma) if there is more. *)
Fixpoint split_args (k : nat) (l : list tok) : list (list tok) * option (list tok) :=
  match k with
  | O => ([], Some l)
  | S k' =>
      match cut 0 l with
      | (a, None) => ([a], None)
      | (a, Some r) => match split_args k' r with (args, rest) => (a :: args, rest) end
      end
  end.
(** The named arguments and the variable one for a definition; [None]: wrong number. *)
Definition bind_args (np : nat) (variadic : bool) (l : list tok) : option (list (list tok) * list tok) :=
  match np with
  | O => if variadic then Some ([], l) else match l with [] => Some ([], []) | _ => None end
  | _ =>
      match split_args np l with
      | (args, None) => if length args =? np then Some (args, []) else None
      | (args, Some r) => if variadic then Some (args, r) else None
      end
  end.
(** Substitution of the expanded arguments. *)
Definition subst1 (args : list (list tok)) (va : list tok) (b : btok) : list tok :=
  match b with B t => [t] | Par i => nth i args [] | VaArgs => va end.
Definition subst (va_opt : bool) (b : list btok) (args : list (list tok)) (va : list tok) : list tok :=
  if va_opt && match va with [] => true | _ => false end then [] else flat_map (subst1 args va) b.

(** The expansion of a stream. *)
Fixpoint mapo_ {X Y} (f : X -> option Y) (l : list X) : option (list Y) :=
  match l with [] => Some [] | x :: r => y <- f x;; ys <- mapo_ f r;; Some (y :: ys) end.
Fixpoint expand (fuel : nat) (dis : list mac) (s : list item) : option (list tok) :=
  match fuel with
  | O => None
  | S fuel' =>
      match s with
      | [] => Some []
      | Pop m :: r => expand fuel' (remove mac_eq_dec m dis) r
      | T t :: r =>
          let keep t' := o <- expand fuel' dis r;; Some (t' :: o) in
          match t with
          | Name m false =>
              if mem m dis then keep (Name m true)
              else
                match def m with
                | Obj b => expand fuel' (m :: dis) (map T b ++ Pop m :: r)
                | Fun np variadic va_opt b =>
                    match open_paren dis r with
                    | None => keep t
                    | Some (dis1, r1) =>
                        g <- grab 0 dis1 r1;;
                        match g with (raw, dis2, r2) =>
                          bound <- bind_args np variadic raw;;
                          args <- mapo_ (fun a => expand fuel' dis2 (map T a)) (fst bound);;
                          va <- expand fuel' dis2 (map T (snd bound));;
                          expand fuel' (m :: dis2) (map T (subst va_opt b args va) ++ Pop m :: r2)
                        end
                    end
                end
          | _ => keep t
          end
      end
  end.
End Cpp.
