(** What STDX_MAP is expected to expand to. *)
From Verif Require Import Base PpMapModel.
Open Scope nat_scope.

(** The parenthesis depth after reading [l] from depth [d]; [None] if a parenthesis closes that
    was not opened, or, without [commas], if there is a comma outside parentheses. *)
Fixpoint depth_after (commas : bool) (d : nat) (l : list tok) : option nat :=
  match l with
  | [] => Some d
  | LP :: r => depth_after commas (S d) r
  | RP :: r => match d with O => None | S d' => depth_after commas d' r end
  | CM :: r => match d with O => if commas then depth_after commas d r else None | _ => depth_after commas d r end
  | _ :: r => depth_after commas d r
  end.
(** Nothing left to expand. *)
Definition no_names (l : list tok) : Prop := Forall (fun t => match t with Name _ _ => False | _ => True end) l.
Definition balanced (l : list tok) : Prop := no_names l /\ depth_after true 0 l = Some 0.
(** A macro argument: balanced, without commas outside parentheses. *)
Definition argument (l : list tok) : Prop := no_names l /\ depth_after false 0 l = Some 0.
(** [l] begins with exactly [k] groups in parentheses, one after the other, followed by [r]. *)
Inductive groups : nat -> list tok -> list tok -> Prop :=
| g_none r : (forall r', r <> LP :: r') -> groups 0 r r
| g_more k a l r : balanced a -> groups k l r -> groups (S k) (LP :: a ++ RP :: l) r.
(** An argument that does not begin with three groups in parentheses. *)
Definition ordinary (l : list tok) : Prop := argument l /\ exists k r, k < 3 /\ groups k l r.
(** An argument of the form (a)(b)(). *)
Definition three_groups (l : list tok) : Prop :=
  exists a b, balanced a /\ balanced b /\ l = LP :: a ++ RP :: LP :: b ++ [RP; LP; RP].

(** f(x) *)
Definition applied (f : tok) (x : list tok) : list tok := f :: LP :: x ++ [RP].
(** x1, x2, ..., xn *)
Fixpoint join (l : list (list tok)) : list tok :=
  match l with [] => [] | [x] => x | x :: r => x ++ CM :: join r end.
(** STDX_MAP(f, x1, ..., xn) *)
Definition map_call (f : tok) (xs : list (list tok)) : list tok :=
  nm MAP :: LP :: f :: (match xs with [] => [] | _ => CM :: join xs end) ++ [RP].

(** The result of preprocessing, for every large enough amount of fuel. *)
Definition expands (user : nat -> mdef) (dis : list mac) (s : list item) (o : list tok) : Prop :=
  exists n, forall k, n <= k -> expand user k dis s = Some o.
Definition preprocesses (user : nat -> mdef) (l o : list tok) : Prop := expands user [] (map T l) o.
(** f(x) expands to [y] wherever it stands outside the program's own macros. *)
Definition expands_to (user : nat -> mdef) (f : tok) (x y : list tok) : Prop :=
  forall dis s o, (forall u, ~ In (User u) dis) -> expands user dis s o ->
                  expands user dis (map T (applied f x) ++ s) (y ++ o).
(** [f] is the name of something that is not a macro, or a function-like macro of the program. *)
Definition applicable (user : nat -> mdef) (f : tok) : Prop :=
  match f with
  | Plain _ => True
  | Name (User u) false => match user u with Fun _ _ _ _ => True | Obj _ => False end
  | _ => False
  end.
(** ... and [y] is balanced, with nothing left to expand. *)
Definition maps_to (user : nat -> mdef) (f : tok) (x y : list tok) : Prop :=
  expands_to user f x y /\ Forall (fun t => match t with Name _ false => False | _ => True end) y /\
  depth_after true 0 y = Some 0.
(** The replacement list [b] of a macro with one parameter, or with only __VA_ARGS__, with [x] for it. *)
Definition instance (b : list btok) (x : list tok) : list tok :=
  flat_map (fun t => match t with B c => [c] | _ => x end) b.
(** [b] uses no macro and no other parameter, and its parentheses balance. *)
Definition simple_body (variadic : bool) (b : list btok) : Prop :=
  Forall (fun t => match t with B (Name _ _) => False | B _ => True | Par i => variadic = false /\ i = 0 | VaArgs => variadic = true end) b /\
  depth_after true 0 (instance b []) = Some 0.
(** #define U(p) b, or #define U(...) b *)
Definition one_parameter (variadic : bool) (b : list btok) : mdef :=
  if variadic then Fun 0 true false b else Fun 1 false false b.
