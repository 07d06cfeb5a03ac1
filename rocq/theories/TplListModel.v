(** template_for_each, apply_sequence, nth_t and nth_v over lists of template arguments, and the
    sequences of include/stdx/utility.hpp:276-306.  [None]: does not compile. *)
From Coq Require Import List NArith ZArith Bool.
From Verif Require Import Ints.
Import ListNotations.

(** Types: the integer types, and the others, by number. *)
Inductive typ := Int (t : ity) | Other (n : N).
(** A template argument: a type, or a value with its type. *)
Inductive targ := AType (t : typ) | AValue (t : typ) (v : Z).
(** A parameter of a class template: typename, auto, a value whose type is the first parameter; and
    packs of these. *)
Inductive form := FType | FAuto | FOfFirst.
Record param := { fm : form; pack : bool }.
Definition one f := {| fm := f; pack := false |}.
Definition many f := {| fm := f; pack := true |}.
(** A class: a specialization of a template (by number, with its parameters), or no specialization. *)
Inductive cls := Spec (template : N) (params : list param) (args : list targ) | NotTemplate (n : N).

(** type_traits.hpp:114-115; std::integer_sequence, std::integral_constant, std::pair; and
    utility.hpp:276-281. *)
Definition type_list (ts : list typ) : cls := Spec 0 [many FType] (map AType ts).
Definition value_list (vs : list (typ * Z)) : cls := Spec 1 [many FAuto] (map (fun v => AValue (fst v) (snd v)) vs).
Definition integer_sequence (t : ity) (vs : list Z) : cls :=
  Spec 2 [one FType; many FOfFirst] (AType (Int t) :: map (AValue (Int t)) vs).
Definition make_integer_sequence (t : ity) (n : Z) : cls :=
  Spec 3 [one FType; one FOfFirst] [AType (Int t); AValue (Int t) n].

(** [temp.arg.template]: whether a template with parameters [a] is an argument for a template
    template parameter with parameters [p].  Each parameter of [a] matches the corresponding one of
    [p]; a pack of [p] (the last one) matches any number of parameters and packs of its form. *)
Definition form_eqb (f g : form) : bool :=
  match f, g with FType, FType | FAuto, FAuto | FOfFirst, FOfFirst => true | _, _ => false end.
Fixpoint accepts (p a : list param) : bool :=
  match p with
  | [] => match a with [] => true | _ => false end
  | q :: p' =>
    if pack q then forallb (fun x => form_eqb (fm q) (fm x)) a
    else match a with x :: a' => form_eqb (fm q) (fm x) && negb (pack x) && accepts p' a' | [] => false end
  end.
(** type_traits.hpp:124-141, 154-171: what each of the three partial specializations passes on, if it
    matches.  None of them is more specialized than another. *)
Definition of_types (c : cls) : option (list targ) :=
  match c with Spec _ a args => if accepts [many FType] a then Some args else None | _ => None end.
Definition of_values (c : cls) : option (list targ) :=
  match c with Spec _ a args => if accepts [many FAuto] a then Some args else None | _ => None end.
Definition of_sequence (c : cls) : option (list targ) :=
  match c with Spec _ a args => if accepts [one FType; many FOfFirst] a then Some (tl args) else None | _ => None end.
(** type_traits.hpp:118-141, 148-171: the one specialization that matches; the primary template is a
    failing static_assert; two that match are ambiguous. *)
Definition select (c : cls) : option (list targ) :=
  match of_types c, of_values c, of_sequence c with
  | Some l, None, None | None, Some l, None | None, None, Some l => Some l
  | _, _, _ => None
  end.

(** A fold over the comma: the calls f<x>() from left to right.  [f] works on a world. *)
Fixpoint comma {W} (f : W -> targ -> W) (w : W) (l : list targ) : W :=
  match l with [] => w | x :: r => comma f (f w x) r end.
(** type_traits.hpp:118-145. *)
Definition template_for_each {W} (c : cls) (f : W -> targ -> W) (w : W) : option W :=
  match select c with Some l => Some (comma f w l) | None => None end.
(** type_traits.hpp:148-175. *)
Definition apply_sequence {W R} (c : cls) (f : W -> list targ -> W * R) (w : W) : option (W * R) :=
  match select c with Some l => Some (f w l) | None => None end.

(** utility.hpp:288-289. *)
Definition tuple_size (t : ity) (n : Z) : option Z := if (n <? 0)%Z then None else Some n.
(** utility.hpp:283-286: std::integral_constant<T, I>, whose value must not narrow. *)
Definition get (i : Z) (t : ity) (n : Z) : option (ity * Z) :=
  if (n <? 0)%Z then None else if in_rangeb t i then Some (t, i) else None.
(** utility.hpp:291-295. *)
Definition tuple_element (i : Z) (t : ity) (n : Z) : option (ity * Z) :=
  if (i <? n)%Z then if in_rangeb t i then Some (t, i) else None else None.
(** utility.hpp:304-306. *)
Definition std_tuple_element (i : Z) (t : ity) (n : Z) : option (ity * Z) :=
  if in_rangeb t i then Some (t, i) else None.

(** type_traits.hpp:288-296, 310-316: N is an unsigned int; an index beyond the pack is an error. *)
Definition nth_t (uw : Z) (i : Z) (ts : list typ) : option typ :=
  if in_rangeb (Uint uw) i then nth_error ts (Z.to_nat i) else None.
Definition nth_v (uw : Z) (i : Z) (vs : list (typ * Z)) : option (typ * Z) :=
  if in_rangeb (Uint uw) i then nth_error vs (Z.to_nat i) else None.
