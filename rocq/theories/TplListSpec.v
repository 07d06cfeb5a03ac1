(** The lists that template_for_each and apply_sequence are documented for, and their elements. *)
From Coq Require Import List NArith ZArith.
From Verif Require Import Ints TplListModel.
Import ListNotations.

(** A class and the elements a reader of the documentation takes it to have, by the declaration of its template:
    template <typename...>, template <typename, typename, ...>, template <auto...>, template <typename T, T...>. *)
Inductive has_elements : cls -> list targ -> Prop :=
| he_types n ts : has_elements (Spec n [many FType] (map AType ts)) (map AType ts)
| he_pair n t u ts : has_elements (Spec n (one FType :: one FType :: map (fun _ => one FType) ts) (map AType (t :: u :: ts)))
                                  (map AType (t :: u :: ts))
| he_values n vs : has_elements (Spec n [many FAuto] (map (fun v => AValue (fst v) (snd v)) vs)) (map (fun v => AValue (fst v) (snd v)) vs)
| he_sequence n t vs : has_elements (Spec n [one FType; many FOfFirst] (AType (Int t) :: map (AValue (Int t)) vs)) (map (AValue (Int t)) vs).
(** 0, 1, ..., n-1, as std::make_integer_sequence<T, n>. *)
Definition count_to (t : ity) (n : nat) : list targ := map (fun i => AValue (Int t) (Z.of_nat i)) (seq 0 n).
(** A function that records its calls; one that adds up the values. *)
Definition recorder (w : list targ) (x : targ) : list targ := w ++ [x].
Definition adder (w : Z) (x : targ) : Z := match x with AType _ => w | AValue _ v => (w + v)%Z end.
