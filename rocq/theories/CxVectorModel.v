(** Model of stdx::cx_vector (include/stdx/cx_vector.hpp). *)
From Verif Require Import Base.

Section CxVector.
Context {A : Type}.

(** cx_vector.hpp:16-17. *)
Record vector := { v_storage : list A; v_size : N }.

(** cx_vector.hpp:32 (default) and 33-37 (from values; [d] is T{} for the rest).  The
    constructor is constrained to at most N values: [None] is a compile-time rejection. *)
Definition v_make (cap : N) (d : A) (ts : list A) : option vector :=
  if (len ts <=? cap)%N
  then Some {| v_storage := ts ++ repeat d (N.to_nat (cap - len ts)); v_size := len ts |}
  else None.

Inductive v_op :=
| VPush (x : A) | VPop | VClear | VGet (i : N) | VSet (i : N) (x : A) | VFront | VBack
| VSize | VEmpty | VFull | VItems | VRevItems
| VOverwrite (ws : list (N * A)) (n : N).

Inductive v_out := VUnit | VVal (x : A) | VNum (n : N) | VBool (b : bool) | VList (l : list A).

Definition ret {S O} (r : option (S * O)) : outcome unit S O :=
  match r with Some (s, o) => Done s o [] | None => Undef end.

Definition v_write (v : vector) (i : N) (x : A) (sz : N) : option vector :=
  option_map (fun st => {| v_storage := st; v_size := sz |}) (wr (v_storage v) i x).

(** cx_vector.hpp:39-58: the elements designated by [begin(), end()); dereferencing past
    the array is undefined. *)
Definition v_items (v : vector) : option (list A) :=
  if (v_size v <=? len (v_storage v))%N
  then Some (firstn (N.to_nat (v_size v)) (v_storage v)) else None.

(** The callback given to resize_and_overwrite (cx_vector.hpp:143-147) receives the
    storage pointer and the capacity; here it assigns [x] to element [i] for each [(i, x)] of [ws], in
    order, and returns [n].  What it reads is not modelled. *)
Fixpoint v_fill (st : list A) (ws : list (N * A)) : option (list A) :=
  match ws with
  | [] => Some st
  | (i, x) :: r => match wr st i x with Some st' => v_fill st' r | None => None end
  end.

Definition v_step (cap : N) (v : vector) (op : v_op) : outcome unit vector v_out :=
  match op with
  | VPush x => (* :130-136 [storage[current_size++] = value] *)
      ret (option_map (fun v' => (v', VVal x)) (v_write v (v_size v) x (sz_inc (v_size v))))
  | VPop => (* :138-140 [storage[--current_size]] *)
      let i := sz_dec (v_size v) in
      ret (option_map (fun x => ({| v_storage := v_storage v; v_size := i |}, VVal x))
             (rd (v_storage v) i))
  | VClear => Done {| v_storage := v_storage v; v_size := 0 |} VUnit [] (* :128 *)
  | VGet i => ret (option_map (fun x => (v, VVal x)) (rd (v_storage v) i)) (* :103-110 *)
  | VSet i x => ret (option_map (fun v' => (v', VUnit)) (v_write v i x (v_size v)))
  | VFront => ret (option_map (fun x => (v, VVal x)) (rd (v_storage v) 0)) (* :84-90 *)
  | VBack => (* :91-96 *)
      ret (option_map (fun x => (v, VVal x)) (rd (v_storage v) (sz_dec (v_size v))))
  | VSize => Done v (VNum (v_size v)) [] (* :98-100 *)
  | VEmpty => Done v (VBool (v_size v =? 0)%N) [] (* :124-126 *)
  | VFull => Done v (VBool (v_size v =? cap)%N) [] (* :121-123 *)
  | VItems => ret (option_map (fun l => (v, VList l)) (v_items v)) (* :39-58 *)
  | VRevItems => (* a walk with std::make_reverse_iterator(v.end()); rbegin (:60-82) does not compile, see C131 *)
      ret (option_map (fun l => (v, VList (rev l))) (v_items v))
  | VOverwrite ws n =>
      ret (option_map (fun st => ({| v_storage := st; v_size := n |}, VUnit))
             (v_fill (v_storage v) ws))
  end.

(** cx_vector.hpp:149-161: operator==; [eqb] is the element type's ==. *)
Fixpoint v_eq_loop (eqb : A -> A -> bool) (fuel : nat) (i n : N) (a b : list A) : option bool :=
  if (i <? n)%N then
    match fuel with
    | O => None
    | S f =>
        match rd a i, rd b i with
        | Some x, Some y => if negb (eqb x y) then Some false else v_eq_loop eqb f (i + 1) n a b
        | _, _ => None
        end
    end
  else Some true.

Definition v_eq (eqb : A -> A -> bool) (a b : vector) : option bool :=
  if negb (v_size a =? v_size b)%N then Some false
  else v_eq_loop eqb (length (v_storage a)) 0 (v_size a) (v_storage a) (v_storage b).
End CxVector.
Arguments vector : clear implicits.
Arguments v_op : clear implicits.
Arguments v_out : clear implicits.
