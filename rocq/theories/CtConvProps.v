(** Property theorems for include/stdx/ct_conversions.hpp: C52, C53, C54. *)
From Coq Require Import String.
From Verif Require Import Base CtConvModel CtConvSpec CtConvProofs.
Open Scope nat_scope.

(** C52: type_as_string<T>() is exactly the name the compiler gives T, on both compilers.
    Missing: names that contain '=' (see the refutation below). *)
Theorem C52_type_as_string_partial : forall c before name, ~ In 61%N name ->
  type_as_string c (pretty_type c before name) = Some name.
Proof. exact type_ok. Qed.
Print Assumptions C52_type_as_string_partial.
Example C52_nonvacuous :
  (~ In 61%N (codes "std::pair<int, (anonymous namespace)::T>")) /\
  type_as_string Gcc (pretty_type Gcc (codes "consteval std::string_view stdx::v1::type_as_string() [with Tag ")
                        (codes "std::pair<int, {anonymous}::T>")) = Some (codes "std::pair<int, {anonymous}::T>").
Proof. split; [|reflexivity]. vm_compute. intuition discriminate. Qed.

(** A name with an '=' in it, such as GCC's "f() [with T = int]::local", is cut after its last
    '=': so any two types whose names agree after that point get the same string. *)
Theorem C52_names_with_equals_refuted : forall c before a x b, x <> 61%N -> ~ In 61%N b ->
  type_as_string c (pretty_type c before (a ++ [61%N; x] ++ b)) = Some b.
Proof. exact type_cut. Qed.
Print Assumptions C52_names_with_equals_refuted.
Example C52_collision :
  let ty f := type_as_string Gcc (pretty_type Gcc (codes "[with Tag ") (codes (f ++ "() [with T = int]::local")%string)) in
  ty "f"%string = Some (codes "int]::local") /\ ty "g"%string = ty "f"%string.
Proof. now vm_compute. Qed.

(** C53: enum_as_string<E::v>() is the bare enumerator, whatever qualifies it... *)
Theorem C53_enumerator_name_partial : forall before q id, qualifier q -> ident id ->
  enum_as_string (pretty_value before (q ++ id)) = Some id.
Proof. exact enum_ok. Qed.
Print Assumptions C53_enumerator_name_partial.
Example C53_nonvacuous :
  qualifier (codes "(anonymous namespace)::B::") /\ ident (codes "Y") /\
  enum_as_string (pretty_value (codes "[Value ") (codes "(anonymous namespace)::B::Y")) = Some (codes "Y").
Proof.
  split; [|split; [|reflexivity]].
  - split; [vm_compute; intuition discriminate|]. split; [right; exists (codes "(anonymous namespace)::B:"); reflexivity|].
    right. exists (codes "(anonymous namespace"), (codes ":B::"). split; [reflexivity|vm_compute; intuition discriminate].
  - repeat split; vm_compute; intuition discriminate.
Qed.
(** ... and a value without an enumerator is the compiler's whole "(E)17". *)
Theorem C53_cast_value : forall before v, cast_value v -> enum_as_string (pretty_value before v) = Some v.
Proof. exact cast_ok. Qed.
Print Assumptions C53_cast_value.
Example C53_cast_nonvacuous : cast_value (codes "(ns::C)17") /\
  enum_as_string (pretty_value (codes "[Value ") (codes "(ns::C)17")) = Some (codes "(ns::C)17").
Proof.
  split; [|reflexivity]. split; [vm_compute; intuition discriminate|].
  exists (codes "(ns::C"), 49%N, (codes "7"). repeat split; try discriminate. vm_compute; intuition discriminate.
Qed.
(** An enumerator whose qualifier has a last ')' not followed by ':', such as the local
    enumeration "X::f() const::E::v", is taken for a cast and comes out qualified. *)
Theorem C53_const_member_local_refuted : forall before p x r id, ident id ->
  let q := p ++ [41%N; x] ++ r ++ [58%N; 58%N] in
  ~ In 61%N q -> x <> 58%N -> x <> 41%N -> ~ In 41%N r ->
  enum_as_string (pretty_value before (q ++ id)) = Some (q ++ id).
Proof.
  intros before p x r id (I1 & I2 & I3) q H Hx Hx2 Hr. apply cast_ok. split.
  - intros K. apply in_app_or in K as [K|K]; auto.
  - exists p, x, (r ++ [58%N; 58%N] ++ id). subst q. rewrite <- !app_assoc. repeat split; auto.
    intros K. apply in_app_or in K as [K|[K|[K|K]]]; try discriminate; auto.
Qed.
Print Assumptions C53_const_member_local_refuted.
Example C53_refuted_nonvacuous :
  enum_as_string (pretty_value (codes "[with auto Value ") (codes "X::f() const::E::v")) = Some (codes "X::f() const::E::v").
Proof. reflexivity. Qed.

(** C54: is_same_template_v<T, U> says whether T and U are specialisations of the same
    template.  Missing: templates that are members of class templates, whose own names contain
    '<' (see below), and names with '='. *)
Theorem C54_same_template_partial : forall c b1 b2 t1 a1 t2 a2,
  ~ In 61%N (t1 ++ 60%N :: a1) -> ~ In 61%N (t2 ++ 60%N :: a2) -> ~ In 60%N t1 -> ~ In 60%N t2 ->
  exists r, is_same_template c (pretty_type c b1 (t1 ++ 60%N :: a1)) (pretty_type c b2 (t2 ++ 60%N :: a2)) = Some r /\
            (r = true <-> t1 = t2).
Proof. exact same_template_ok. Qed.
Print Assumptions C54_same_template_partial.
Example C54_nonvacuous :
  is_same_template Clang (pretty_type Clang (codes "[Tag ") (codes "std::vector<int>")) (pretty_type Clang (codes "[Tag ") (codes "std::vector<std::list<int>>")) = Some true /\
  is_same_template Clang (pretty_type Clang (codes "[Tag ") (codes "std::vector<int>")) (pretty_type Clang (codes "[Tag ") (codes "std::list<int>")) = Some false.
Proof. split; reflexivity. Qed.
(** Any two names that start with the same template name and '<' count as the same template,
    whatever follows: outer<int>::a<int> and outer<char>::b<int>. *)
Theorem C54_member_templates_refuted : forall c b1 b2 p x y,
  ~ In 61%N (p ++ 60%N :: x) -> ~ In 61%N (p ++ 60%N :: y) -> ~ In 60%N p ->
  is_same_template c (pretty_type c b1 (p ++ 60%N :: x)) (pretty_type c b2 (p ++ 60%N :: y)) = Some true.
Proof. exact nested_same. Qed.
Print Assumptions C54_member_templates_refuted.
Example C54_refuted_nonvacuous :
  is_same_template Gcc (pretty_type Gcc (codes "[with Tag ") (codes "outer<int>::a<int>")) (pretty_type Gcc (codes "[with Tag ") (codes "outer<char>::b<int>")) = Some true.
Proof. reflexivity. Qed.
