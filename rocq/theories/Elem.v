(** Element types of the geometry code: the operations the code uses on them, and the integer instance.
    src/core/mod.rs 42-95 (trait ElemType and its two implementations). *)
From Verif Require Import Base.

(** What the code uses of a type [T: ElemType] (mod.rs 42-59). Arithmetic can panic (i64), so it returns an [out].
    Comparisons are those of PartialOrd/PartialEq: [a > b] is written [e_lt b a] and [a >= b] is [e_le b a]
    (for f32/f64/i64 these are the same). The bound [AsPrimitive<i64>] is never used by the code and left out;
    [AsPrimitive<Float>] is a separate argument where it is used. *)
Record Elem (T : Type) := mkElem {
  e_add : T -> T -> out T;
  e_sub : T -> T -> out T;
  e_mul : T -> T -> out T;
  e_div : T -> T -> out T;
  e_neg : T -> out T;
  e_abs : T -> out T;
  e_lt : T -> T -> bool;
  e_le : T -> T -> bool;
  e_eq : T -> T -> bool;
  e_is_nan : T -> bool;
  e_max_value : T;
  e_min_value : T;
  e_from_int : Z -> T
}.
Arguments e_add {T}. Arguments e_sub {T}. Arguments e_mul {T}. Arguments e_div {T}. Arguments e_neg {T}. Arguments e_abs {T}.
Arguments e_lt {T}. Arguments e_le {T}. Arguments e_eq {T}. Arguments e_is_nan {T}. Arguments e_max_value {T}.
Arguments e_min_value {T}. Arguments e_from_int {T}.

(** What the code uses of the type [Float] (mod.rs 31-39: f32, or f64 with the feature float_as_f64).
    The literals 0.0, 1.0, 2.0 are [e_from_int] of the integer; 0.999 and 1.001 (mod.rs 155) are fields. *)
Record FloatT (F : Type) := mkFloatT {
  fl_elem : Elem F;
  fl_sqrt : F -> out F;
  fl_floor : F -> F;
  fl_ceil : F -> F;
  fl_infinity : F;
  fl_0999 : F;
  fl_1001 : F
}.
Arguments fl_elem {F}. Arguments fl_sqrt {F}. Arguments fl_floor {F}. Arguments fl_ceil {F}. Arguments fl_infinity {F}.
Arguments fl_0999 {F}. Arguments fl_1001 {F}.
Coercion fl_elem : FloatT >-> Elem.

(** ** i64 (mod.rs 79-95). [chk]: overflow checks on. Division by zero and [MIN / -1] panic in every profile;
    division truncates. [Signed::abs] of the num crate is [if x < 0 { -x } else { x }]. *)
Definition i64 (chk : bool) : Elem Z := {|
  e_add a b := arith chk (a + b)%Z;
  e_sub a b := arith chk (a - b)%Z;
  e_mul a b := arith chk (a * b)%Z;
  e_div a b := if (b =? 0)%Z then Panic else if in_range (Z.quot a b) then Done (Z.quot a b) else Panic;
  e_neg a := arith chk (- a)%Z;
  e_abs a := if (a <? 0)%Z then arith chk (- a)%Z else Done a;
  e_lt := Z.ltb;
  e_le := Z.leb;
  e_eq := Z.eqb;
  e_is_nan _ := false;
  e_max_value := int_max;
  e_min_value := int_min;
  e_from_int i := i
|}.
