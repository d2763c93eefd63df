(** The IEEE-754 instance of [Float]: f32 (default) and f64 (feature float_as_f64), src/core/mod.rs 31-39, 61-77.
    Numbers are Flocq's [binary_float] with a single NaN: nothing in the code looks at the sign or payload of a NaN.
    All operations round to nearest, ties to even, which is what Rust's operators, [sqrt] and [as] do. *)
From Coq Require Import ZArith.
From Flocq Require Import Core.Core IEEE754.BinarySingleNaN.
From Verif Require Import Base Elem.

Inductive fmt := F32 | F64.
Definition fprec (f : fmt) : Z := match f with F32 => 24 | F64 => 53 end.
Definition femax (f : fmt) : Z := match f with F32 => 128 | F64 => 1024 end.
Global Instance fprec_gt_0 f : Prec_gt_0 (fprec f) := match f with F32 => eq_refl | F64 => eq_refl end.
Global Instance fprec_lt_emax f : Prec_lt_emax (fprec f) (femax f) := match f with F32 => eq_refl | F64 => eq_refl end.
Definition flt (f : fmt) : Type := binary_float (fprec f) (femax f).

Definition f_add {f} (a b : flt f) : flt f := Bplus mode_NE a b.
Definition f_sub {f} (a b : flt f) : flt f := Bminus mode_NE a b.
Definition f_mult {f} (a b : flt f) : flt f := Bmult mode_NE a b.
Definition f_div {f} (a b : flt f) : flt f := Bdiv mode_NE a b.
(** An integer converted with [as]. *)
Definition f_of_int f (i : Z) : flt f := binary_normalize _ _ (fprec_gt_0 f) (fprec_lt_emax f) mode_NE i 0 false.
Definition f_inf f : flt f := B754_infinity false.

(** mod.rs 61-77: impl ElemType for Float. *)
Definition f_elem (f : fmt) : Elem (flt f) := {|
  e_add a b := Done (f_add a b);
  e_sub a b := Done (f_sub a b);
  e_mul a b := Done (f_mult a b);
  e_div a b := Done (f_div a b);
  e_neg a := Done (Bopp a);
  e_abs a := Done (Babs a);
  e_lt := Bltb;
  e_le := Bleb;
  e_eq := Beqb;
  e_is_nan := is_nan;
  e_max_value := f_inf f;
  e_min_value := Bopp (f_inf f);
  e_from_int := f_of_int f
|}.

(** The literals 0.999 and 1.001 are correctly rounded quotients. *)
Definition f_float (f : fmt) : FloatT (flt f) := {|
  fl_elem := f_elem f;
  fl_sqrt a := Done (Bsqrt mode_NE a);
  fl_floor := Bnearbyint mode_DN;
  fl_ceil := Bnearbyint mode_UP;
  fl_infinity := f_inf f;
  fl_0999 := f_div (f_of_int f 999) (f_of_int f 1000);
  fl_1001 := f_div (f_of_int f 1001) (f_of_int f 1000)
|}.
