(** The floats of the parser as IEEE numbers: the [FloatOps] instance for f32 and f64 (src/core/mod.rs 31-34).
    [str::parse::<Float>] (parser.rs 400, 418, 444) is taken to be correctly rounded, as its documentation says.
    [Float::powf(10.0, x)] (parser.rs 401, 419) is computed by the platform's mathematics library: it is the argument [pw],
    about which nothing is assumed. *)
From Coq Require Import ZArith.
From Flocq Require Import Core.Core IEEE754.BinarySingleNaN.
From Verif Require Import Base FloatInst.

(** The quotient of two integers, correctly rounded. The integers may have any number of digits. *)
Definition f_quot f (neg : bool) (p q : positive) : flt f :=
  SF2B _ (proj1 (Bdiv_correct_aux (fprec f) (femax f) (fprec_gt_0 f) (fprec_lt_emax f) mode_NE neg p 0 false q 0)).

(** The literal (-)m * 10^-k. *)
Definition f_dec_ieee f (neg : bool) (m : N) (k : nat) : flt f :=
  match m with
  | N0 => B754_zero neg
  | Npos p => f_quot f neg p (Z.to_pos (10 ^ Z.of_nat k))
  end.

Definition fo_ieee f (pw : flt f -> flt f) : FloatOps (flt f) := {|
  f_dec := f_dec_ieee f;
  f_mul := f_mult;
  f_powf10 := pw;
  f_of_isize := f_of_int f
|}.
