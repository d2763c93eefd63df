(** Specification for C130: lengths in floats and the largest coordinate. *)
From Coq Require Import ZArith Reals.
From Flocq Require Import Core.Core IEEE754.BinarySingleNaN.
From Verif Require Import Elem FloatInst GeoModel GeoSpec.
Local Open Scope R_scope.

(** At least 2^-63 (f32) or 2^-511 (f64) in absolute value, or infinite: the square is not subnormal. *)
Definition sizeable {f} (x : flt f) : Prop := is_nan x = false /\ (is_finite x = true -> bpow radix2 ((2 - femax f) / 2) <= Rabs (B2R x)).
(** Less than 2^64 (f32) or 2^512 (f64): the square does not overflow. *)
Definition modest {f} (x : flt f) : Prop := is_finite x = true /\ Rabs (B2R x) < bpow radix2 (femax f / 2).
(** A zero of either sign. *)
Definition nought {f} (x : flt f) : Prop := is_finite x = true /\ B2R x = 0.
(** All coordinates but that on [i] are zero. *)
Definition along {f} (i : axis) (v : Vector3 (flt f)) : Prop := forall j, j <> i -> nought (vcoord j v).
