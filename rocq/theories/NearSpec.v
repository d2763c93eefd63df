(** Specification for C133: numbers within a factor of two of each other. *)
From Coq Require Import Reals.
From Flocq Require Import IEEE754.BinarySingleNaN.
From Verif Require Import Elem FloatInst GeoModel GeoSpec.
Local Open Scope R_scope.

(** Two finite floats of the same sign, neither more than twice the other. *)
Definition near {f} (x y : flt f) : Prop := is_finite x = true /\ is_finite y = true /\
  ((0 <= B2R y /\ B2R y / 2 <= B2R x <= 2 * B2R y) \/ (B2R y <= 0 /\ 2 * B2R y <= B2R x <= B2R y / 2)).
(** [x] is a finite float with the value [r]. *)
Definition exactly {f} (x : flt f) (r : R) : Prop := is_finite x = true /\ B2R x = r.
(** The difference [d] tells which of [x] and [y] is larger, unless it is NaN. *)
Definition tells {f} (d x y : flt f) : Prop := is_nan d = false -> Bcompare d (f_of_int f 0) = Bcompare x y.
