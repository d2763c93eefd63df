(** Specification for C116: the same scene in another unit of length, a power of two times smaller. *)
From Coq Require Import ZArith Reals.
From Flocq Require Import Core.Core IEEE754.BinarySingleNaN.
From Verif Require Import Base FloatInst GeoModel MatModel GeoSpec ArithSpec.
Local Open Scope R_scope.

(** [y] is [2^k] times [x], exactly; infinities and NaN are the same. *)
Definition scaled f (k : Z) (x y : flt f) : Prop :=
  (is_finite x = true /\ is_finite y = true /\ B2R y = B2R x * bpow radix2 k) \/ (is_finite x = false /\ y = x).
Definition scaled_pt f k (p q : Point3 (flt f)) : Prop := forall i, scaled f k (coord i p) (coord i q).
Definition scaled_vec f k (u v : Vector3 (flt f)) : Prop := forall i, scaled f k (vcoord i u) (vcoord i v).
Definition scaled_box f k (a b : Bounds3 (flt f)) : Prop := scaled_pt f k (b_min a) (b_min b) /\ scaled_pt f k (b_max a) (b_max b).
(** Zero, or large enough for full precision. *)
Definition not_tiny f (r : R) : Prop := r = 0 \/ bpow radix2 (2 - femax f) <= Rabs r.
(** Both computations end; the relation holds wherever the second result, the larger one, is finite. *)
Definition upto_overflow {A} (fin : A -> Prop) (R : A -> A -> Prop) (x y : out A) : Prop := exists a b, x = Done a /\ y = Done b /\ (fin b -> R a b).
(** The same, coordinate by coordinate. *)
Definition up_pt f k (p q : Point3 (flt f)) : Prop := forall i, is_finite (coord i q) = true -> scaled f k (coord i p) (coord i q).
Definition up_vec f k (u v : Vector3 (flt f)) : Prop := forall i, is_finite (vcoord i v) = true -> scaled f k (vcoord i u) (vcoord i v).
