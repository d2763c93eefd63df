(** Vocabulary for rounding errors: how far a float result is from the exact value. *)
From Coq Require Import ZArith Reals.
From Flocq Require Import Core.Core IEEE754.BinarySingleNaN.
From Verif Require Import Base Elem GeoModel FloatInst MatModel MatSpec GeoSpec OpsSpec.
Local Open Scope R_scope.

(** The relative error of one rounding, 2^-24 in f32 and 2^-53 in f64. *)
Definition half_ulp f : R := bpow radix2 (- fprec f).
(** The absolute error of one rounding among the subnormal numbers: half of the smallest positive float. *)
Definition half_tiny f : R := / 2 * bpow radix2 (3 - femax f - fprec f).

(** [within f n A K x X]: after [n] roundings, [x] differs from [X] by at most the relative error of [n] roundings of
    quantities of size [A], and [K] as much again for underflow. *)
Definition within f (n : nat) (A K : R) (x : flt f) (X : R) : Prop :=
  Rabs (B2R x - X) <= ((1 + half_ulp f) ^ n - 1) * A + (1 + half_ulp f) ^ n * K.

(** Real values of vectors, points and matrices of floats. *)
Definition v_real {f} (v : Vector3 (flt f)) : Vector3 R := V3 (B2R (vx v)) (B2R (vy v)) (B2R (vz v)).
Definition p_real {f} (p : Point3 (flt f)) : Point3 R := P3 (B2R (px p)) (B2R (py p)) (B2R (pz p)).
Definition b_real {f} (b : Bounds3 (flt f)) : Bounds3 R := B3 (p_real (b_min b)) (p_real (b_max b)).

(** The dot product with absolute values of the terms; a component of the cross product, and with absolute values. *)
Definition dot_abs (u v : Vector3 R) : R := Rabs (vx u * vx v) + Rabs (vy u * vy v) + Rabs (vz u * vz v).
Definition next_axis i : axis := match i with AX => AY | AY => AZ | AZ => AX end.
Definition cross_r i (u v : Vector3 R) : R :=
  let j := next_axis i in let k := next_axis j in vcoord j u * vcoord k v - vcoord k u * vcoord j v.
Definition cross_abs i (u v : Vector3 R) : R :=
  let j := next_axis i in let k := next_axis j in Rabs (vcoord j u * vcoord k v) + Rabs (vcoord k u * vcoord j v).
(** A row of the upper block times a vector, and an entry of a product of matrices, with absolute values of the terms. *)
Definition m_real {f} (m : Matrix4 (flt f)) : Matrix4 R := mkm (fun r c => B2R (mget m r c)).
Definition row_abs (m : Matrix4 R) (v : Vector3 R) (r : ix) : R :=
  Rabs (mget m r I0 * vx v) + Rabs (mget m r I1 * vy v) + Rabs (mget m r I2 * vz v).
Definition entry_abs (a b : Matrix4 R) (r c : ix) : R :=
  Rabs (mget a r I0 * mget b I0 c) + Rabs (mget a r I1 * mget b I1 c) + Rabs (mget a r I2 * mget b I2 c) + Rabs (mget a r I3 * mget b I3 c).
(** Sides, volume and surface of a box; the surface with absolute values of the areas. *)
Definition side i (b : Bounds3 R) : R := coord i (b_max b) - coord i (b_min b).
Definition box_volume (b : Bounds3 R) : R := side AX b * side AY b * side AZ b.
Definition box_surface (b : Bounds3 R) : R := 2 * (side AX b * side AY b + side AX b * side AZ b + side AY b * side AZ b).
Definition surface_abs (b : Bounds3 R) : R :=
  2 * (Rabs (side AX b * side AY b) + Rabs (side AX b * side AZ b) + Rabs (side AY b * side AZ b)).
(** The middle of a box, and the distance of two points. *)
Definition mid (b : Bounds3 R) : Vector3 R :=
  V3 ((px (b_min b) + px (b_max b)) / 2) ((py (b_min b) + py (b_max b)) / 2) ((pz (b_min b) + pz (b_max b)) / 2).
Definition distR (p q : Point3 R) : R := normR (V3 (px p - px q) (py p - py q) (pz p - pz q)).
(** Three vectors of floats that are up to rounding errors a right-handed orthogonal system in which the second has length 1
    and the third is as long as the first. *)
Definition nearly_frame f (v1 v2 v3 : Vector3 (flt f)) : Prop :=
  let u := half_ulp f in let a := v_real v1 in let b := v_real v2 in let c := v_real v3 in
  (forall i, is_finite (vcoord i v2) = true) /\ (forall i, is_finite (vcoord i v3) = true) /\
  Rabs (normR b - 1) <= 7 * u /\ Rabs (normR c - normR a) <= 11 * u * normR a /\
  Rabs (dotR a b) <= 7 * u * normR a /\ Rabs (dotR a c) <= 4 * u * (normR a * normR a) /\ Rabs (dotR b c) <= 5 * u * normR a /\
  0 < triple a b c.
