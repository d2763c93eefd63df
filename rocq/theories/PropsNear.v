(** Property theorems about differences in floats: C133. Nothing but statements, examples and [Print Assumptions]. *)
From Coq Require Import ZArith Reals.
From Flocq Require Import Core.Core IEEE754.BinarySingleNaN.
From Verif Require Import GeoSpec Base Elem FloatInst GeoModel NearSpec FloatNear.
Local Open Scope R_scope.

(** ** C133: differences in floats have the right sign, and those of numbers near each other are exact *)
Theorem C133_points : forall f (p q : Point3 (flt f)), exists d, p3_sub (f_elem f) p q = Done d /\
  forall i, tells (vcoord i d) (coord i p) (coord i q).
Proof. exact points_sign. Qed.
Print Assumptions C133_points.
Theorem C133_shift : forall f (p : Point3 (flt f)) v, exists d, p3_sub_v (f_elem f) p v = Done d /\
  forall i, tells (coord i d) (coord i p) (vcoord i v).
Proof. exact shift_sign. Qed.
Print Assumptions C133_shift.
Theorem C133_vectors : forall f (v w : Vector3 (flt f)), exists d, v3_sub (f_elem f) v w = Done d /\
  forall i, tells (vcoord i d) (vcoord i v) (vcoord i w).
Proof. exact vectors_sign. Qed.
Print Assumptions C133_vectors.
Theorem C133_normals : forall f (m n : Normal3 (flt f)), exists d, n3_sub (f_elem f) m n = Done d /\
  forall i, tells (ncoord i d) (ncoord i m) (ncoord i n).
Proof. exact normals_sign. Qed.
Print Assumptions C133_normals.
(** A side of a box is zero only if the corners agree there, and negative only if they are the wrong way round. *)
Theorem C133_diagonal : forall f (s : Bounds3 (flt f)), exists d, b3_diagonal (f_elem f) s = Done d /\
  forall i, tells (vcoord i d) (coord i (b_max s)) (coord i (b_min s)).
Proof. exact diagonal_sign. Qed.
Print Assumptions C133_diagonal.
(** Differences of numbers within a factor of two of each other are exact. *)
Theorem C133_points_exact : forall f (p q : Point3 (flt f)), exists d, p3_sub (f_elem f) p q = Done d /\
  forall i, near (coord i p) (coord i q) -> exactly (vcoord i d) (B2R (coord i p) - B2R (coord i q)).
Proof. exact points_exact. Qed.
Print Assumptions C133_points_exact.
Theorem C133_vectors_exact : forall f (v w : Vector3 (flt f)), exists d, v3_sub (f_elem f) v w = Done d /\
  forall i, near (vcoord i v) (vcoord i w) -> exactly (vcoord i d) (B2R (vcoord i v) - B2R (vcoord i w)).
Proof. exact vectors_exact. Qed.
Print Assumptions C133_vectors_exact.
Theorem C133_normals_exact : forall f (m n : Normal3 (flt f)), exists d, n3_sub (f_elem f) m n = Done d /\
  forall i, near (ncoord i m) (ncoord i n) -> exactly (ncoord i d) (B2R (ncoord i m) - B2R (ncoord i n)).
Proof. exact normals_exact. Qed.
Print Assumptions C133_normals_exact.
Theorem C133_sides_exact : forall f (s : Bounds3 (flt f)), exists d, b3_diagonal (f_elem f) s = Done d /\
  forall i, near (coord i (b_max s)) (coord i (b_min s)) -> exactly (vcoord i d) (B2R (coord i (b_max s)) - B2R (coord i (b_min s))).
Proof. exact sides_exact. Qed.
Print Assumptions C133_sides_exact.
(** The way from one point to another near it leads there. *)
Theorem C133_back : forall f (p q : Point3 (flt f)), exists d r, p3_sub (f_elem f) p q = Done d /\ p3_add (f_elem f) q d = Done r /\
  forall i, near (coord i p) (coord i q) -> exactly (coord i r) (B2R (coord i p)).
Proof. exact there_and_back. Qed.
Print Assumptions C133_back.
Theorem C133_ray : forall f (p q : Point3 (flt f)) t_max time, exists d r, p3_sub (f_elem f) p q = Done d /\
  ray_at (f_float f) (mkRay q d t_max time tt) (f_of_int f 1) = Done r /\
  forall i, near (coord i p) (coord i q) -> exactly (coord i r) (B2R (coord i p)).
Proof. exact through. Qed.
Print Assumptions C133_ray.
(** It need not lead there if the points are far apart: from 2^25 the way to 1 leads to 0. *)
Theorem C133_far_refuted : exists (p q r : Point3 (flt F32)) d, (forall i, is_finite (coord i p) = true /\ is_finite (coord i q) = true) /\
  p3_sub (f_elem F32) p q = Done d /\ p3_add (f_elem F32) q d = Done r /\ exactly (px p) 1 /\ exactly (px r) 0.
Proof. exact far_case. Qed.
Print Assumptions C133_far_refuted.
(** Different points may be at distance zero although their difference is not. *)
Theorem C133_distance_refuted : exists (p q : Point3 (flt F32)) d, p3_sub (f_elem F32) p q = Done d /\
  Bcompare (px p) (px q) = Some Gt /\ v3_len (f_float F32) (f_elem F32) (fun x => x) d = Done (f32 0).
Proof. exact close_case. Qed.
Print Assumptions C133_distance_refuted.
Example C133_example : near (f32 5) (f32 3) /\ near (f32 (-3)) (f32 (-5)) /\ near (f32 0) (f32 0) /\ ~ near (f32 7) (f32 3).
Proof. exact near_example. Qed.
Example C133_example_sign : is_nan (f_sub (f32 3) (B754_infinity false)) = false /\ is_nan (f_sub (f32 7) (f32 3)) = false.
Proof. vm_compute. split; reflexivity. Qed.
