(** Property theorems about rounding errors. Nothing but statements, examples and [Print Assumptions]. *)
From Coq Require Import ZArith Reals Lra Lia List.
From Flocq Require Import Core.Core IEEE754.BinarySingleNaN.
From Verif Require Import Base Elem GeoModel MatModel MatSpec FloatInst GeoSpec ArithSpec OpsSpec FloatErrSpec.
From Verif Require Import FloatErrThms FloatSphere FloatFrame FloatErrEx.
Local Open Scope R_scope.

(** ** C82: a finite result differs from the exact value by few rounding errors *)
Theorem C82_dot : forall f (v w : Vector3 (flt f)) d, v3_dot (f_elem f) v w = Done d -> is_finite d = true ->
  within f 3 (dot_abs (v_real v) (v_real w)) (3 * half_tiny f) d (dotR (v_real v) (v_real w)).
Proof. exact dot_err. Qed.
Print Assumptions C82_dot.
Theorem C82_len_sq : forall f (v : Vector3 (flt f)) d, v3_len_sq (f_elem f) v = Done d -> is_finite d = true ->
  within f 3 (dotR (v_real v) (v_real v)) (3 * half_tiny f) d (dotR (v_real v) (v_real v)).
Proof. exact len_sq_err. Qed.
Print Assumptions C82_len_sq.
Theorem C82_len : forall f (v : Vector3 (flt f)) d, v3_len (f_float f) (f_elem f) (fun x => x) v = Done d -> is_finite d = true ->
  let u := half_ulp f in
  Rabs (B2R d - normR (v_real v)) <= ((1 + u) ^ 4 - 1) * normR (v_real v) + (1 + u) * sqrt ((1 + u) ^ 3 * (3 * half_tiny f)).
Proof. exact len_err. Qed.
Print Assumptions C82_len.
Theorem C82_cross : forall f (v w : Vector3 (flt f)) c i, v3_cross (f_elem f) v w = Done c -> is_finite (vcoord i c) = true ->
  within f 2 (cross_abs i (v_real v) (v_real w)) (2 * half_tiny f) (vcoord i c) (cross_r i (v_real v) (v_real w)).
Proof. exact cross_err. Qed.
Print Assumptions C82_cross.
Theorem C82_transform : forall f (t : Transform (flt f)) v w i, v3_transform (f_float f) (fun x => x) v t = Done w ->
  is_finite (vcoord i w) = true -> within f 3 (row_abs (m_real (t_m t)) (v_real v) (axis_ix i)) (3 * half_tiny f) (vcoord i w)
    (block_times (m_real (t_m t)) (v_real v) (axis_ix i)).
Proof. exact transform_err. Qed.
Print Assumptions C82_transform.
Theorem C82_product : forall f (a b p : Matrix4 (flt f)) r c, m4_mul (f_elem f) a b = Done p -> is_finite (mget p r c) = true ->
  within f 4 (entry_abs (m_real a) (m_real b) r c) (4 * half_tiny f) (mget p r c) (mget (prodR (m_real a) (m_real b)) r c).
Proof. exact product_err. Qed.
Print Assumptions C82_product.
Theorem C82_lerp : forall f (t a b d : flt f), lerp (f_float f) t a b = Done d -> is_finite d = true ->
  within f 3 (Rabs ((1 - B2R t) * B2R a) + Rabs (B2R t * B2R b)) (2 * half_tiny f) d ((1 - B2R t) * B2R a + B2R t * B2R b).
Proof. exact lerp_err. Qed.
Print Assumptions C82_lerp.
Theorem C82_p_lerp : forall f (t : flt f) p q w i, p3_lerp (f_float f) t p q = Done w -> is_finite (coord i w) = true ->
  within f 3 (Rabs ((1 - B2R t) * B2R (coord i p)) + Rabs (B2R t * B2R (coord i q))) (2 * half_tiny f) (coord i w)
    ((1 - B2R t) * B2R (coord i p) + B2R t * B2R (coord i q)).
Proof. exact p_lerp_err. Qed.
Print Assumptions C82_p_lerp.
Theorem C82_b_lerp : forall f (b : Bounds3 (flt f)) t w i, b3_lerp (f_float f) b t = Done w -> is_finite (coord i w) = true ->
  within f 3 (Rabs ((1 - B2R (coord i t)) * B2R (coord i (b_min b))) + Rabs (B2R (coord i t) * B2R (coord i (b_max b)))) (2 * half_tiny f)
    (coord i w) ((1 - B2R (coord i t)) * B2R (coord i (b_min b)) + B2R (coord i t) * B2R (coord i (b_max b))).
Proof. exact b_lerp_err. Qed.
Print Assumptions C82_b_lerp.
Theorem C82_ray : forall f (r : Ray (flt f)) t w i, ray_at (f_float f) r t = Done w -> is_finite (coord i w) = true ->
  within f 2 (Rabs (B2R (coord i (r_o r))) + Rabs (B2R t * B2R (vcoord i (r_d r)))) (half_tiny f) (coord i w)
    (B2R (coord i (r_o r)) + B2R t * B2R (vcoord i (r_d r))).
Proof. exact ray_err. Qed.
Print Assumptions C82_ray.
Theorem C82_volume : forall f (b : Bounds3 (flt f)) d, b3_volume (f_elem f) b = Done d -> is_finite d = true ->
  within f 5 (Rabs (box_volume (b_real b))) (half_tiny f * Rabs (side AZ (b_real b)) + half_tiny f) d (box_volume (b_real b)).
Proof. exact volume_err. Qed.
Print Assumptions C82_volume.
Theorem C82_surface : forall f (b : Bounds3 (flt f)) d, b3_surface_area (f_elem f) b = Done d -> is_finite d = true ->
  within f 5 (surface_abs (b_real b)) (6 * half_tiny f) d (box_surface (b_real b)).
Proof. exact surface_err. Qed.
Print Assumptions C82_surface.
(** The relative error of up to eight roundings is about as many units. *)
Theorem C82_units : forall f n, (n <= 8)%nat -> (1 + half_ulp f) ^ n - 1 <= (INR n + 1) * half_ulp f.
Proof. exact small_power. Qed.
Print Assumptions C82_units.
(** 0.1f32 (1, 2, 3) . (1, 1, 1), the length of (1, 2, 3), and so on have finite, rounded results. *)
Example C82_example : let x := f_div (f32 1) (f32 10) in let y := f_div (f32 2) (f32 7) in
  omap (@is_finite _ _) (v3_dot (f_elem F32) (V3 x y x) (V3 y y x)) = Done true /\
  omap (@is_finite _ _) (v3_len (f_float F32) (f_elem F32) (fun x => x) (V3 x y x)) = Done true /\
  omap (fun v => map (fun i => is_finite (vcoord i v)) [AX; AY; AZ]) (v3_cross (f_elem F32) (V3 x y x) (V3 y y x)) = Done [true; true; true] /\
  omap (fun p => map (fun i => is_finite (coord i p)) [AX; AY; AZ]) (p3_lerp (f_float F32) x (P3 x y x) (P3 y y y)) = Done [true; true; true] /\
  omap (@is_finite _ _) (b3_volume (f_elem F32) (bx x x y y y x)) = Done true /\
  omap (@is_finite _ _) (b3_surface_area (f_elem F32) (bx x x y y y x)) = Done true.
Proof. vm_compute. repeat split. Qed.
(** The results are not the exact values. *)
Example C82_inexact : exists d, v3_dot (f_elem F32) (V3 (f_div (f32 1) (f32 3)) (f32 0) (f32 0)) (V3 (f_div (f32 1) (f32 3)) (f32 0) (f32 0)) = Done d /\
  is_finite d = true /\ B2R d <> dotR (v_real (V3 (f_div (f32 1) (f32 3)) (f32 0) (f32 0))) (v_real (V3 (f_div (f32 1) (f32 3)) (f32 0) (f32 0))).
Proof. exact inexact_dot. Qed.

(** ** C83: the bounding sphere in floats *)
Theorem C83_centre : forall f (b : Bounds3 (flt f)) c r i, bounding_sphere (f_float f) b = Done (c, r) -> is_finite (coord i c) = true ->
  within f 2 (Rabs (vcoord i (mid (b_real b)))) (half_tiny f) (coord i c) (vcoord i (mid (b_real b))).
Proof. exact centre_err. Qed.
Print Assumptions C83_centre.
Theorem C83_radius : forall f (b : Bounds3 (flt f)) c r, bounding_sphere (f_float f) b = Done (c, r) -> inb (tle (TFloat f)) b c ->
  is_finite r = true -> let u := half_ulp f in let d := distR (p_real c) (p_real (b_max b)) in
  Rabs (B2R r - d) <= ((1 + u) ^ 5 - 1) * d + (1 + u) * sqrt ((1 + u) ^ 3 * (3 * half_tiny f)).
Proof. exact radius_err. Qed.
Print Assumptions C83_radius.
Theorem C83_contains : forall f (b : Bounds3 (flt f)) c r, bfinite b -> normalised (tle (TFloat f)) b ->
  bounding_sphere (f_float f) b = Done (c, r) -> (forall i, is_finite (coord i c) = true) -> is_finite r = true ->
  forall p, inb Rle (b_real b) p -> let u := half_ulp f in
    distR p (p_real c) <= (1 + 7 * u) * (B2R r + 2 * sqrt (half_tiny f)) + 6 * u * normR (mid (b_real b)) + 4 * half_tiny f.
Proof. exact sphere_contains. Qed.
Print Assumptions C83_contains.
(** Without the slack this is false: the corner of the cube from 0 to 2 is farther from (1, 1, 1) than sqrt 3 rounded to f32. *)
Theorem C83_slack_refuted : exists c r, let b := bx (f32 0) (f32 0) (f32 0) (f32 2) (f32 2) (f32 2) in
  bounding_sphere (f_float F32) b = Done (c, r) /\ normalised (tle (TFloat F32)) b /\ bfinite b /\ (forall i, is_finite (coord i c) = true) /\
  is_finite r = true /\ 0 <= B2R r /\ inb Rle (b_real b) (P3 0 0 0) /\ B2R r < distR (P3 0 0 0) (p_real c).
Proof. exact slack. Qed.
Print Assumptions C83_slack_refuted.

(** ** C84: coordinate_system in floats *)
Theorem C84_frame : forall f (v1 : Vector3 (flt f)), vfinite v1 -> bpow radix2 (-50) <= normR (v_real v1) <= bpow radix2 50 ->
  exists v2 v3, coordinate_system (f_float f) v1 = Done (v2, v3) /\ nearly_frame f v1 v2 v3.
Proof. exact system_float. Qed.
Print Assumptions C84_frame.
(** The bounds on the length are met by vectors of length about 1; far below them the result is not finite. *)
Example C84_example : vfinite (V3 (f32 1) (f32 2) (f32 (-2))) /\
  bpow radix2 (-50) <= normR (v_real (V3 (f32 1) (f32 2) (f32 (-2)))) <= bpow radix2 50.
Proof. exact example_frame. Qed.
Example C84_tiny : let t := f_div (f32 1) (f32 (2 ^ 100)) in is_finite t = true /\ Bltb (f32 0) t = true /\
  omap (fun p => map (fun i => is_finite (vcoord i (fst p))) [AX; AY; AZ]) (coordinate_system (f_float F32) (V3 t (f32 0) t)) = Done [false; false; false].
Proof. vm_compute. repeat split. Qed.
