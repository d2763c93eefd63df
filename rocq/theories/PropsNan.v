(** Property theorems: where NaN comes from. Nothing but statements, examples and [Print Assumptions]. *)
From Coq Require Import ZArith Reals.
From Flocq Require Import Core.Core IEEE754.BinarySingleNaN.
From Verif Require Import Base Elem GeoModel MatModel MatSpec FloatInst GeoSpec ArithSpec OpsSpec NanSpec.
From Verif Require Import FloatNanOps FloatThird.

(** ** C118: which results are NaN *)
Theorem C118_points : forall f (p q : Point3 (flt f)) (v : Vector3 (flt f)) (s : flt f), nan_where coord (fun i => nan_sum (coord i p) (vcoord i v)) (p3_add (f_elem f) p v) /\ nan_where coord (fun i => nan_diff (coord i p) (vcoord i v)) (p3_sub_v (f_elem f) p v) /\
  nan_where vcoord (fun i => nan_diff (coord i p) (coord i q)) (p3_sub (f_elem f) p q) /\
  nan_where coord (fun i => nan_prod s (coord i p)) (p3_mul (f_elem f) p s) /\ nan_where coord (fun i => nan_quot (coord i p) s) (p3_div (f_elem f) p s).
Proof. exact points_nan. Qed.
Print Assumptions C118_points.
Theorem C118_vectors : forall f (u v : Vector3 (flt f)) (s : flt f), nan_where vcoord (fun i => nan_sum (vcoord i u) (vcoord i v)) (v3_add (f_elem f) u v) /\ nan_where vcoord (fun i => nan_diff (vcoord i u) (vcoord i v)) (v3_sub (f_elem f) u v) /\
  nan_where vcoord (fun i => nan_prod s (vcoord i u)) (v3_mul (f_elem f) u s) /\ nan_where vcoord (fun i => nan_quot (vcoord i u) s) (v3_div (f_elem f) u s) /\
  nan_where vcoord (fun i => nan (vcoord i u)) (v3_neg (f_elem f) u).
Proof. exact vectors_nan. Qed.
Print Assumptions C118_vectors.
(** A length is NaN only if a component is. *)
Theorem C118_length : forall f (v : Vector3 (flt f)), exists l, v3_len (f_float f) (f_elem f) (fun x => x) v = Done l /\
  (nan l <-> exists i, nan (vcoord i v)) /\ ((forall i, ~ nan (vcoord i v)) -> (exists i, infinite (vcoord i v)) -> l = B754_infinity false).
Proof. exact length_nan. Qed.
Print Assumptions C118_length.
(** Finite vectors: only by overflow. *)
Theorem C118_products : forall f (u v : Vector3 (flt f)), vfinite u -> vfinite v ->
  (exists d, v3_dot (f_elem f) u v = Done d /\ (nan d -> exists i, infinite (f_mult (vcoord i u) (vcoord i v)))) /\
  nan_where vcoord (fun i => let '(j, k) := match i with AX => (AY, AZ) | AY => (AZ, AX) | AZ => (AX, AY) end in
    nan_diff (f_mult (vcoord j u) (vcoord k v)) (f_mult (vcoord k u) (vcoord j v))) (v3_cross (f_elem f) u v).
Proof. exact products_nan. Qed.
Print Assumptions C118_products.
Theorem C118_matrices : forall f (a b : Matrix4 (flt f)), mfinite a -> mfinite b ->
  exists p, m4_mul (f_elem f) a b = Done p /\ forall r c, nan (mget p r c) -> exists i, infinite (f_mult (mget a r i) (mget b i c)).
Proof. exact matrices_nan. Qed.
Print Assumptions C118_matrices.
(** A point of a finite ray is NaN only at infinity, where the direction is zero. *)
Theorem C118_ray : forall f (r : Ray (flt f)) (t : flt f), (forall i, is_finite (coord i (r_o r)) = true) -> vfinite (r_d r) -> ~ nan t ->
  nan_where coord (fun i => infinite t /\ null (vcoord i (r_d r))) (ray_at (f_float f) r t).
Proof. exact ray_nan. Qed.
Print Assumptions C118_ray.
(** Finite boxes: only if the extent overflows. *)
Theorem C118_offset : forall f (b : Bounds3 (flt f)) (p : Point3 (flt f)), bfinite b -> (forall i, is_finite (coord i p) = true) ->
  nan_where vcoord (fun i => infinite (f_sub (coord i p) (coord i (b_min b))) /\ infinite (f_sub (coord i (b_max b)) (coord i (b_min b))) /\
    Bltb (coord i (b_min b)) (coord i (b_max b)) = true) (b3_offset (f_elem f) b p).
Proof. exact offset_nan. Qed.
Print Assumptions C118_offset.
(** The box of everything has no relative coordinates and no bounding sphere. *)
Theorem C118_everything : forall f (p : Point3 (flt f)), (forall i, is_finite (coord i p) = true) -> exists b, b3_new_inf (f_elem f) = Done b /\
  nan_where vcoord (fun _ => True) (b3_offset (f_elem f) b p) /\
  (exists c, bounding_sphere (f_float f) b = Done (c, (f_of_int f 0)) /\ forall i, nan (coord i c)) /\
  b3_volume (f_elem f) b = Done (B754_infinity false) /\ b3_surface_area (f_elem f) b = Done (B754_infinity false).
Proof. exact everything_nan. Qed.
Print Assumptions C118_everything.
(** If the squares vanish both vectors have NaN in them, otherwise both are finite. *)
Theorem C118_coordinate_system : forall f (v : Vector3 (flt f)), vfinite v -> exists u w, coordinate_system (f_float f) v = Done (u, w) /\
  let s := if Bltb (Babs (vy v)) (Babs (vx v)) then f_add (f_mult (vx v) (vx v)) (f_mult (vz v) (vz v)) else f_add (f_mult (vy v) (vy v)) (f_mult (vz v) (vz v)) in
  (null s -> (exists i, nan (vcoord i u)) /\ exists i, nan (vcoord i w)) /\ (~ null s -> vfinite u /\ vfinite w).
Proof. exact frame_finite. Qed.
Print Assumptions C118_coordinate_system.
Example C118_coordinate_example : vfinite (V3 (f32 1) (f32 2) (f32 3)) /\ ~ null (f_add (f_mult (f32 2) (f32 2)) (f_mult (f32 3) (f32 3))).
Proof. split; [intros []; reflexivity|intros H; exact H]. Qed.
(** All of these happen. *)
Example C118_cases : let h := f32 (2 ^ 127) in let m := f32 (- 2 ^ 127) in let tiny := f_div (f32 1) (f32 (2 ^ 100)) in let inf := f_inf F32 in
  (vfinite (V3 h h (f32 0)) /\ vfinite (V3 h m (f32 0)) /\ omap B2SF (v3_dot (f_elem F32) (V3 h h (f32 0)) (V3 h m (f32 0))) = Done SpecFloat.S754_nan) /\
  (omap psf (ray_at (f_float F32) (mkRay (P3 (f32 1) (f32 2) (f32 3)) (V3 (f32 1) (f32 0) (f32 (-1))) inf (f32 0) tt) inf) =
    Done (SpecFloat.S754_infinity false, SpecFloat.S754_nan, SpecFloat.S754_infinity true)) /\
  (bfinite (bx m m m h h h) /\ omap vsf (b3_offset (f_elem F32) (bx m m m h h h) (P3 h (f32 0) m)) = Done (SpecFloat.S754_nan, SpecFloat.S754_zero false, SpecFloat.S754_zero false)) /\
  (vfinite (V3 tiny tiny tiny) /\ omap (fun p => vsf (fst p)) (coordinate_system (f_float F32) (V3 tiny tiny tiny)) =
    Done (SpecFloat.S754_nan, SpecFloat.S754_infinity false, SpecFloat.S754_infinity true)).
Proof. exact nan_cases. Qed.
