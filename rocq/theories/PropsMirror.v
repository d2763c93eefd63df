(** Property theorems: mirrored scenes. Nothing but statements, examples and [Print Assumptions]. *)
From Coq Require Import ZArith Bool.
From Flocq Require Import IEEE754.BinarySingleNaN.
From Verif Require Import Base Elem GeoModel MatModel MatSpec FloatInst GeoSpec ArithSpec OpsSpec MirSpec.
From Verif Require Import FloatMirror.

(** ** C114: in f32 and f64 a mirrored scene gives mirrored results *)
(** Vectors. The cross product changes hands with an odd number of mirrors. *)
Theorem C114_vectors : forall f S (u u' v v' : Vector3 (flt f)) s, mir_vec f S u u' -> mir_vec f S v v' ->
  both (mir_vec f S) (v3_add (f_elem f) u v) (v3_add (f_elem f) u' v') /\ both (mir_vec f S) (v3_sub (f_elem f) u v) (v3_sub (f_elem f) u' v') /\
  both (mir_vec f S) (v3_mul (f_elem f) u s) (v3_mul (f_elem f) u' s) /\ both (mir_vec f S) (v3_div (f_elem f) u s) (v3_div (f_elem f) u' s) /\
  both (mir_vec f S) (v3_neg (f_elem f) u) (v3_neg (f_elem f) u') /\
  both (mir_vec f S) (v3_face_forward (f_elem f) u v) (v3_face_forward (f_elem f) u' v').
Proof. exact mirrored_vectors. Qed.
Print Assumptions C114_vectors.
Theorem C114_products : forall f S (u u' v v' : Vector3 (flt f)), mir_vec f S u u' -> mir_vec f S v v' ->
  both (veq f) (v3_dot (f_elem f) u v) (v3_dot (f_elem f) u' v') /\
  both (mir_vec f (fun i => xorb (odd S) (S i))) (v3_cross (f_elem f) u v) (v3_cross (f_elem f) u' v') /\
  both (veq f) (v3_len_sq (f_elem f) u) (v3_len_sq (f_elem f) u') /\
  both (veq f) (v3_len (f_float f) (f_elem f) (fun x => x) u) (v3_len (f_float f) (f_elem f) (fun x => x) u').
Proof. exact mirrored_products. Qed.
Print Assumptions C114_products.
(** Points and rays. *)
Theorem C114_points : forall f S (p p' q q' : Point3 (flt f)) (v v' : Vector3 (flt f)) s, mir_pt f S p p' -> mir_pt f S q q' -> mir_vec f S v v' ->
  both (mir_pt f S) (p3_add (f_elem f) p v) (p3_add (f_elem f) p' v') /\ both (mir_pt f S) (p3_sub_v (f_elem f) p v) (p3_sub_v (f_elem f) p' v') /\
  both (mir_vec f S) (p3_sub (f_elem f) p q) (p3_sub (f_elem f) p' q') /\
  both (mir_pt f S) (p3_mul (f_elem f) p s) (p3_mul (f_elem f) p' s) /\ both (mir_pt f S) (p3_div (f_elem f) p s) (p3_div (f_elem f) p' s) /\
  both (mir_pt f S) (p3_lerp (f_float f) s p q) (p3_lerp (f_float f) s p' q') /\
  mir_box f S (B3 (p3_floor (f_float f) p) (p3_ceil (f_float f) p)) (B3 (p3_floor (f_float f) p') (p3_ceil (f_float f) p')).
Proof. exact mirrored_points. Qed.
Print Assumptions C114_points.
Theorem C114_rays : forall f S (r r' : Ray (flt f)) t, mir_ray f S r r' -> both (mir_pt f S) (ray_at (f_float f) r t) (ray_at (f_float f) r' t).
Proof. exact ray_mir. Qed.
Print Assumptions C114_rays.
(** Boxes without NaN; lower and upper bounds change places. *)
Theorem C114_boxes : forall f S (a a' b b' : Bounds3 (flt f)) (p p' : Point3 (flt f)) d, mir_box f S a a' -> mir_box f S b b' -> mir_pt f S p p' ->
  box_valid (TFloat f) a -> box_valid (TFloat f) b -> pt_valid (TFloat f) p -> is_finite d = true ->
  both (mir_box f S) (b3_union (f_elem f) a b) (b3_union (f_elem f) a' b') /\ both (mir_box f S) (b3_union_pt (f_elem f) a p) (b3_union_pt (f_elem f) a' p') /\
  both (mir_box f S) (b3_intersect (f_elem f) a b) (b3_intersect (f_elem f) a' b') /\ both (mir_box f S) (b3_expand (f_elem f) a d) (b3_expand (f_elem f) a' d).
Proof. exact mirrored_boxes. Qed.
Print Assumptions C114_boxes.
(** NaN does no harm here. *)
Theorem C114_box_measures : forall f S (a a' b b' : Bounds3 (flt f)) (p p' q q' : Point3 (flt f)), mir_box f S a a' -> mir_box f S b b' -> mir_pt f S p p' -> mir_pt f S q q' ->
  both (mir_box f S) (b3_new (f_elem f) p q) (b3_new (f_elem f) p' q') /\
  b3_overlaps (f_elem f) a b = b3_overlaps (f_elem f) a' b' /\ b3_inside (f_elem f) a p = b3_inside (f_elem f) a' p' /\
  both (vveq f) (b3_diagonal (f_elem f) a) (b3_diagonal (f_elem f) a') /\ both (veq f) (b3_volume (f_elem f) a) (b3_volume (f_elem f) a') /\
  both (veq f) (b3_surface_area (f_elem f) a) (b3_surface_area (f_elem f) a') /\ b3_maximum_extent (f_elem f) a = b3_maximum_extent (f_elem f) a' /\
  both (fun c c' => mir_pt f S (fst c) (fst c')) (bounding_sphere (f_float f) a) (bounding_sphere (f_float f) a').
Proof. exact mirrored_measures. Qed.
Print Assumptions C114_box_measures.
(** Matrices, with mirrors [S] before and [T] after; the inverse is in C112. *)
Theorem C114_matrices : forall f S T U (a a' b b' c c' : Matrix4 (flt f)) (t t' : Transform (flt f)) (v v' d d' : Vector3 (flt f)),
  mir_mat f S T a a' -> mir_mat f T U b b' -> mir_mat f S T c c' -> mir_mat f S T (t_m t) (t_m t') -> mir_vec f T v v' -> mir_vec f S d d' ->
  both (mir_mat f S U) (m4_mul (f_elem f) a b) (m4_mul (f_elem f) a' b') /\ both (mir_mat f S T) (m4_add (f_elem f) a c) (m4_add (f_elem f) a' c') /\
  both (mir_vec f S) (v3_transform (f_float f) (fun x => x) v t) (v3_transform (f_float f) (fun x => x) v' t') /\
  t_has_scale (f_float f) t = t_has_scale (f_float f) t' /\
  both (fun x x' => mir_mat f S S (t_m x) (t_m x') /\ mir_mat f S S (t_inv x) (t_inv x')) (t_translate (f_float f) d) (t_translate (f_float f) d').
Proof. exact mirrored_matrices. Qed.
Print Assumptions C114_matrices.
(** What does not commute with mirrors: the half-open boxes of inside_exclusive, the radius of the bounding sphere, which is measured to
    one corner, and boxes with NaN. *)
Theorem C114_exclusive_refuted : exists S (a a' : Bounds3 (flt F32)) p p', mir_box F32 S a a' /\ mir_pt F32 S p p' /\ bfinite a /\ pfinite p /\
  b3_inside_exclusive (f_elem F32) a p = true /\ b3_inside_exclusive (f_elem F32) a' p' = false.
Proof. exact exclusive_case. Qed.
Print Assumptions C114_exclusive_refuted.
Theorem C114_radius_refuted : exists S (a a' : Bounds3 (flt F32)), mir_box F32 S a a' /\ bfinite a /\
  omap (fun c => B2SF (snd c)) (bounding_sphere (f_float F32) a) = Done (B2SF (f32 8388608)) /\
  omap (fun c => B2SF (snd c)) (bounding_sphere (f_float F32) a') = Done (B2SF (f32 8388607)).
Proof. exact radius_case. Qed.
Print Assumptions C114_radius_refuted.
Theorem C114_nan_refuted : exists S (a a' b b' : Bounds3 (flt F32)), mir_box F32 S a a' /\ mir_box F32 S b b' /\ bfinite b /\
  omap (fun c => is_nan (px (b_max c))) (b3_union (f_elem F32) a b) = Done true /\
  omap (fun c => is_nan (px (b_min c))) (b3_union (f_elem F32) a' b') = Done false.
Proof. exact mirror_nan_case. Qed.
Print Assumptions C114_nan_refuted.
Example C114_case : let S := mirror_x in let a := bx (f32 1) (f32 0) (f32 0) (f32 3) (f32 1) (f32 1) in let a' := bx (f32 (-3)) (f32 0) (f32 0) (f32 (-1)) (f32 1) (f32 1) in
  let u := V3 (f32 1) (f32 2) (f32 3) in let u' := V3 (f32 (-1)) (f32 2) (f32 3) in let v := V3 (f32 0) (f32 1) (f32 5) in let p := P3 (f32 2) (f32 1) (f32 0) in let p' := P3 (f32 (-2)) (f32 1) (f32 0) in
  mir_box F32 S a a' /\ mir_vec F32 S u u' /\ mir_vec F32 S v v /\ mir_pt F32 S p p' /\ box_valid (TFloat F32) a /\ pt_valid (TFloat F32) p /\
  b3_inside (f_elem F32) a p = true /\ b3_inside (f_elem F32) a' p' = true /\
  omap vsf (v3_cross (f_elem F32) u v) = Done (vsf (V3 (f32 7) (f32 (-5)) (f32 1))) /\
  omap vsf (v3_cross (f_elem F32) u' v) = Done (vsf (V3 (f32 7) (f32 5) (f32 (-1)))).
Proof. exact mirror_case. Qed.
Example C114_matrix_case : let S := mirror_x in let d := V3 (f32 1) (f32 2) (f32 3) in let d' := V3 (f32 (-1)) (f32 2) (f32 3) in
  mir_vec F32 S d d' /\
  (forall r c, mget (W4 (W4 (f32 1) (f32 0) (f32 0) (f32 1)) (W4 (f32 0) (f32 1) (f32 0) (f32 2)) (W4 (f32 0) (f32 0) (f32 1) (f32 3)) (W4 (f32 0) (f32 0) (f32 0) (f32 1))) r c =
    match t_translate (f_float F32) d with Done t => mget (t_m t) r c | _ => f_nan end) /\
  mir_mat F32 S S (W4 (W4 (f32 2) (f32 3) (f32 0) (f32 1)) (W4 (f32 4) (f32 1) (f32 0) (f32 2)) (W4 (f32 0) (f32 0) (f32 1) (f32 3)) (W4 (f32 0) (f32 0) (f32 0) (f32 1)))
    (W4 (W4 (f32 2) (f32 (-3)) (f32 0) (f32 (-1))) (W4 (f32 (-4)) (f32 1) (f32 0) (f32 2)) (W4 (f32 0) (f32 0) (f32 1) (f32 3)) (W4 (f32 0) (f32 0) (f32 0) (f32 1))).
Proof. exact mirror_transform_case. Qed.
