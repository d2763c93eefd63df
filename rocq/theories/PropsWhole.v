(** Property theorems about floats that are whole numbers: C128, C129. Nothing but statements, examples and [Print Assumptions]. *)
From Coq Require Import ZArith Reals List Lia.
From Flocq Require Import Core.Core IEEE754.BinarySingleNaN.
From Verif Require Import GeoSpec Base Elem FloatInst GeoModel MatModel ArithSpec MatSpec OpsSpec IterSpec ChkSpec WholeSpec FloatWhole FloatIter.
Import ListNotations.
Local Open Scope Z_scope.

(** ** C128: whole numbers of moderate size are computed exactly, and as with i64 *)
(** Points *)
Theorem C128_points : forall (f : fmt) (p : Point3 (flt f)) (p' : Point3 Z) (q : Point3 (flt f)) (q' : Point3 Z) (v : Vector3 (flt f)) (v' : Vector3 Z) (s : flt f) (s' : Z),
  h_p3 p p' ->
  h_p3 q q' ->
  h_v3 v v' ->
  holds s s' ->
  agree f h_p3 (steps_of (addZ (loc p') v')) (p3_add (f_elem f) p v) (fun chk => p3_add (i64 chk) p' v') (pnt_of (addZ (loc p') v')) /\
  agree f h_p3 (steps_of (subZ (loc p') v')) (p3_sub_v (f_elem f) p v) (fun chk => p3_sub_v (i64 chk) p' v') (pnt_of (subZ (loc p') v')) /\
  agree f h_v3 (steps_of (subZ (loc p') (loc q'))) (p3_sub (f_elem f) p q) (fun chk => p3_sub (i64 chk) p' q') (subZ (loc p') (loc q')) /\
  agree f h_p3 (steps_of (scaleZ s' (loc p'))) (p3_mul (f_elem f) p s) (fun chk => p3_mul (i64 chk) p' s') (pnt_of (scaleZ s' (loc p'))) /\
  agree f h_p3 (steps_of (loc p')) (p3_abs (f_elem f) p) (fun chk => p3_abs (i64 chk) p') (pnt_of (mapv Z.abs (loc p'))).
Proof. exact e_points. Qed.
Print Assumptions C128_points.
(** Vectors *)
Theorem C128_vectors : forall (f : fmt) (u : Vector3 (flt f)) (u' : Vector3 Z) (v : Vector3 (flt f)) (v' : Vector3 Z) (s : flt f) (s' : Z),
  h_v3 u u' ->
  h_v3 v v' ->
  holds s s' ->
  agree f h_v3 (steps_of (addZ u' v')) (v3_add (f_elem f) u v) (fun chk => v3_add (i64 chk) u' v') (addZ u' v') /\
  agree f h_v3 (steps_of (subZ u' v')) (v3_sub (f_elem f) u v) (fun chk => v3_sub (i64 chk) u' v') (subZ u' v') /\
  agree f h_v3 (steps_of (scaleZ s' u')) (v3_mul (f_elem f) u s) (fun chk => v3_mul (i64 chk) u' s') (scaleZ s' u') /\
  agree f h_v3 (steps_of (negZ u')) (v3_neg (f_elem f) u) (fun chk => v3_neg (i64 chk) u') (negZ u') /\
  agree f holds (dot_steps u' v') (v3_dot (f_elem f) u v) (fun chk => v3_dot (i64 chk) u' v') (dotZ u' v') /\
  agree f holds (dot_steps u' u') (v3_len_sq (f_elem f) u) (fun chk => v3_len_sq (i64 chk) u') (dotZ u' u') /\
  agree f h_v3 (cross_steps u' v') (v3_cross (f_elem f) u v) (fun chk => v3_cross (i64 chk) u' v') (crossZ u' v').
Proof. exact e_vectors. Qed.
Print Assumptions C128_vectors.
(** Normals *)
Theorem C128_normals : forall (f : fmt) (u : Normal3 (flt f)) (u' : Normal3 Z) (v : Normal3 (flt f)) (v' : Normal3 Z) (s : flt f) (s' : Z),
  h_n3 u u' ->
  h_n3 v v' ->
  holds s s' ->
  let a := vec_of u' in
  let b := vec_of v' in
  agree f h_n3 (steps_of (addZ a b)) (n3_add (f_elem f) u v) (fun chk => n3_add (i64 chk) u' v') (nrm_of (addZ a b)) /\
  agree f h_n3 (steps_of (subZ a b)) (n3_sub (f_elem f) u v) (fun chk => n3_sub (i64 chk) u' v') (nrm_of (subZ a b)) /\
  agree f h_n3 (steps_of (scaleZ s' a)) (n3_mul (f_elem f) u s) (fun chk => n3_mul (i64 chk) u' s') (nrm_of (scaleZ s' a)) /\
  agree f h_n3 (steps_of (negZ a)) (n3_neg (f_elem f) u) (fun chk => n3_neg (i64 chk) u') (nrm_of (negZ a)) /\
  agree f holds (dot_steps a b) (n3_dot (f_elem f) u v) (fun chk => n3_dot (i64 chk) u' v') (dotZ a b) /\
  agree f holds (dot_steps a a) (n3_len_sq (f_elem f) u) (fun chk => n3_len_sq (i64 chk) u') (dotZ a a) /\
  agree f h_n3 (cross_steps a b) (n3_cross (f_elem f) u v) (fun chk => n3_cross (i64 chk) u' v') (nrm_of (crossZ a b)).
Proof. exact e_normals. Qed.
Print Assumptions C128_normals.
(** [face_forward] of vectors *)
Theorem C128_face_forward : forall (f : fmt) (u : Vector3 (flt f)) (u' : Vector3 Z) (v : Vector3 (flt f)) (v' : Vector3 Z),
  h_v3 u u' ->
  h_v3 v v' ->
  agree f h_v3 (dot_steps u' v' ++ (if dotZ u' v' <? 0 then steps_of (negZ u') else [])) (v3_face_forward (f_elem f) u v)
    (fun chk => v3_face_forward (i64 chk) u' v') (if dotZ u' v' <? 0 then negZ u' else u').
Proof. exact e_face. Qed.
Print Assumptions C128_face_forward.
(** [face_forward] of normals *)
Theorem C128_face_forward_normals : forall (f : fmt) (u : Normal3 (flt f)) (u' : Normal3 Z) (v : Normal3 (flt f)) (v' : Normal3 Z),
  h_n3 u u' ->
  h_n3 v v' ->
  agree f h_n3 (dot_steps (vec_of u') (vec_of v') ++ (if dotZ (vec_of u') (vec_of v') <? 0 then steps_of (negZ (vec_of u')) else []))
    (n3_face_forward (f_elem f) u v) (fun chk => n3_face_forward (i64 chk) u' v')
    (if dotZ (vec_of u') (vec_of v') <? 0 then nrm_of (negZ (vec_of u')) else u').
Proof. exact e_n_face. Qed.
Print Assumptions C128_face_forward_normals.
(** Smallest and largest components: whole numbers of any size a float can hold *)
Theorem C128_components : forall (f : fmt) (v : Vector3 (flt f)) (v' : Vector3 Z) (w : Vector3 (flt f)) (w' : Vector3 Z) (p : Point3 (flt f)) (p' : Point3 Z) (q : Point3 (flt f))
    (q' : Point3 Z) (n : Normal3 (flt f)) (n' : Normal3 Z) (m : Normal3 (flt f)) (m' : Normal3 Z),
  h_v3 v v' ->
  h_v3 w w' ->
  h_p3 p p' ->
  h_p3 q q' ->
  h_n3 n n' ->
  h_n3 m m' ->
  (same holds (v3_min_component (f_elem f) v) (fun chk => v3_min_component (i64 chk) v') /\
   same holds (v3_max_component (f_elem f) v) (fun chk => v3_max_component (i64 chk) v') /\
   same h_v3 (v3_min (f_elem f) v w) (fun chk => v3_min (i64 chk) v' w') /\
   same h_v3 (v3_max (f_elem f) v w) (fun chk => v3_max (i64 chk) v' w') /\
   (forall chk, v3_max_dimension (f_elem f) v = v3_max_dimension (i64 chk) v')) /\
  (same holds (n3_min_component (f_elem f) n) (fun chk => n3_min_component (i64 chk) n') /\
   same holds (n3_max_component (f_elem f) n) (fun chk => n3_max_component (i64 chk) n') /\
   same h_n3 (n3_min (f_elem f) n m) (fun chk => n3_min (i64 chk) n' m') /\
   same h_n3 (n3_max (f_elem f) n m) (fun chk => n3_max (i64 chk) n' m') /\
   (forall chk, n3_max_dimension (f_elem f) n = n3_max_dimension (i64 chk) n')) /\
  same h_p3 (p3_min (f_elem f) p q) (fun chk => p3_min (i64 chk) p' q') /\ same h_p3 (p3_max (f_elem f) p q) (fun chk => p3_max (i64 chk) p' q').
Proof. exact s_components. Qed.
Print Assumptions C128_components.
(** Boxes made by comparing, and questions about boxes: whole numbers of any size a float can hold *)
Theorem C128_boxes : forall (f : fmt) (a : Bounds3 (flt f)) (a' : Bounds3 Z) (b : Bounds3 (flt f)) (b' : Bounds3 Z) (p : Point3 (flt f)) (p' : Point3 Z) (q : Point3 (flt f))
    (q' : Point3 Z),
  h_b3 a a' ->
  h_b3 b b' ->
  h_p3 p p' ->
  h_p3 q q' ->
  (same h_b3 (b3_new (f_elem f) p q) (fun chk => b3_new (i64 chk) p' q') /\
   same h_b3 (b3_union (f_elem f) a b) (fun chk => b3_union (i64 chk) a' b') /\
   same h_b3 (b3_union_pt (f_elem f) a p) (fun chk => b3_union_pt (i64 chk) a' p') /\
   same h_b3 (b3_intersect (f_elem f) a b) (fun chk => b3_intersect (i64 chk) a' b')) /\
  (forall chk,
   b3_overlaps (f_elem f) a b = b3_overlaps (i64 chk) a' b' /\
   b3_inside (f_elem f) a p = b3_inside (i64 chk) a' p' /\ b3_inside_exclusive (f_elem f) a p = b3_inside_exclusive (i64 chk) a' p').
Proof. exact s_boxes. Qed.
Print Assumptions C128_boxes.
(** Diagonal, longest axis, area, volume and [expand] of a box *)
Theorem C128_extents : forall (f : fmt) (a : Bounds3 (flt f)) (a' : Bounds3 Z) (d : flt f) (d' : Z),
  h_b3 a a' ->
  holds d d' ->
  agree f h_v3 (steps_of (exts a')) (b3_diagonal (f_elem f) a) (fun chk => b3_diagonal (i64 chk) a') (exts a') /\
  agree f eq (steps_of (exts a')) (b3_maximum_extent (f_elem f) a) (fun chk => b3_maximum_extent (i64 chk) a') (longestZ a') /\
  agree f holds (area_steps a') (b3_surface_area (f_elem f) a) (fun chk => b3_surface_area (i64 chk) a') (areaZ a') /\
  agree f holds (volume_steps a') (b3_volume (f_elem f) a) (fun chk => b3_volume (i64 chk) a') (volumeZ a') /\
  agree f h_b3 (steps_of (subZ (loc (b_min a')) (diagZ d')) ++ steps_of (addZ (loc (b_max a')) (diagZ d'))) (b3_expand (f_elem f) a d)
    (fun chk => b3_expand (i64 chk) a' d') (spanZ (subZ (loc (b_min a')) (diagZ d')) (addZ (loc (b_max a')) (diagZ d'))).
Proof. exact e_boxes. Qed.
Print Assumptions C128_extents.
(** Division of a multiple of the divisor *)
Theorem C128_division : forall (f : fmt) (p : Point3 (flt f)) (q : Point3 Z) (v : Vector3 (flt f)) (w : Vector3 Z) (n : Normal3 (flt f)) (m : Normal3 Z) (s : flt f) (s' : Z),
  h_p3 p (pnt_of (scaleZ s' (loc q))) ->
  h_v3 v (scaleZ s' w) ->
  h_n3 n (nrm_of (scaleZ s' (vec_of m))) ->
  holds s s' ->
  s' <> 0 ->
  agree f h_p3 (steps_of (loc q)) (p3_div (f_elem f) p s) (fun chk => p3_div (i64 chk) (pnt_of (scaleZ s' (loc q))) s') q /\
  agree f h_v3 (steps_of w) (v3_div (f_elem f) v s) (fun chk => v3_div (i64 chk) (scaleZ s' w) s') w /\
  agree f h_n3 (steps_of (vec_of m)) (n3_div (f_elem f) n s) (fun chk => n3_div (i64 chk) (nrm_of (scaleZ s' (vec_of m))) s') m.
Proof. exact e_div_all. Qed.
Print Assumptions C128_division.
(** The length, when it is a whole number *)
Theorem C128_length : forall (f : fmt) (v : Vector3 (flt f)) (v' : Vector3 Z) (n : Z),
  h_v3 v v' ->
  0 <= n ->
  dotZ v' v' = n * n ->
  Forall (whole f) (dot_steps v' v') ->
  (exists l : flt f, v3_len (f_float f) (f_elem f) (fun x : flt f => x) v = !l /\ holds l n) /\
  (forall chk, exists l : flt f, v3_len (f_float f) (i64 chk) (f_of_int f) v' = !l /\ holds l n).
Proof. exact e_len. Qed.
Print Assumptions C128_length.
(** Matrices *)
Theorem C128_matrices : forall (f : fmt) (a : Matrix4 (flt f)) (a' : Matrix4 Z) (b : Matrix4 (flt f)) (b' : Matrix4 Z),
  h_m4 a a' ->
  h_m4 b b' ->
  agree f h_m4 (prod_steps a' b') (m4_mul (f_elem f) a b) (fun chk => m4_mul (i64 chk) a' b') (prodZ a' b') /\
  agree f h_m4 (sum_steps a' b') (m4_add (f_elem f) a b) (fun chk => m4_add (i64 chk) a' b') (sumZ a' b') /\
  forall r c, holds (mget (m4_transpose a) r c) (mget a' c r).
Proof. exact e_mats. Qed.
Print Assumptions C128_matrices.
(** Points on a ray *)
Theorem C128_ray_at : forall (f : fmt) (r : Ray (flt f)) (o : Point3 Z) (d : Vector3 Z) (t : flt f) (t' : Z),
  h_p3 (r_o r) o -> h_v3 (r_d r) d -> holds t t' -> exactly f h_p3 (at_steps o d t') (ray_at (f_float f) r t) (pnt_of (addZ (loc o) (scaleZ t' d))).
Proof. exact e_at. Qed.
Print Assumptions C128_ray_at.
(** Interpolation *)
Theorem C128_lerp : forall (f : fmt) (t a b : flt f) (t' a' b' : Z),
  holds t t' -> holds a a' -> holds b b' -> exactly f holds (lerp_steps t' a' b') (lerp (f_float f) t a b) (lerpZ t' a' b').
Proof. exact e_lerp. Qed.
Print Assumptions C128_lerp.
(** Interpolation between points *)
Theorem C128_lerp_points : forall (f : fmt) (t : flt f) (p q : Point3 (flt f)) (t' : Z) (p' q' : Point3 Z),
  holds t t' ->
  h_p3 p p' ->
  h_p3 q q' ->
  exactly f h_p3 (lerp_steps t' (px p') (px q') ++ lerp_steps t' (py p') (py q') ++ lerp_steps t' (pz p') (pz q')) (p3_lerp (f_float f) t p q)
    {| px := lerpZ t' (px p') (px q'); py := lerpZ t' (py p') (py q'); pz := lerpZ t' (pz p') (pz q') |}.
Proof. exact e_lerp_pt. Qed.
Print Assumptions C128_lerp_points.
(** Transforming a vector *)
Theorem C128_transform : forall (f : fmt) (v : Vector3 (flt f)) (v' : Vector3 Z) (t : Transform (flt f)) (m' : Matrix4 Z),
  h_v3 v v' ->
  h_m4 (t_m t) m' ->
  exactly f h_v3 (row_steps m' v' I0 ++ row_steps m' v' I1 ++ row_steps m' v' I2) (v3_transform (f_float f) (fun x : flt f => x) v t)
    {| vx := rowZ m' v' I0; vy := rowZ m' v' I1; vz := rowZ m' v' I2 |}.
Proof. exact e_transform. Qed.
Print Assumptions C128_transform.
(** [floor] and [ceil] *)
Theorem C128_round : forall (f : fmt) (p : Point3 (flt f)) (p' : Point3 Z), h_p3 p p' -> h_p3 (p3_floor (f_float f) p) p' /\ h_p3 (p3_ceil (f_float f) p) p'.
Proof. exact e_round. Qed.
Print Assumptions C128_round.
(** Beyond 2^24 this is false of f32: 2^24 + 1 is 2^24 in floats. *)
Theorem C128_limit_refuted : exists (p : Point3 (flt F32)) (v : Vector3 (flt F32)), h_p3 p (P3 16777216 0 0) /\ h_v3 v (V3 1 0 0) /\ p3_add (f_elem F32) p v = Done p /\
  forall chk, p3_add (i64 chk) (P3 16777216 0 0) (V3 1 0 0) = Done (P3 16777217 0 0).
Proof. exact (ex_intro _ _ (ex_intro _ _ limit_case)). Qed.
Print Assumptions C128_limit_refuted.
(** Whole numbers that meet the conditions, and results that are not trivial. *)
Example C128_example : forall z, whole F32 z -> holds (f32 z) z. Proof. exact (h_int F32). Qed.
Example C128_example_steps : Forall (whole F32) (dot_steps (V3 4000 (-20) 7) (V3 4000 30 (-9))) /\ dotZ (V3 4000 (-20) 7) (V3 4000 30 (-9)) = 15999337 /\
  Forall (whole F32) (cross_steps (V3 1000 (-20) 7) (V3 3 30 (-9))) /\ crossZ (V3 1000 (-20) 7) (V3 3 30 (-9)) = V3 (-30) 9021 30060 /\
  Forall (whole F32) (lerp_steps 3 10 (-20)) /\ lerpZ 3 10 (-20) = -80.
Proof. repeat match goal with |- _ /\ _ => split end; try reflexivity; repeat (apply Forall_cons; [vm_compute; discriminate|]); apply Forall_nil. Qed.
Example C128_example_length : dotZ (V3 2 (-10) 11) (V3 2 (-10) 11) = 15 * 15. Proof. reflexivity. Qed.
Example C128_example_value : match v3_dot (f_elem F32) (V3 (f32 4000) (f32 (-20)) (f32 7)) (V3 (f32 4000) (f32 30) (f32 (-9))) with Done x => B2SF x = B2SF (f32 15999337) | _ => False end.
Proof. vm_compute. reflexivity. Qed.

(** ** C129: iterating over a two-dimensional box of floats *)
(** Corners that are whole numbers: the points are those visited with i64. *)
Theorem C129_whole : forall (f : fmt) (b : Bounds2 (flt f)) (b' : Bounds2 Z),
  h_p2 (b2_min b) (b2_min b') ->
  h_p2 (b2_max b) (b2_max b') ->
  Forall (whole f) [p2x (b2_min b'); p2y (b2_min b'); p2x (b2_max b'); p2y (b2_max b')] ->
  exists l : list (Point2 (flt f)),
    collects (f_elem f) (b2_into_iter b) l /\ Forall2 h_p2 l (visited b') /\ (forall chk, collects (i64 chk) (b2_into_iter b') (visited b')).
Proof. exact iter_whole. Qed.
Print Assumptions C129_whole.
(** Corners that are any numbers: when the minimum is within 2^24 (f32) or 2^53 (f64), the iteration ends exactly when the maximum is not beyond. *)
Theorem C129_ends_iff : forall (f : fmt) (b : Bounds2 (flt f)),
  in_reach (p2x (b2_min b)) ->
  in_reach (p2y (b2_min b)) ->
  (exists l : list (Point2 (flt f)), collects (f_elem f) (b2_into_iter b) l) <-> reachable (p2x (b2_max b)) /\ reachable (p2y (b2_max b)).
Proof. exact iter_ends. Qed.
Print Assumptions C129_ends_iff.
(** An infinite or NaN maximum: it never ends. *)
Theorem C129_unlimited : forall (f : fmt) (b : Bounds2 (flt f)),
  is_finite (p2x (b2_min b)) = true ->
  is_finite (p2y (b2_min b)) = true ->
  unlimited (p2x (b2_max b)) \/ unlimited (p2y (b2_max b)) -> forall l : list (Point2 (flt f)), ~ collects (f_elem f) (b2_into_iter b) l.
Proof. exact iter_unlimited. Qed.
Print Assumptions C129_unlimited.
(** Each call of [next] returns. *)
Theorem C129_next : forall f (it : Bounds2Iter (flt f)), exists r, b2_next (f_elem f) it = Done r.
Proof. exact next_done. Qed.
Print Assumptions C129_next.
(** That every box with finite corners is iterated in finitely many steps is false. *)
Theorem C129_finite_refuted : exists b : Bounds2 (flt F32), (is_finite (p2x (b2_max b)) = true /\ in_reach (p2x (b2_min b)) /\ in_reach (p2y (b2_min b))) /\
  forall l, ~ collects (f_elem F32) (b2_into_iter b) l.
Proof. exact (ex_intro _ _ stuck_case). Qed.
Print Assumptions C129_finite_refuted.
Example C129_example_reach : forall f, in_reach (f_of_int f 0). Proof. exact reach_0. Qed.
Example C129_example_whole : Forall (whole F32) [1; 2; 4; 3] /\ visited (B2 (P2 1 2) (P2 4 3)) = [P2 2 2; P2 3 2; P2 4 2; P2 0 3; P2 1 3; P2 2 3; P2 3 3; P2 4 3].
Proof. split; [repeat (apply Forall_cons; [vm_compute; discriminate|]); apply Forall_nil|reflexivity]. Qed.
