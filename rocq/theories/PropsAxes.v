(** Property theorems about the names of the axes: C120. Nothing but statements, examples and [Print Assumptions]. *)
From Coq Require Import ZArith Bool.
From Flocq Require Import IEEE754.BinarySingleNaN.
From Verif Require Import Base Elem GeoModel MatModel FloatInst GeoSpec ArithSpec OpsSpec MirSpec FloatCore AxesSpec FloatAxes.

(** ** C120: renaming the axes *)
(** For all element types and all values, NaN and infinities and overflow included: where an operation treats the axes alike,
    renaming the axes of the operands renames those of the result, exactly; the same computations panic. *)
Theorem C120_points : forall ty s p p' q q' v v' x, renaming s -> ren_pt s p p' -> ren_pt s q q' -> ren_vec s v v' ->
  alike (ren_pt s) (p3_add (elem ty) p v) (p3_add (elem ty) p' v') /\ alike (ren_pt s) (p3_sub_v (elem ty) p v) (p3_sub_v (elem ty) p' v') /\
  alike (ren_vec s) (p3_sub (elem ty) p q) (p3_sub (elem ty) p' q') /\ alike (ren_pt s) (p3_mul (elem ty) p x) (p3_mul (elem ty) p' x) /\
  alike (ren_pt s) (p3_div (elem ty) p x) (p3_div (elem ty) p' x) /\ alike (ren_pt s) (p3_abs (elem ty) p) (p3_abs (elem ty) p') /\
  alike (ren_pt s) (p3_min (elem ty) p q) (p3_min (elem ty) p' q') /\ alike (ren_pt s) (p3_max (elem ty) p q) (p3_max (elem ty) p' q').
Proof. exact ren_points. Qed.
Print Assumptions C120_points.
Theorem C120_vectors : forall ty s u u' v v' x, renaming s -> ren_vec s u u' -> ren_vec s v v' ->
  alike (ren_vec s) (v3_add (elem ty) u v) (v3_add (elem ty) u' v') /\ alike (ren_vec s) (v3_sub (elem ty) u v) (v3_sub (elem ty) u' v') /\
  alike (ren_vec s) (v3_mul (elem ty) u x) (v3_mul (elem ty) u' x) /\ alike (ren_vec s) (v3_div (elem ty) u x) (v3_div (elem ty) u' x) /\
  alike (ren_vec s) (v3_neg (elem ty) u) (v3_neg (elem ty) u') /\
  alike (ren_vec s) (v3_min (elem ty) u v) (v3_min (elem ty) u' v') /\ alike (ren_vec s) (v3_max (elem ty) u v) (v3_max (elem ty) u' v').
Proof. exact ren_vectors. Qed.
Print Assumptions C120_vectors.
Theorem C120_normals : forall ty s u u' v v' x, renaming s -> ren_nrm s u u' -> ren_nrm s v v' ->
  alike (ren_nrm s) (n3_add (elem ty) u v) (n3_add (elem ty) u' v') /\ alike (ren_nrm s) (n3_sub (elem ty) u v) (n3_sub (elem ty) u' v') /\
  alike (ren_nrm s) (n3_mul (elem ty) u x) (n3_mul (elem ty) u' x) /\ alike (ren_nrm s) (n3_div (elem ty) u x) (n3_div (elem ty) u' x) /\
  alike (ren_nrm s) (n3_neg (elem ty) u) (n3_neg (elem ty) u') /\
  alike (ren_nrm s) (n3_min (elem ty) u v) (n3_min (elem ty) u' v') /\ alike (ren_nrm s) (n3_max (elem ty) u v) (n3_max (elem ty) u' v').
Proof. exact ren_normals. Qed.
Print Assumptions C120_normals.
Theorem C120_boxes : forall ty s a a' b b' p p' q q' x, renaming s -> ren_box s a a' -> ren_box s b b' -> ren_pt s p p' -> ren_pt s q q' ->
  alike (ren_box s) (b3_new (elem ty) p q) (b3_new (elem ty) p' q') /\ alike (ren_box s) (b3_union (elem ty) a b) (b3_union (elem ty) a' b') /\
  alike (ren_box s) (b3_union_pt (elem ty) a p) (b3_union_pt (elem ty) a' p') /\ alike (ren_box s) (b3_intersect (elem ty) a b) (b3_intersect (elem ty) a' b') /\
  alike (ren_box s) (b3_expand (elem ty) a x) (b3_expand (elem ty) a' x) /\ alike (ren_vec s) (b3_diagonal (elem ty) a) (b3_diagonal (elem ty) a') /\
  alike (ren_vec s) (b3_offset (elem ty) a p) (b3_offset (elem ty) a' p') /\
  b3_overlaps (elem ty) a' b' = b3_overlaps (elem ty) a b /\ b3_inside (elem ty) a' p' = b3_inside (elem ty) a p /\
  b3_inside_exclusive (elem ty) a' p' = b3_inside_exclusive (elem ty) a p /\
  forall n, exists m, ren_pt s (b3_corner a m) (b3_corner a' n).
Proof. exact ren_boxes. Qed.
Print Assumptions C120_boxes.
(** The longest axis goes by its new name, provided that it is longer than the others. *)
Theorem C120_dimension : forall ty s (v v' : Vector3 (car ty)) i, renaming s -> ren_vec s v v' -> longest ty v (s i) ->
  v3_max_dimension (elem ty) v = axis_nat (s i) /\ v3_max_dimension (elem ty) v' = axis_nat i.
Proof. exact ren_dimension. Qed.
Print Assumptions C120_dimension.
Theorem C120_extent : forall ty s (a a' : Bounds3 (car ty)) d i, renaming s -> ren_box s a a' -> b3_diagonal (elem ty) a = Done d -> longest ty d (s i) ->
  b3_maximum_extent (elem ty) a = Done (axis_nat (s i)) /\ b3_maximum_extent (elem ty) a' = Done (axis_nat i).
Proof. exact ren_extent. Qed.
Print Assumptions C120_extent.
(** The smallest and the largest component keep their values. *)
Theorem C120_components : forall ty s (v v' : Vector3 (car ty)), renaming s -> ren_vec s v v' -> (forall i, valid ty (vcoord i v)) ->
  both (same ty) (v3_min_component (elem ty) v) (v3_min_component (elem ty) v') /\
  both (same ty) (v3_max_component (elem ty) v) (v3_max_component (elem ty) v').
Proof. exact ren_components. Qed.
Print Assumptions C120_components.
(** Sums over the axes begin with X and Y, which may change places: then nothing is rounded otherwise. *)
Theorem C120_swap : forall ty u u' v v' a a', ren_vec swap_xy u u' -> ren_vec swap_xy v v' -> ren_box swap_xy a a' ->
  v3_dot (elem ty) u' v' = v3_dot (elem ty) u v /\ v3_len_sq (elem ty) u' = v3_len_sq (elem ty) u /\
  alike (ren_vec swap_xy) (v3_face_forward (elem ty) u v) (v3_face_forward (elem ty) u' v') /\
  b3_volume (elem ty) a' = b3_volume (elem ty) a.
Proof. exact swap_sums. Qed.
Print Assumptions C120_swap.
(** The vector product goes with the cyclic renamings, and changes its sign with the others. *)
Theorem C120_cross : forall ty u u' v v', ren_vec cycle u u' -> ren_vec cycle v v' -> alike (ren_vec cycle) (v3_cross (elem ty) u v) (v3_cross (elem ty) u' v').
Proof. exact cycle_cross. Qed.
Print Assumptions C120_cross.
Theorem C120_cross_swap : forall f u u' v v', ren_vec swap_xy u u' -> ren_vec swap_xy v v' ->
  both (fun c c' => forall i, veq f (vcoord i c') (Bopp (vcoord (swap_xy i) c))) (v3_cross (f_elem f) u v) (v3_cross (f_elem f) u' v').
Proof. exact swap_cross. Qed.
Print Assumptions C120_cross_swap.
(** Integers are added and multiplied exactly (modulo 2^64 without overflow checks), so any renaming will do. *)
Theorem C120_integers : forall chk s u u' v v' a a', renaming s -> ren_vec s u u' -> ren_vec s v v' -> ren_box s a a' ->
  vec_range u -> vec_range v -> box_range a ->
  agree chk (v3_dot (i64 chk) u v) (v3_dot (i64 chk) u' v') /\ agree chk (v3_len_sq (i64 chk) u) (v3_len_sq (i64 chk) u') /\
  agree chk (b3_volume (i64 chk) a) (b3_volume (i64 chk) a') /\ agree chk (b3_surface_area (i64 chk) a) (b3_surface_area (i64 chk) a').
Proof. exact int_sums. Qed.
Print Assumptions C120_integers.
(** Code on floats. *)
Theorem C120_lerp : forall f s t (p p' q q' : Point3 (flt f)), renaming s -> ren_pt s p p' -> ren_pt s q q' -> alike (ren_pt s) (p3_lerp (f_float f) t p q) (p3_lerp (f_float f) t p' q').
Proof. exact ren_lerp. Qed.
Print Assumptions C120_lerp.
Theorem C120_floor : forall f s (p p' : Point3 (flt f)), ren_pt s p p' -> ren_pt s (p3_floor (f_float f) p) (p3_floor (f_float f) p') /\ ren_pt s (p3_ceil (f_float f) p) (p3_ceil (f_float f) p').
Proof. exact ren_floor. Qed.
Print Assumptions C120_floor.
Theorem C120_box_lerp : forall f s (b b' : Bounds3 (flt f)) t t', renaming s -> ren_box s b b' -> ren_pt s t t' -> alike (ren_pt s) (b3_lerp (f_float f) b t) (b3_lerp (f_float f) b' t').
Proof. exact ren_box_lerp. Qed.
Print Assumptions C120_box_lerp.
Theorem C120_rays : forall f s (o o' : Point3 (flt f)) (d d' : Vector3 (flt f)) (r r' : Ray (flt f)) t, renaming s -> ren_pt s o o' -> ren_vec s d d' ->
    ren_ray s (ray_new_infinite (f_float f) o d) (ray_new_infinite (f_float f) o' d') /\ (ren_ray s r r' -> ren_rd s (rd_new (f_float f) r) (rd_new (f_float f) r')) /\
    (ren_ray s r r' -> alike (ren_pt s) (ray_at (f_float f) r t) (ray_at (f_float f) r' t)).
Proof. exact ren_rays. Qed.
Print Assumptions C120_rays.
Theorem C120_differential : forall f s (r r' : RayDifferential (flt f)) t, renaming s -> ren_rd s r r' -> alike (ren_rd s) (rd_scale (f_float f) r t) (rd_scale (f_float f) r' t).
Proof. exact ren_rd_scale. Qed.
Print Assumptions C120_differential.
Theorem C120_sphere : forall f s (b b' : Bounds3 (flt f)), renaming s -> ren_box s b b' ->
    exists c r c' r', bounding_sphere (f_float f) b = Done (c, r) /\ bounding_sphere (f_float f) b' = Done (c', r') /\ ren_pt s c c' /\
      (s = swap_xy -> r' = r).
Proof. exact ren_sphere. Qed.
Print Assumptions C120_sphere.
(** Matrices: rows and columns may be renamed independently. Of the sums in a product only the first two terms may change places. *)
Theorem C120_add : forall f s t (a a' b b' : Matrix4 (flt f)), ren_mat s t a a' -> ren_mat s t b b' -> alike (ren_mat s t) (m4_add (f_elem f) a b) (m4_add (f_elem f) a' b').
Proof. exact ren_add. Qed.
Print Assumptions C120_add.
Theorem C120_mul : forall f s t o (a a' b b' : Matrix4 (flt f)), renaming t -> t AZ = AZ -> ren_mat s t a a' -> ren_mat t o b b' ->
    alike (ren_mat s o) (m4_mul (f_elem f) a b) (m4_mul (f_elem f) a' b').
Proof. exact ren_mul. Qed.
Print Assumptions C120_mul.
Theorem C120_transpose : forall f s t (a a' : Matrix4 (flt f)), ren_mat s t a a' -> ren_mat t s (m4_transpose a) (m4_transpose a').
Proof. exact ren_transpose. Qed.
Print Assumptions C120_transpose.
Theorem C120_translate : forall f s (v v' : Vector3 (flt f)), renaming s -> ren_vec s v v' -> alike (ren_trans s s) (t_translate (f_float f) v) (t_translate (f_float f) v').
Proof. exact ren_translate. Qed.
Print Assumptions C120_translate.
(** Of [scale] only the matrix itself; see C120_scale_refuted. *)
Theorem C120_scale : forall f s (v v' : Vector3 (flt f)), renaming s -> ren_vec s v v' ->
    both (fun x x' => ren_mat s s (t_m x) (t_m x')) (t_scale (f_float f) (vx v) (vy v) (vz v)) (t_scale (f_float f) (vx v') (vy v') (vz v')).
Proof. exact ren_scale. Qed.
Print Assumptions C120_scale.
Theorem C120_transform : forall f s (m m' : Transform (flt f)) (v v' : Vector3 (flt f)), renaming s -> ren_mat s swap_xy (t_m m) (t_m m') -> ren_vec swap_xy v v' ->
    alike (ren_vec s) (v3_transform (f_float f) (fun x => x) v m) (v3_transform (f_float f) (fun x => x) v' m').
Proof. exact ren_transform. Qed.
Print Assumptions C120_transform.
Theorem C120_has_scale : forall f (m m' : Transform (flt f)), ren_mat swap_xy swap_xy (t_m m) (t_m m') -> t_has_scale (f_float f) m' = t_has_scale (f_float f) m.
Proof. exact ren_has_scale. Qed.
Print Assumptions C120_has_scale.
(** What depends on the names: sums and products of floats under other renamings, the surface, ties, overflow checks, the second
    matrix of [scale], the coordinate system. *)
Theorem C120_dot_refuted : exists u u' v v' : Vector3 (flt F32), ren_vec cycle u u' /\ ren_vec cycle v v' /\ vfinite u /\ vfinite v /\
  exists x y, v3_dot (f_elem F32) u v = Done x /\ v3_dot (f_elem F32) u' v' = Done y /\ Beqb x (f32 1) = true /\ Beqb y (f32 0) = true.
Proof. exact dot_cycle_refuted. Qed.
Print Assumptions C120_dot_refuted.
Theorem C120_volume_refuted : exists a a' : Bounds3 (flt F32), ren_box cycle a a' /\ bfinite a /\
  exists x y, b3_volume (f_elem F32) a = Done x /\ b3_volume (f_elem F32) a' = Done y /\ Beqb x y = false.
Proof. exact volume_cycle_refuted. Qed.
Print Assumptions C120_volume_refuted.
Theorem C120_area_refuted : exists a a' : Bounds3 (flt F32), ren_box swap_xy a a' /\ bfinite a /\
  exists x y, b3_surface_area (f_elem F32) a = Done x /\ b3_surface_area (f_elem F32) a' = Done y /\ Beqb x y = false.
Proof. exact area_swap_refuted. Qed.
Print Assumptions C120_area_refuted.
Theorem C120_tie_refuted : exists v v' : Vector3 Z, ren_vec swap_xy v v' /\
  v3_max_dimension (i64 true) v = axis_nat AY /\ v3_max_dimension (i64 true) v' = axis_nat AY /\ swap_xy AY <> AY.
Proof. exact tie_refuted. Qed.
Print Assumptions C120_tie_refuted.
Theorem C120_overflow_refuted : exists u u' v v' : Vector3 Z, ren_vec cycle u u' /\ ren_vec cycle v v' /\ vec_range u /\ vec_range v /\
  v3_dot (i64 true) u v = Panic /\ v3_dot (i64 true) u' v' = Done (2 ^ 62)%Z.
Proof. exact overflow_refuted. Qed.
Print Assumptions C120_overflow_refuted.
Theorem C120_scale_refuted : exists (v v' : Vector3 (flt F32)) x x', ren_vec cycle v v' /\
  t_scale (f_float F32) (vx v) (vy v) (vz v) = Done x /\ t_scale (f_float F32) (vx v') (vy v') (vz v') = Done x' /\
  Beqb (mget (t_inv x) (on_ix cycle I3) (on_ix cycle I2)) (f32 0) = true /\ Beqb (mget (t_inv x') I3 I2) (f32 2) = true.
Proof. exact scale_refuted. Qed.
Print Assumptions C120_scale_refuted.
Theorem C120_frame_refuted : exists (v v' a b a' b' : Vector3 (flt F32)), ren_vec swap_xy v v' /\
  coordinate_system (f_float F32) v = Done (a, b) /\ coordinate_system (f_float F32) v' = Done (a', b') /\
  Beqb (vcoord AZ a) (f32 1) = true /\ Beqb (vcoord AZ a') (f32 (-1)) = true.
Proof. exact frame_refuted. Qed.
Print Assumptions C120_frame_refuted.
Example C120_renamings : renaming swap_xy /\ renaming cycle /\ renaming (fun i => swap_xy (cycle i)) /\ ~ renaming (fun _ => AX).
Proof. exact renamings. Qed.
Example C120_longest_example : longest (TInt true) (V3 1 5 2)%Z (cycle AX) /\ ren_vec cycle (V3 1 5 2)%Z (V3 5 2 1)%Z /\
  v3_max_dimension (i64 true) (V3 1 5 2)%Z = 1 /\ v3_max_dimension (i64 true) (V3 5 2 1)%Z = 0 /\
  vec_range (V3 1 5 2)%Z /\ ren_box cycle (bx 0 0 0 1 5 2)%Z (bx 0 0 0 5 2 1)%Z /\ box_range (bx 0 0 0 1 5 2)%Z /\
  b3_diagonal (i64 true) (bx 0 0 0 1 5 2)%Z = Done (V3 1 5 2)%Z.
Proof. exact longest_example. Qed.
Example C120_mat_example : ren_mat cycle swap_xy ax_mat ax_mat' /\ swap_xy AZ = AZ /\
  ren_trans cycle swap_xy (mkT ax_mat (m4_transpose ax_mat)) (mkT ax_mat' (m4_transpose ax_mat')) /\ ren_mat swap_xy swap_xy ax_mat ax_mat''.
Proof. exact mat_example. Qed.
Example C120_ray_example : ren_ray cycle (ray_new_infinite (f_float F32) (P3 (f32 1) (f32 2) (f32 3)) ax_u) (ray_new_infinite (f_float F32) (P3 (f32 2) (f32 3) (f32 1)) ax_u') /\
  ren_rd cycle (rd_new (f_float F32) (ray_new_infinite (f_float F32) (P3 (f32 1) (f32 2) (f32 3)) ax_u)) (rd_new (f_float F32) (ray_new_infinite (f_float F32) (P3 (f32 2) (f32 3) (f32 1)) ax_u')).
Proof. exact ray_example. Qed.
