(** Property theorems about the sign of zero: C127. Nothing but statements, examples and [Print Assumptions]. *)
From Coq Require Import ZArith.
From Flocq Require Import IEEE754.BinarySingleNaN.
From Verif Require Import GeoSpec Base Elem FloatInst GeoModel MatModel EqSpec ZeroSpec FloatZero.
Local Open Scope mon_scope.

(** ** C127: the sign of zero does not matter unless a zero is a divisor *)
(** Two floats are so related exactly when they are identical or both zero; that is, when they are equal or both NaN. *)
Theorem C127_relation : forall f (x y : flt f), (upto x y <-> x = y \/ (a_zero x /\ a_zero y)) /\ (upto x y <-> alike x y \/ (is_nan x = true /\ is_nan y = true)).
Proof. exact relation_cases. Qed.
Print Assumptions C127_relation.
(** Points *)
Theorem C127_points : forall f, forall (p q p' q' : Point3 (flt f)) (v v' : Vector3 (flt f)) (s s' : flt f), up_p3 p p' -> up_p3 q q' -> up_v3 v v' -> upto s s' ->
  both up_p3 (p3_abs (f_elem f) p) (p3_abs (f_elem f) p') /\
  both up_p3 (p3_min (f_elem f) p q) (p3_min (f_elem f) p' q') /\
  both up_p3 (p3_max (f_elem f) p q) (p3_max (f_elem f) p' q') /\
  p3_has_nan (f_elem f) p = p3_has_nan (f_elem f) p' /\
  both up_p2 (p2_from_p3 (f_elem f) p) (p2_from_p3 (f_elem f) p') /\
  both up_p3 (p3_add (f_elem f) p v) (p3_add (f_elem f) p' v') /\
  both up_p3 (p3_sub_v (f_elem f) p v) (p3_sub_v (f_elem f) p' v') /\
  both up_v3 (p3_sub (f_elem f) p q) (p3_sub (f_elem f) p' q') /\
  both up_p3 (p3_mul (f_elem f) p s) (p3_mul (f_elem f) p' s') /\
  up_p3 (p3_floor (f_float f) p) (p3_floor (f_float f) p') /\
  up_p3 (p3_ceil (f_float f) p) (p3_ceil (f_float f) p') /\
  both up_p3 (p3_lerp (f_float f) s p q) (p3_lerp (f_float f) s' p' q').
Proof. exact all_points. Qed.
Print Assumptions C127_points.
(** Vectors; lengths are even identical. *)
Theorem C127_vectors : forall f, forall (u v u' v' : Vector3 (flt f)) (s s' : flt f), up_v3 u u' -> up_v3 v v' -> upto s s' ->
  both eq (v3_len_sq (f_elem f) u) (v3_len_sq (f_elem f) u') /\
  both eq (v3_len (f_float f) (f_elem f) (fun x => x) u) (v3_len (f_float f) (f_elem f) (fun x => x) u') /\
  both upto (v3_dot (f_elem f) u v) (v3_dot (f_elem f) u' v') /\
  both up_v3 (v3_cross (f_elem f) u v) (v3_cross (f_elem f) u' v') /\
  (forall i j k, both up_v3 (v3_permute u i j k) (v3_permute u' i j k)) /\
  both up_v3 (v3_neg (f_elem f) u) (v3_neg (f_elem f) u') /\
  both up_v3 (v3_face_forward (f_elem f) u v) (v3_face_forward (f_elem f) u' v') /\
  both up_v3 (v3_min (f_elem f) u v) (v3_min (f_elem f) u' v') /\
  both up_v3 (v3_max (f_elem f) u v) (v3_max (f_elem f) u' v') /\
  both upto (v3_min_component (f_elem f) u) (v3_min_component (f_elem f) u') /\
  both upto (v3_max_component (f_elem f) u) (v3_max_component (f_elem f) u') /\
  v3_max_dimension (f_elem f) u = v3_max_dimension (f_elem f) u' /\
  both up_v3 (v3_add (f_elem f) u v) (v3_add (f_elem f) u' v') /\
  both up_v3 (v3_sub (f_elem f) u v) (v3_sub (f_elem f) u' v') /\
  both up_v3 (v3_mul (f_elem f) u s) (v3_mul (f_elem f) u' s') /\
  both (up_pair up_v3 up_v3) (coordinate_system (f_float f) u) (coordinate_system (f_float f) u').
Proof. exact all_vectors. Qed.
Print Assumptions C127_vectors.
(** Normals *)
Theorem C127_normals : forall f, forall (u v u' v' : Normal3 (flt f)) (s s' : flt f), up_n3 u u' -> up_n3 v v' -> upto s s' ->
  both eq (n3_len_sq (f_elem f) u) (n3_len_sq (f_elem f) u') /\
  both eq (n3_len (f_float f) (f_elem f) (fun x => x) u) (n3_len (f_float f) (f_elem f) (fun x => x) u') /\
  both upto (n3_dot (f_elem f) u v) (n3_dot (f_elem f) u' v') /\
  both up_n3 (n3_cross (f_elem f) u v) (n3_cross (f_elem f) u' v') /\
  (forall i j k, both up_n3 (n3_permute u i j k) (n3_permute u' i j k)) /\
  both up_n3 (n3_neg (f_elem f) u) (n3_neg (f_elem f) u') /\
  both up_n3 (n3_face_forward (f_elem f) u v) (n3_face_forward (f_elem f) u' v') /\
  both up_n3 (n3_min (f_elem f) u v) (n3_min (f_elem f) u' v') /\
  both up_n3 (n3_max (f_elem f) u v) (n3_max (f_elem f) u' v') /\
  both upto (n3_min_component (f_elem f) u) (n3_min_component (f_elem f) u') /\
  both upto (n3_max_component (f_elem f) u) (n3_max_component (f_elem f) u') /\
  n3_max_dimension (f_elem f) u = n3_max_dimension (f_elem f) u' /\
  both up_n3 (n3_add (f_elem f) u v) (n3_add (f_elem f) u' v') /\
  both up_n3 (n3_sub (f_elem f) u v) (n3_sub (f_elem f) u' v') /\
  both up_n3 (n3_mul (f_elem f) u s) (n3_mul (f_elem f) u' s').
Proof. exact all_normals. Qed.
Print Assumptions C127_normals.
(** Boxes *)
Theorem C127_boxes : forall f, forall (a b a' b' : Bounds3 (flt f)) (p q p' q' : Point3 (flt f)) (s s' : flt f), up_b3 a a' -> up_b3 b b' -> up_p3 p p' -> up_p3 q q' -> upto s s' ->
  both up_b3 (b3_new (f_elem f) p q) (b3_new (f_elem f) p' q') /\
  both up_b3 (b3_union_pt (f_elem f) a p) (b3_union_pt (f_elem f) a' p') /\
  both up_b3 (b3_union (f_elem f) a b) (b3_union (f_elem f) a' b') /\
  both up_b3 (b3_intersect (f_elem f) a b) (b3_intersect (f_elem f) a' b') /\
  (forall n, up_p3 (b3_corner a n) (b3_corner a' n)) /\
  b3_overlaps (f_elem f) a b = b3_overlaps (f_elem f) a' b' /\
  b3_inside (f_elem f) a p = b3_inside (f_elem f) a' p' /\
  b3_inside_exclusive (f_elem f) a p = b3_inside_exclusive (f_elem f) a' p' /\
  both up_b3 (b3_expand (f_elem f) a s) (b3_expand (f_elem f) a' s') /\
  both up_v3 (b3_diagonal (f_elem f) a) (b3_diagonal (f_elem f) a') /\
  both upto (b3_surface_area (f_elem f) a) (b3_surface_area (f_elem f) a') /\
  both upto (b3_volume (f_elem f) a) (b3_volume (f_elem f) a') /\
  b3_maximum_extent (f_elem f) a = b3_maximum_extent (f_elem f) a' /\
  both up_v3 (b3_offset (f_elem f) a p) (b3_offset (f_elem f) a' p') /\
  both (up_pair up_p3 upto) (bounding_sphere (f_float f) a) (bounding_sphere (f_float f) a') /\
  both up_p3 (b3_lerp (f_float f) a p) (b3_lerp (f_float f) a' p').
Proof. exact all_boxes. Qed.
Print Assumptions C127_boxes.
(** Minimum and maximum of a list *)
Theorem C127_lists : forall f, forall l l' : list (flt f), Forall2 upto l l' ->
  both upto (pmin (f_elem f) l) (pmin (f_elem f) l') /\
  both upto (pmax (f_elem f) l) (pmax (f_elem f) l').
Proof. exact all_lists. Qed.
Print Assumptions C127_lists.
(** Two dimensions *)
Theorem C127_two : forall f, forall (p p' : Point2 (flt f)) (v v' : Vector2 (flt f)) (s s' : flt f) (i i' : Bounds2Iter (flt f)), up_p2 p p' -> up_v2 v v' -> upto s s' -> up_it i i' ->
  both up_p2 (p2_abs (f_elem f) p) (p2_abs (f_elem f) p') /\
  (forall n, both upto (v2_index v n) (v2_index v' n)) /\
  both up_v2 (v2_div (f_elem f) v s) (v2_div (f_elem f) v' s') /\
  both (up_pair (up_opt up_p2) up_it) (b2_next (f_elem f) i) (b2_next (f_elem f) i').
Proof. exact all_two. Qed.
Print Assumptions C127_two.
(** Rays *)
Theorem C127_rays : forall f, forall (r r' : Ray (flt f)) (d d' : RayDifferential (flt f)) (o o' : Point3 (flt f)) (v v' : Vector3 (flt f)) (t t' : flt f), up_ray r r' -> up_rd d d' -> up_p3 o o' -> up_v3 v v' -> upto t t' ->
  up_ray (ray_new_infinite (f_float f) o v) (ray_new_infinite (f_float f) o' v') /\
  both up_p3 (ray_at (f_float f) r t) (ray_at (f_float f) r' t') /\
  up_rd (rd_new (f_float f) r) (rd_new (f_float f) r') /\
  both up_rd (rd_scale (f_float f) d t) (rd_scale (f_float f) d' t') /\
  both upto (lerp (f_float f) t (px o) (py o)) (lerp (f_float f) t' (px o') (py o')).
Proof. exact all_rays. Qed.
Print Assumptions C127_rays.
(** Matrices, also the inverse: it divides by pivots that are not zero. *)
Theorem C127_matrices : forall f, forall m n m' n' : Matrix4 (flt f), up_m4 m m' -> up_m4 n n' ->
  up_m4 (m4_transpose m) (m4_transpose m') /\
  both up_m4 (m4_add (f_elem f) m n) (m4_add (f_elem f) m' n') /\
  both up_m4 (m4_mul (f_elem f) m n) (m4_mul (f_elem f) m' n') /\
  m4_eq (f_elem f) m n = m4_eq (f_elem f) m' n' /\
  both up_m4 (m4_inverse (f_elem f) m) (m4_inverse (f_elem f) m') /\
  both up_t (t_new_ (f_float f) m) (t_new_ (f_float f) m').
Proof. exact all_matrices. Qed.
Print Assumptions C127_matrices.
(** Transforms *)
Theorem C127_transforms : forall f, forall (t t' : Transform (flt f)) (v v' : Vector3 (flt f)), up_t t t' -> up_v3 v v' ->
  up_t (t_inverse t) (t_inverse t') /\
  up_t (t_transpose t) (t_transpose t') /\
  t_is_identity (f_float f) t = t_is_identity (f_float f) t' /\
  both up_t (t_translate (f_float f) v) (t_translate (f_float f) v') /\
  both up_v3 (v3_transform (f_float f) (fun x => x) v t) (v3_transform (f_float f) (fun x => x) v' t') /\
  t_has_scale (f_float f) t = t_has_scale (f_float f) t'.
Proof. exact all_transforms. Qed.
Print Assumptions C127_transforms.
(** Quotients, if the divisor is identical or not zero *)
Theorem C127_quotients : forall f, forall (p p' : Point3 (flt f)) (v v' : Vector3 (flt f)) (n n' : Normal3 (flt f)) (s s' : flt f), up_p3 p p' -> up_v3 v v' -> up_n3 n n' -> upto s s' -> s = s' \/ ~ a_zero s ->
  both up_p3 (p3_div (f_elem f) p s) (p3_div (f_elem f) p' s') /\
  both up_v3 (v3_div (f_elem f) v s) (v3_div (f_elem f) v' s') /\
  both up_n3 (n3_div (f_elem f) n s) (n3_div (f_elem f) n' s').
Proof. exact all_quotients. Qed.
Print Assumptions C127_quotients.
(** scale, if no factor is zero *)
Theorem C127_scale : forall f (x y z x' y' z' : flt f), upto x x' -> upto y y' -> upto z z' -> ~ a_zero x -> ~ a_zero y -> ~ a_zero z ->
  t_scale (f_float f) x y z = t_scale (f_float f) x' y' z'.
Proof. exact scale_nonzero. Qed.
Print Assumptions C127_scale.
(** Division by zero tells the two zeros apart, *)
Theorem C127_division_refuted : exists p s s', upto s s' /\ ~ both up_p3 (p3_div (f_elem F32) p s) (p3_div (f_elem F32) p s').
Proof. exists (P3 (f32 1) (f32 1) (f32 1)), (B754_zero false), (B754_zero true). split; [reflexivity|]. intros [H _]. discriminate H. Qed.
Print Assumptions C127_division_refuted.
(** and so does scale. *)
Theorem C127_scale_refuted : exists s s', upto s s' /\ ~ both up_t (t_scale (f_float F32) s (f32 1) (f32 1)) (t_scale (f_float F32) s' (f32 1) (f32 1)).
Proof. exists (B754_zero false), (B754_zero true). split; [reflexivity|]. intros [_ H]. specialize (H I0 I0). discriminate H. Qed.
Print Assumptions C127_scale_refuted.
Definition zm (s : bool) : Matrix4 (flt F32) := let z := B754_zero s in let o := f32 2 in W4 (W4 z o z z) (W4 o z z z) (W4 z z o z) (W4 z z z o).
Example C127_example : up_m4 (zm false) (zm true) /\ zm false <> zm true /\ both up_m4 (m4_inverse (f_elem F32) (zm false)) (m4_inverse (f_elem F32) (zm true)) /\
  match m4_inverse (f_elem F32) (zm true) with Done _ => True | _ => False end.
Proof.
  assert (H : up_m4 (zm false) (zm true)) by (intros r c; destruct r, c; reflexivity). split; [exact H|]. split; [intros K; apply (f_equal (fun m => mget m I0 I0)) in K; discriminate K|].
  split; [exact (proj1 (proj2 (proj2 (proj2 (proj2 (C127_matrices F32 _ _ _ _ H H))))))|]. vm_compute. exact I.
Qed.
Example C127_example_boxes : let z s := B754_zero s : flt F32 in let b s := B3 (P3 (z s) (z s) (z s)) (P3 (f32 1) (z s) (f32 2)) in
  up_b3 (b true) (b false) /\ ~ a_zero (f32 2) /\ upto (z true) (z false) /\ ~ upto (f32 1) (z true).
Proof. split; [repeat split|]. split; [intros [s H]; discriminate H|]. split; [reflexivity|]. intros H. apply C127_relation in H as [H|[[s H] _]]; discriminate H. Qed.
