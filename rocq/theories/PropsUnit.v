(** Property theorems: a change of unit by a power of two. Nothing but statements, examples and [Print Assumptions]. *)
From Coq Require Import ZArith Reals.
From Flocq Require Import Core.Core IEEE754.BinarySingleNaN.
From Verif Require Import Base Elem GeoModel MatModel MatSpec FloatInst GeoSpec ArithSpec OpsSpec MirSpec UnitSpec.
From Verif Require Import FloatUnit.
Local Open Scope R_scope.

(** ** C116: what is [2^k] times as large before is exactly [2^k] times as large after *)
(** Where nothing is computed but order: no condition at all. *)
Theorem C116_order : forall f k (a a' b b' : Bounds3 (flt f)) (p p' q q' : Point3 (flt f)) (v v' : Vector3 (flt f)),
  scaled_box f k a a' -> scaled_box f k b b' -> scaled_pt f k p p' -> scaled_pt f k q q' -> scaled_vec f k v v' ->
  (both (scaled_box f k) (b3_new (f_elem f) p q) (b3_new (f_elem f) p' q') /\ both (scaled_box f k) (b3_union (f_elem f) a b) (b3_union (f_elem f) a' b') /\
   both (scaled_box f k) (b3_union_pt (f_elem f) a p) (b3_union_pt (f_elem f) a' p') /\ both (scaled_box f k) (b3_intersect (f_elem f) a b) (b3_intersect (f_elem f) a' b')) /\
  (b3_overlaps (f_elem f) a b = b3_overlaps (f_elem f) a' b' /\ b3_inside (f_elem f) a p = b3_inside (f_elem f) a' p' /\
   b3_inside_exclusive (f_elem f) a p = b3_inside_exclusive (f_elem f) a' p') /\
  (both (scaled f k) (v3_min_component (f_elem f) v) (v3_min_component (f_elem f) v') /\ both (scaled f k) (v3_max_component (f_elem f) v) (v3_max_component (f_elem f) v') /\
   v3_max_dimension (f_elem f) v = v3_max_dimension (f_elem f) v' /\ both (scaled_vec f k) (v3_neg (f_elem f) v) (v3_neg (f_elem f) v') /\
   both (scaled_pt f k) (p3_abs (f_elem f) p) (p3_abs (f_elem f) p')) /\
  (both (scaled_pt f k) (p3_min (f_elem f) p q) (p3_min (f_elem f) p' q') /\ both (scaled_pt f k) (p3_max (f_elem f) p q) (p3_max (f_elem f) p' q')).
Proof. exact order_scaled. Qed.
Print Assumptions C116_order.
(** Sums and differences: unless the larger result overflows. *)
Theorem C116_sums : forall f k (p p' q q' : Point3 (flt f)) (u u' v v' : Vector3 (flt f)) (a a' : Bounds3 (flt f)), (0 <= k)%Z ->
  scaled_pt f k p p' -> scaled_pt f k q q' -> scaled_vec f k u u' -> scaled_vec f k v v' -> scaled_box f k a a' ->
  both (up_pt f k) (p3_add (f_elem f) p v) (p3_add (f_elem f) p' v') /\ both (up_pt f k) (p3_sub_v (f_elem f) p v) (p3_sub_v (f_elem f) p' v') /\
  both (up_vec f k) (p3_sub (f_elem f) p q) (p3_sub (f_elem f) p' q') /\ both (up_vec f k) (v3_add (f_elem f) u v) (v3_add (f_elem f) u' v') /\
  both (up_vec f k) (v3_sub (f_elem f) u v) (v3_sub (f_elem f) u' v') /\ both (up_vec f k) (b3_diagonal (f_elem f) a) (b3_diagonal (f_elem f) a').
Proof. exact sums_scaled. Qed.
Print Assumptions C116_sums.
Theorem C116_expand : forall f k (a a' : Bounds3 (flt f)) d d', (0 <= k)%Z -> scaled_box f k a a' -> scaled f k d d' -> bfinite a' -> is_finite d' = true ->
  upto_overflow bfinite (scaled_box f k) (b3_expand (f_elem f) a d) (b3_expand (f_elem f) a' d').
Proof. exact expand_scaled. Qed.
Print Assumptions C116_expand.
(** Relative coordinates and the longest side do not change (on an axis without extent [offset] is a difference). *)
Theorem C116_ratios : forall f k (a a' : Bounds3 (flt f)) (p p' : Point3 (flt f)) d' w', (0 <= k)%Z -> scaled_box f k a a' -> scaled_pt f k p p' ->
  b3_diagonal (f_elem f) a' = Done d' -> p3_sub (f_elem f) p' (b_min a') = Done w' ->
  (vfinite d' -> b3_maximum_extent (f_elem f) a = b3_maximum_extent (f_elem f) a') /\
  both (fun o o' => forall i, is_finite (vcoord i d') = true -> is_finite (vcoord i w') = true ->
    if Bltb (coord i (b_min a)) (coord i (b_max a)) then Beqb (vcoord i o) (vcoord i o') = true else scaled f k (vcoord i o) (vcoord i o'))
    (b3_offset (f_elem f) a p) (b3_offset (f_elem f) a' p').
Proof. exact ratios_scaled. Qed.
Print Assumptions C116_ratios.
(** Products: unless they overflow in the larger scene or are tiny in the smaller one. *)
Theorem C116_products : forall f j k (u u' v v' : Vector3 (flt f)), (0 <= j + k)%Z -> scaled_vec f j u u' -> scaled_vec f k v v' ->
  (forall i i', not_tiny f (B2R (vcoord i u) * B2R (vcoord i' v))) ->
  upto_overflow (fun x => is_finite x = true) (scaled f (j + k)) (v3_dot (f_elem f) u v) (v3_dot (f_elem f) u' v') /\
  both (up_vec f (j + k)) (v3_cross (f_elem f) u v) (v3_cross (f_elem f) u' v').
Proof. exact products_scaled. Qed.
Print Assumptions C116_products.
Theorem C116_length : forall f k (v v' : Vector3 (flt f)) l', (0 <= k)%Z -> scaled_vec f k v v' -> (forall i, not_tiny f (B2R (vcoord i v) * B2R (vcoord i v))) ->
  v3_len_sq (f_elem f) v' = Done l' -> is_finite l' = true ->
  both (scaled f (k + k)) (v3_len_sq (f_elem f) v) (v3_len_sq (f_elem f) v') /\
  both (scaled f k) (v3_len (f_float f) (f_elem f) (fun x => x) v) (v3_len (f_float f) (f_elem f) (fun x => x) v').
Proof. exact length_scaled. Qed.
Print Assumptions C116_length.
Theorem C116_measures : forall f k (a a' : Bounds3 (flt f)) d, (0 <= k)%Z -> scaled_box f k a a' -> b3_diagonal (f_elem f) a = Done d ->
  (forall i i', not_tiny f (B2R (vcoord i d) * B2R (vcoord i' d))) -> not_tiny f (B2R (f_mult (vx d) (vy d)) * B2R (vz d)) ->
  upto_overflow (fun x => is_finite x = true) (scaled f (2 * k)) (b3_surface_area (f_elem f) a) (b3_surface_area (f_elem f) a') /\
  upto_overflow (fun x => is_finite x = true) (scaled f (3 * k)) (b3_volume (f_elem f) a) (b3_volume (f_elem f) a').
Proof. exact measures_scaled. Qed.
Print Assumptions C116_measures.
(** Numbers without a unit: factors, parameters of rays, weights, matrices. *)
Theorem C116_multiples : forall f k (v v' : Vector3 (flt f)) (r r' : Ray (flt f)) t, (0 <= k)%Z -> scaled_vec f k v v' ->
  scaled_pt f k (r_o r) (r_o r') -> scaled_vec f k (r_d r) (r_d r') ->
  (forall i, not_tiny f (B2R t * B2R (vcoord i v))) -> (forall i, not_tiny f (B2R t * B2R (vcoord i (r_d r)))) ->
  both (up_vec f k) (v3_mul (f_elem f) v t) (v3_mul (f_elem f) v' t) /\ both (up_pt f k) (ray_at (f_float f) r t) (ray_at (f_float f) r' t).
Proof. exact multiples_scaled. Qed.
Print Assumptions C116_multiples.
Theorem C116_lerp : forall f k (p p' q q' : Point3 (flt f)) t, (0 <= k)%Z -> scaled_pt f k p p' -> scaled_pt f k q q' ->
  (forall i, not_tiny f (B2R (f_sub (f_of_int f 1) t) * B2R (coord i p)) /\ not_tiny f (B2R t * B2R (coord i q))) ->
  both (up_pt f k) (p3_lerp (f_float f) t p q) (p3_lerp (f_float f) t p' q').
Proof. exact lerps_scaled. Qed.
Print Assumptions C116_lerp.
Theorem C116_transform : forall f k (v v' : Vector3 (flt f)) (t : Transform (flt f)), (0 <= k)%Z -> scaled_vec f k v v' ->
  (forall r c, not_tiny f (B2R (mget (t_m t) r (match c with AX => I0 | AY => I1 | AZ => I2 end)) * B2R (vcoord c v))) ->
  both (up_vec f k) (v3_transform (f_float f) (fun x => x) v t) (v3_transform (f_float f) (fun x => x) v' t).
Proof. exact transform_scaled. Qed.
Print Assumptions C116_transform.
Theorem C116_centre : forall f k (a a' : Bounds3 (flt f)), (0 <= k)%Z -> scaled_box f k a a' ->
  (forall i, not_tiny f (B2R (f_add (coord i (b_min a)) (coord i (b_max a))) / 2)) ->
  exists c r c' r', bounding_sphere (f_float f) a = Done (c, r) /\ bounding_sphere (f_float f) a' = Done (c', r') /\
    forall i, is_finite (f_add (coord i (b_min a')) (coord i (b_max a'))) = true -> scaled f k (coord i c) (coord i c').
Proof. exact centre_scaled. Qed.
Print Assumptions C116_centre.
(** The second vector of a coordinate system does not depend on the length of the first. *)
Theorem C116_coordinate_system : forall f k (v v' : Vector3 (flt f)), (0 <= k)%Z -> scaled_vec f k v v' -> vfinite v' ->
  (forall i, Rabs (B2R (vcoord i v')) <= bpow radix2 (femax f / 2 - 1)) ->
  (forall i, not_tiny f (B2R (vcoord i v) * B2R (vcoord i v))) -> (exists i, B2R (vcoord i v) <> 0) ->
  exists u u' w w', coordinate_system (f_float f) v = Done (u, w) /\ coordinate_system (f_float f) v' = Done (u', w') /\
    (forall i, Beqb (vcoord i u) (vcoord i u') = true) /\
    ((forall i i', not_tiny f (B2R (vcoord i v) * B2R (vcoord i' u))) -> up_vec f k w w').
Proof. exact frame_scaled. Qed.
Print Assumptions C116_coordinate_system.
(** Which way a vector is turned by face_forward does not change. *)
Theorem C116_face_forward : forall f j k (u u' v v' : Vector3 (flt f)), (0 <= j + k)%Z -> scaled_vec f j u u' -> scaled_vec f k v v' ->
  (forall i i', not_tiny f (B2R (vcoord i u) * B2R (vcoord i' v))) ->
  (forall d', v3_dot (f_elem f) u' v' = Done d' -> is_finite d' = true) ->
  both (scaled_vec f j) (v3_face_forward (f_elem f) u v) (v3_face_forward (f_elem f) u' v').
Proof. exact face_forward_scaled. Qed.
Print Assumptions C116_face_forward.
(** The condition on products is needed: half of the smallest number is 0, half of twice the smallest is not. *)
Theorem C116_tiny_refuted : exists x x' t : flt F32, scaled F32 1 x x' /\ is_finite t = true /\ is_finite (f_mult t x') = true /\
  B2R (f_mult t x) = 0 /\ B2R (f_mult t x') <> 0.
Proof. exact tiny_case. Qed.
Print Assumptions C116_tiny_refuted.
Example C116_case : let v := V3 (f32 1) (f32 2) (f32 3) in let v' := V3 (f32 1024) (f32 2048) (f32 3072) in
  let u := V3 (f32 4) (f32 (-5)) (f32 0) in let u' := V3 (f32 4096) (f32 (-5120)) (f32 0) in
  let a := bx (f32 0) (f32 (-1)) (f32 2) (f32 3) (f32 1) (f32 4) in let a' := bx (f32 0) (f32 (-1024)) (f32 2048) (f32 3072) (f32 1024) (f32 4096) in
  let p := P3 (f32 1) (f32 0) (f32 3) in let p' := P3 (f32 1024) (f32 0) (f32 3072) in let t := f_div (f32 1) (f32 3) in
  (scaled_vec F32 10 v v' /\ scaled_vec F32 10 u u' /\ scaled_box F32 10 a a' /\ scaled_pt F32 10 p p') /\
  ((forall i i', not_tiny F32 (B2R (vcoord i u) * B2R (vcoord i' v))) /\ (forall i i', not_tiny F32 (B2R (vcoord i v) * B2R (vcoord i' v))) /\ (forall i, not_tiny F32 (B2R t * B2R (vcoord i v)))) /\
  (b3_inside_exclusive (f_elem F32) a p = true /\ b3_inside_exclusive (f_elem F32) a' p' = true /\ is_finite t = true).
Proof. exact unit_case. Qed.
Example C116_case_more : let v := V3 (f32 1) (f32 2) (f32 3) in let v' := V3 (f32 1024) (f32 2048) (f32 3072) in
  let a := bx (f32 0) (f32 (-1)) (f32 2) (f32 3) (f32 1) (f32 4) in let a' := bx (f32 0) (f32 (-1024)) (f32 2048) (f32 3072) (f32 1024) (f32 4096) in
  let p := P3 (f32 1) (f32 0) (f32 3) in let q := P3 (f32 5) (f32 (-7)) (f32 0) in let t := f_div (f32 1) (f32 3) in let d := V3 (f32 3) (f32 2) (f32 2) in
  let M := fun r c => f32 (match r, c with I0, I0 => 2 | I0, I1 => -1 | I1, I1 => 5 | I2, I0 => 3 | I2, I2 => 1 | I3, I3 => 1 | _, _ => 0 end) in
  (scaled F32 10 (f32 1) (f32 1024) /\ bfinite a') /\
  ((forall i i', not_tiny F32 (B2R (vcoord i d) * B2R (vcoord i' d))) /\ not_tiny F32 (B2R (f_mult (vx d) (vy d)) * B2R (vz d)) /\
   omap (fun w => (B2SF (vx w), B2SF (vy w), B2SF (vz w))) (b3_diagonal (f_elem F32) a) = Done (B2SF (vx d), B2SF (vy d), B2SF (vz d))) /\
  (forall i, not_tiny F32 (B2R (f_sub (f_of_int F32 1) t) * B2R (coord i p)) /\ not_tiny F32 (B2R t * B2R (coord i q))) /\
  (forall r c, not_tiny F32 (B2R (M r (match c with AX => I0 | AY => I1 | AZ => I2 end)) * B2R (vcoord c v))) /\
  (forall i, not_tiny F32 (B2R (f_add (coord i (b_min a)) (coord i (b_max a))) / 2)) /\
  (vfinite v' /\ (forall i, Rabs (B2R (vcoord i v')) <= bpow radix2 (femax F32 / 2 - 1)) /\ (exists i, B2R (vcoord i v) <> 0)).
Proof. exact unit_case_more. Qed.
