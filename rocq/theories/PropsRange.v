(** Property theorems: scenes in which nothing overflows. Nothing but statements, examples and [Print Assumptions]. *)
From Coq Require Import ZArith Reals.
From Flocq Require Import Core.Core IEEE754.BinarySingleNaN.
From Verif Require Import Base Elem GeoModel MatModel MatSpec FloatInst GeoSpec ArithSpec OpsSpec RangeSpec.
From Verif Require Import FloatRange.
Local Open Scope R_scope.

(** ** C117: numbers up to a power of two give finite results, of known size *)
Theorem C117_sums : forall f k (p q : Point3 (flt f)) (u v : Vector3 (flt f)) (b : Bounds3 (flt f)) (d : (flt f)), (0 <= k)%Z -> (k + 2 <= femax f)%Z ->
  atmost_pt f 1 k p -> atmost_pt f 1 k q -> atmost_vec f 1 k u -> atmost_vec f 1 k v -> atmost_box f 1 k b -> atmost f 1 k d ->
  (gives (atmost_pt f 2 k) (p3_add (f_elem f) p v) /\ gives (atmost_pt f 2 k) (p3_sub_v (f_elem f) p v) /\ gives (atmost_vec f 2 k) (p3_sub (f_elem f) p q)) /\
  (gives (atmost_vec f 2 k) (v3_add (f_elem f) u v) /\ gives (atmost_vec f 2 k) (v3_sub (f_elem f) u v)) /\
  (gives (atmost_box f 2 k) (b3_expand (f_elem f) b d) /\ gives (atmost_vec f 2 k) (b3_diagonal (f_elem f) b)).
Proof. exact sums_range. Qed.
Print Assumptions C117_sums.
Theorem C117_products : forall f j k (u v : Vector3 (flt f)), (0 <= j)%Z -> (0 <= k)%Z -> (j + k + 2 <= femax f)%Z -> atmost_vec f 1 j u -> atmost_vec f 1 k v ->
  gives (atmost f 3 (j + k)) (v3_dot (f_elem f) u v) /\ gives (atmost_vec f 2 (j + k)) (v3_cross (f_elem f) u v).
Proof. exact products_range. Qed.
Print Assumptions C117_products.
Theorem C117_length : forall f k (v : Vector3 (flt f)), (0 <= k)%Z -> (2 * k + 2 <= femax f)%Z -> atmost_vec f 1 k v ->
  gives (atmost f 3 (2 * k)) (v3_len_sq (f_elem f) v) /\ gives (atmost f 2 k) (v3_len (f_float f) (f_elem f) (fun x => x) v).
Proof. exact length_range. Qed.
Print Assumptions C117_length.
Theorem C117_measures : forall f k (b : Bounds3 (flt f)), (0 <= k)%Z -> atmost_box f 1 k b ->
  ((2 * k + 5 <= femax f)%Z -> gives (atmost f 24 (2 * k)) (b3_surface_area (f_elem f) b)) /\
  ((3 * k + 4 <= femax f)%Z -> gives (atmost f 8 (3 * k)) (b3_volume (f_elem f) b)).
Proof. exact measures_range. Qed.
Print Assumptions C117_measures.
Theorem C117_sphere : forall f k (b : Bounds3 (flt f)), (0 <= k)%Z -> (2 * k + 4 <= femax f)%Z -> atmost_box f 1 k b ->
  gives (fun s => atmost_pt f 1 k (fst s) /\ atmost f 4 k (snd s)) (bounding_sphere (f_float f) b).
Proof. exact sphere_range. Qed.
Print Assumptions C117_sphere.
Theorem C117_multiples : forall f j k (v : Vector3 (flt f)) (r : Ray (flt f)) (rd : RayDifferential (flt f)) (t : (flt f)), (0 <= j)%Z -> (0 <= k)%Z -> (j + k + 2 <= femax f)%Z -> atmost f 1 j t ->
  (atmost_vec f 1 k v -> gives (atmost_vec f 1 (j + k)) (v3_mul (f_elem f) v t)) /\
  (atmost_pt f 1 k (r_o r) -> atmost_vec f 1 k (r_d r) -> gives (atmost_pt f 2 (j + k)) (ray_at (f_float f) r t)) /\
  (atmost_pt f 1 k (r_o (rd_ray rd)) -> atmost_vec f 1 k (r_d (rd_ray rd)) -> atmost_pt f 1 k (rx_origin rd) -> atmost_pt f 1 k (ry_origin rd) ->
    atmost_vec f 1 k (rx_direction rd) -> atmost_vec f 1 k (ry_direction rd) ->
    gives (fun s => atmost_pt f 3 (j + k) (rx_origin s) /\ atmost_pt f 3 (j + k) (ry_origin s) /\
      atmost_vec f 3 (j + k) (rx_direction s) /\ atmost_vec f 3 (j + k) (ry_direction s)) (rd_scale (f_float f) rd t)).
Proof. exact multiples_range. Qed.
Print Assumptions C117_multiples.
Theorem C117_matrices : forall f j k (a b : Matrix4 (flt f)) (v : Vector3 (flt f)), (0 <= j)%Z -> (0 <= k)%Z -> (j + k + 3 <= femax f)%Z -> atmost_mat f 1 j a -> atmost_mat f 1 k b -> atmost_vec f 1 k v ->
  gives (atmost_mat f 4 (j + k)) (m4_mul (f_elem f) a b) /\ gives (atmost_mat f 2 (j + k)) (m4_add (f_elem f) a b) /\
  forall ai, gives (atmost_vec f 3 (j + k)) (v3_transform (f_float f) (fun x => x) v (mkT a ai)).
Proof. exact matrices_range. Qed.
Print Assumptions C117_matrices.
(** With bounds one power of two larger, dot products, lengths, areas, volumes and matrix products overflow; a dot product can even be NaN. *)
Theorem C117_larger_refuted :
  (exists u v : Vector3 (flt F32), atmost_vec F32 1 63 u /\ atmost_vec F32 1 64 v /\ omap B2SF (v3_dot (f_elem F32) u v) = Done (SpecFloat.S754_infinity false)) /\
  (exists u v : Vector3 (flt F32), atmost_vec F32 1 64 u /\ atmost_vec F32 1 64 v /\ omap B2SF (v3_dot (f_elem F32) u v) = Done SpecFloat.S754_nan) /\
  (exists v : Vector3 (flt F32), atmost_vec F32 1 64 v /\ omap B2SF (v3_len (f_float F32) (f_elem F32) (fun x => x) v) = Done (SpecFloat.S754_infinity false)) /\
  (exists b : Bounds3 (flt F32), atmost_box F32 1 62 b /\ omap B2SF (b3_surface_area (f_elem F32) b) = Done (SpecFloat.S754_infinity false)) /\
  (exists b : Bounds3 (flt F32), atmost_box F32 1 42 b /\ omap B2SF (b3_volume (f_elem F32) b) = Done (SpecFloat.S754_infinity false)) /\
  (exists a b : Matrix4 (flt F32), atmost_mat F32 1 63 a /\ atmost_mat F32 1 63 b /\ omap (fun m => B2SF (mget m I0 I0)) (m4_mul (f_elem F32) a b) = Done (SpecFloat.S754_infinity false)).
Proof. exact range_cases. Qed.
Print Assumptions C117_larger_refuted.
Example C117_case : let v := V3 (f32 3) (f_div (f32 1) (f32 3)) (f32 (-2 ^ 61)) in let a := bx (f32 0) (f32 (-100)) (f32 2) (f32 (2 ^ 41)) (f32 7) (f32 5) in
  let m := W4 (W4 (f32 2) (f32 0) (f32 (-7)) (f32 (2 ^ 60))) (vconst (f32 1)) (vconst (f32 0)) (vconst (f32 100)) in
  (atmost_vec F32 1 61 v /\ atmost_box F32 1 41 a /\ atmost_mat F32 1 61 m /\ atmost F32 1 61 (vz v)) /\
  (2 * 61 + 5 <= femax F32 /\ 2 * 61 + 4 <= femax F32 /\ 61 + 61 + 3 <= femax F32 /\ 3 * 41 + 4 <= femax F32)%Z.
Proof. exact range_case. Qed.
