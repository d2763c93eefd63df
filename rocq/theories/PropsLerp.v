(** Property theorems about singular matrices, interpolation and ray differentials in floats. Nothing but statements, examples
    and [Print Assumptions]. *)
From Coq Require Import ZArith Reals Lra Lia.
From Flocq Require Import Core.Core IEEE754.BinarySingleNaN.
From Verif Require Import Base Elem GeoModel MatModel MatSpec FloatInst GeoSpec ArithSpec OpsSpec FloatErrSpec RaySpec.
From Verif Require Import FloatNan FloatLerp FloatRay.
Local Open Scope R_scope.

(** ** C102: inverse in f32 and f64 panics on singular matrices only, and on all of them. Refuted both ways. *)
(** Two equal rows, or two equal columns, and a finite result. *)
Theorem C102_equal_rows_refuted : forall f, exists A B : Matrix4 (flt f), (forall r c, is_finite (mget A r c) = true) /\
  (forall c, mget A I0 c = mget A I1 c) /\ m4_inverse (f_elem f) A = Done B /\ forall r c, is_finite (mget B r c) = true.
Proof. exact equal_rows. Qed.
Print Assumptions C102_equal_rows_refuted.
Theorem C102_equal_columns_refuted : forall f, exists A B : Matrix4 (flt f), (forall r c, is_finite (mget A r c) = true) /\
  (forall r, mget A r I0 = mget A r I1) /\ m4_inverse (f_elem f) A = Done B /\ forall r c, is_finite (mget B r c) = true.
Proof. exact equal_columns. Qed.
Print Assumptions C102_equal_columns_refuted.
(** A regular matrix and a panic. *)
Theorem C102_regular_refuted : forall f, exists A : Matrix4 (flt f), (forall r c, is_finite (mget A r c) = true) /\ detR (m_real A) <> 0 /\
  m4_inverse (f_elem f) A = Panic.
Proof. exact regular_panics. Qed.
Print Assumptions C102_regular_refuted.
(** A row and a column of zeros and no panic. *)
Theorem C102_zero_row_refuted : forall f, exists A B : Matrix4 (flt f), (forall r c, is_finite (mget A r c) = true) /\
  (forall c, B2R (mget A I3 c) = 0) /\ (forall r, B2R (mget A r I3) = 0) /\ m4_inverse (f_elem f) A = Done B.
Proof. exact zero_row_returns. Qed.
Print Assumptions C102_zero_row_refuted.
(** What is true: a result without NaN comes from a matrix without NaN in which no row and no column is zero. *)
Theorem C102_result_partial : forall f (A B : Matrix4 (flt f)), m4_inverse (f_elem f) A = Done B -> (forall r c, is_nan (mget B r c) = false) ->
  (forall r c, is_nan (mget A r c) = false) /\
  (forall r, ~ forall c, is_finite (mget A r c) = true /\ B2R (mget A r c) = 0) /\
  (forall c, ~ forall r, is_finite (mget A r c) = true /\ B2R (mget A r c) = 0).
Proof. exact no_nan_result. Qed.
Print Assumptions C102_result_partial.
(** Infinity, unlike NaN, can disappear. *)
Theorem C102_infinity : forall f, exists A B : Matrix4 (flt f), mget A I0 I0 = f_inf f /\ m4_inverse (f_elem f) A = Done B /\
  forall r c, is_finite (mget B r c) = true.
Proof. exact infinite_entry. Qed.
Print Assumptions C102_infinity.
Example C102_example : (forall A : Matrix4 R, (forall c, mget A I0 c = mget A I1 c) -> detR A = 0) /\
  (forall A : Matrix4 R, (forall r, mget A r I0 = mget A r I1) -> detR A = 0).
Proof. exact (conj equal_rows_det equal_columns_det). Qed.

(** ** C103: lerp in f32 and f64 stays between its end points. Refuted. *)
Theorem C103_same_refuted : forall f, exists t a d : flt f, is_finite t = true /\ is_finite a = true /\ 0 < B2R t < 1 /\
  lerp (f_float f) t a a = Done d /\ B2R a < B2R d.
Proof. exact lerp_same. Qed.
Print Assumptions C103_same_refuted.
Theorem C103_box_refuted : forall f, exists (b : Bounds3 (flt f)) t w, bfinite b /\ normalised (tle (TFloat f)) b /\
  (forall i, 0 < B2R (coord i t) < 1) /\ b3_lerp (f_float f) b t = Done w /\ b3_inside (f_elem f) b w = false.
Proof. exact box_left. Qed.
Print Assumptions C103_box_refuted.
(** It does up to four rounding errors. *)
Theorem C103_between_partial : forall f (t a b d : flt f), is_finite t = true -> is_finite a = true -> is_finite b = true -> 0 <= B2R t <= 1 ->
  lerp (f_float f) t a b = Done d ->
  let slack := 4 * half_ulp f * Rmax (Rabs (B2R a)) (Rabs (B2R b)) + 3 * half_tiny f in
  Rmin (B2R a) (B2R b) - slack <= B2R d <= Rmax (B2R a) (B2R b) + slack.
Proof. exact lerp_near. Qed.
Print Assumptions C103_between_partial.
(** Nor does it go from the one to the other without turning. *)
Theorem C103_monotone_refuted : forall f, exists t t' a b d d' : flt f, 0 < B2R t /\ B2R t < B2R t' /\ B2R t' < 1 /\ B2R a < B2R b /\
  lerp (f_float f) t a b = Done d /\ lerp (f_float f) t' a b = Done d' /\ B2R d' < B2R d.
Proof. exact lerp_back. Qed.
Print Assumptions C103_monotone_refuted.

Example C103_example : let t := f_div (f32 1) (f32 4) in is_finite t = true /\ 0 <= B2R t <= 1 /\
  omap B2SF (lerp (f_float F32) t (f32 2) (f32 6)) = Done (B2SF (f32 3)).
Proof. exact lerp_example. Qed.

(** ** C104: what lerp in f32 and f64 guarantees *)
Theorem C104_ends : forall f (t a b : flt f), is_finite t = true -> is_finite a = true -> is_finite b = true ->
  exists d, lerp (f_float f) t a b = Done d /\
  (B2R t = 0 -> is_finite d = true /\ B2R d = B2R a) /\ (B2R t = 1 -> is_finite d = true /\ B2R d = B2R b).
Proof. exact lerp_ends. Qed.
Print Assumptions C104_ends.
(** Between finite numbers, however large, it does not overflow. *)
Theorem C104_finite : forall f (t a b : flt f), is_finite t = true -> is_finite a = true -> is_finite b = true -> 0 <= B2R t <= 1 ->
  exists d, lerp (f_float f) t a b = Done d /\ is_finite d = true.
Proof. exact lerp_finite. Qed.
Print Assumptions C104_finite.
Theorem C104_order : forall f (t a b a' b' d d' : flt f), is_finite t = true -> is_finite a = true -> is_finite b = true ->
  is_finite a' = true -> is_finite b' = true -> 0 <= B2R t <= 1 -> B2R a <= B2R a' -> B2R b <= B2R b' ->
  lerp (f_float f) t a b = Done d -> lerp (f_float f) t a' b' = Done d' -> B2R d <= B2R d'.
Proof. exact lerp_mono. Qed.
Print Assumptions C104_order.
Theorem C104_negation : forall f (t a b d : flt f), is_finite t = true -> is_finite a = true -> is_finite b = true -> 0 <= B2R t <= 1 ->
  lerp (f_float f) t a b = Done d -> exists d', lerp (f_float f) t (Bopp a) (Bopp b) = Done d' /\ B2R d' = - B2R d.
Proof. exact lerp_neg. Qed.
Print Assumptions C104_negation.
Theorem C104_sign : forall f (t a b d : flt f), is_finite t = true -> is_finite a = true -> is_finite b = true -> 0 <= B2R t <= 1 ->
  lerp (f_float f) t a b = Done d -> (0 <= B2R a -> 0 <= B2R b -> 0 <= B2R d) /\ (B2R a <= 0 -> B2R b <= 0 -> B2R d <= 0).
Proof. exact lerp_sign. Qed.
Print Assumptions C104_sign.
(** Points and boxes are interpolated coordinate by coordinate. *)
Theorem C104_points : forall f t (p q : Point3 (flt f)), exists w, p3_lerp (f_float f) t p q = Done w /\
  forall i, lerp (f_float f) t (coord i p) (coord i q) = Done (coord i w).
Proof. exact p_lerp_coord. Qed.
Print Assumptions C104_points.
Theorem C104_boxes : forall f (b : Bounds3 (flt f)) t, exists w, b3_lerp (f_float f) b t = Done w /\
  forall i, lerp (f_float f) (coord i t) (coord i (b_min b)) (coord i (b_max b)) = Done (coord i w).
Proof. exact b_lerp_coord. Qed.
Print Assumptions C104_boxes.
Example C104_example : let t := f_div (f32 1) (f32 4) in is_finite t = true /\ 0 <= B2R t <= 1 /\
  omap B2SF (lerp (f_float F32) t (f32 2) (f32 6)) = Done (B2SF (f32 3)).
Proof. exact lerp_example. Qed.

(** ** C105: scale_differentials in f32 and f64 *)
Theorem C105_formula : forall f (rd : RayDifferential (flt f)) s, exists c, rd_scale (f_float f) rd s = Done c /\
  rd_ray c = rd_ray rd /\ rd_has c = rd_has rd /\
  forall k i, part_of k i c = f_add (main_of k i rd) (f_mult s (f_sub (part_of k i rd) (main_of k i rd))).
Proof. exact scale_formula. Qed.
Print Assumptions C105_formula.
Theorem C105_error : forall f (rd c : RayDifferential (flt f)) s k i, rd_scale (f_float f) rd s = Done c -> is_finite (part_of k i c) = true ->
  let m := B2R (main_of k i rd) in let p := B2R (part_of k i rd) in
  within f 3 (Rabs m + Rabs (B2R s * (p - m))) (half_tiny f) (part_of k i c) (m + B2R s * (p - m)).
Proof. exact scale_err. Qed.
Print Assumptions C105_error.
Theorem C105_zero : forall f (rd c : RayDifferential (flt f)) s k i, rd_scale (f_float f) rd s = Done c -> is_finite s = true -> B2R s = 0 ->
  is_finite (main_of k i rd) = true -> is_finite (f_sub (part_of k i rd) (main_of k i rd)) = true ->
  is_finite (part_of k i c) = true /\ B2R (part_of k i c) = B2R (main_of k i rd).
Proof. exact scale_zero. Qed.
Print Assumptions C105_zero.
(** The difference must not overflow. *)
Theorem C105_zero_overflow_refuted : forall f, exists rd c, (forall k i, is_finite (part_of k i rd) = true /\ is_finite (main_of k i rd) = true) /\
  rd_scale (f_float f) rd (f_of_int f 0) = Done c /\ is_nan (part_of XOrigin AX c) = true.
Proof. exact zero_changes. Qed.
Print Assumptions C105_zero_overflow_refuted.
(** The factor 1 changes nothing where main ray and neighbour are within a factor of two of each other. *)
Theorem C105_one : forall f (rd c : RayDifferential (flt f)) s k i, rd_scale (f_float f) rd s = Done c -> is_finite s = true -> B2R s = 1 ->
  is_finite (main_of k i rd) = true -> is_finite (part_of k i rd) = true ->
  (let m := B2R (main_of k i rd) in let p := B2R (part_of k i rd) in (0 <= m /\ m / 2 <= p <= 2 * m) \/ (m <= 0 /\ 2 * m <= p <= m / 2)) ->
  is_finite (part_of k i c) = true /\ B2R (part_of k i c) = B2R (part_of k i rd).
Proof. exact scale_one. Qed.
Print Assumptions C105_one.
Theorem C105_one_near : forall f (rd c : RayDifferential (flt f)) s k i, rd_scale (f_float f) rd s = Done c -> is_finite s = true -> B2R s = 1 ->
  is_finite (part_of k i c) = true ->
  Rabs (B2R (part_of k i c) - B2R (part_of k i rd)) <= half_ulp f * (3 * Rabs (B2R (part_of k i rd)) + 2 * Rabs (B2R (main_of k i rd))).
Proof. exact scale_one_near. Qed.
Print Assumptions C105_one_near.
(** Elsewhere it does: 1 becomes 0. *)
Theorem C105_one_exact_refuted : forall f, exists rd c, (forall k i, is_finite (part_of k i rd) = true /\ is_finite (main_of k i rd) = true) /\
  rd_scale (f_float f) rd (f_of_int f 1) = Done c /\ B2R (part_of XOrigin AX rd) = 1 /\ B2R (part_of XOrigin AX c) = 0.
Proof. exact one_changes. Qed.
Print Assumptions C105_one_exact_refuted.
Example C105_example : let rd := rd_with F32 (f32 2) (f32 3) in
  (forall k i, is_finite (part_of k i rd) = true /\ is_finite (main_of k i rd) = true) /\
  exists c, rd_scale (f_float F32) rd (f32 1) = Done c /\ is_finite (part_of XOrigin AX c) = true.
Proof. exact rd_example. Qed.

(** ** C106: interpolating by the relative position of a point of the box comes back to the point. Up to rounding errors only. *)
Theorem C106_near_partial : forall f (b : Bounds3 (flt f)) p, bfinite b -> (forall i, is_finite (f_sub (coord i (b_max b)) (coord i (b_min b))) = true) ->
  inb (tle (TFloat f)) b p -> exists o w, b3_offset (f_elem f) b p = Done o /\ b3_lerp (f_float f) b (p3_from_v3 o) = Done w /\
  forall i, is_finite (coord i w) = true /\ Rabs (B2R (coord i w) - B2R (coord i p)) <=
    14 * half_ulp f * Rmax (Rabs (B2R (coord i (b_min b)))) (Rabs (B2R (coord i (b_max b)))) + 3 * half_tiny f.
Proof. exact offset_back. Qed.
Print Assumptions C106_near_partial.
Theorem C106_exact_refuted : forall f, exists (b : Bounds3 (flt f)) p o w, bfinite b /\ inb (tle (TFloat f)) b p /\
  b3_offset (f_elem f) b p = Done o /\ b3_lerp (f_float f) b (p3_from_v3 o) = Done w /\ B2R (px w) < B2R (px p).
Proof. exact offset_not_back. Qed.
Print Assumptions C106_exact_refuted.
Example C106_example : let b := B3 (P3 (f32 0) (f32 0) (f32 0)) (P3 (f32 4) (f32 2) (f32 3)) in bfinite b /\
  (forall i, is_finite (f_sub (coord i (b_max b)) (coord i (b_min b))) = true) /\ inb (tle (TFloat F32)) b (P3 (f32 1) (f32 2) (f32 0)).
Proof. exact offset_example. Qed.
