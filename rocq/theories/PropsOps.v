(** Property theorems about operators, lengths, volumes in rounded arithmetic, transformed vectors, rays and inverses of
    integer matrices. Nothing but statements, examples and [Print Assumptions]. *)
From Coq Require Import ZArith Reals Lra Lia List.
From Flocq Require Import Core.Core IEEE754.BinarySingleNaN.
From Verif Require Import Base Elem GeoModel MatModel MatSpec FloatInst ExactInst GeoSpec ArithSpec OpsSpec.
From Verif Require Import OpsThms TransVec.
Import ListNotations.
Local Open Scope R_scope.

(** ** C70: arithmetic of points, vectors and normals is componentwise *)
Theorem C70_points : forall ty (p q : Point3 (car ty)) (v : Vector3 (car ty)) s, comp3 coord (fun i => e_add (elem ty) (coord i p) (vcoord i v)) (p3_add (elem ty) p v) /\
  comp3 coord (fun i => e_sub (elem ty) (coord i p) (vcoord i v)) (p3_sub_v (elem ty) p v) /\
  comp3 vcoord (fun i => e_sub (elem ty) (coord i p) (coord i q)) (p3_sub (elem ty) p q) /\
  comp3 coord (fun i => e_mul (elem ty) s (coord i p)) (p3_mul (elem ty) p s) /\
  comp3 coord (fun i => e_div (elem ty) (coord i p) s) (p3_div (elem ty) p s) /\
  comp3 coord (fun i => e_abs (elem ty) (coord i p)) (p3_abs (elem ty) p).
Proof. exact point_ops. Qed.
Print Assumptions C70_points.
Example C70_points_example : p3_add (i64 true) (P3 1 2 3)%Z (V3 10 20 30)%Z = Done (P3 11 22 33)%Z /\
  p3_div (i64 true) (P3 7 (-7) 0)%Z 2%Z = Done (P3 3 (-3) 0)%Z /\ p3_div (i64 false) (P3 1 2 3)%Z 0%Z = Panic /\
  p3_abs (i64 true) (P3 (-5) 0 int_min)%Z = Panic.
Proof. repeat split; reflexivity. Qed.
Theorem C70_vectors : forall ty (u v : Vector3 (car ty)) s, comp3 vcoord (fun i => e_add (elem ty) (vcoord i u) (vcoord i v)) (v3_add (elem ty) u v) /\
  comp3 vcoord (fun i => e_sub (elem ty) (vcoord i u) (vcoord i v)) (v3_sub (elem ty) u v) /\
  comp3 vcoord (fun i => e_mul (elem ty) s (vcoord i u)) (v3_mul (elem ty) u s) /\
  comp3 vcoord (fun i => e_div (elem ty) (vcoord i u) s) (v3_div (elem ty) u s) /\
  comp3 vcoord (fun i => e_neg (elem ty) (vcoord i u)) (v3_neg (elem ty) u).
Proof. exact vector_ops. Qed.
Print Assumptions C70_vectors.
Theorem C70_normals : forall ty (u v : Normal3 (car ty)) s, comp3 ncoord (fun i => e_add (elem ty) (ncoord i u) (ncoord i v)) (n3_add (elem ty) u v) /\
  comp3 ncoord (fun i => e_sub (elem ty) (ncoord i u) (ncoord i v)) (n3_sub (elem ty) u v) /\
  comp3 ncoord (fun i => e_mul (elem ty) s (ncoord i u)) (n3_mul (elem ty) u s) /\
  comp3 ncoord (fun i => e_div (elem ty) (ncoord i u) s) (n3_div (elem ty) u s) /\
  comp3 ncoord (fun i => e_neg (elem ty) (ncoord i u)) (n3_neg (elem ty) u).
Proof. exact normal_ops. Qed.
Print Assumptions C70_normals.
Theorem C70_point2_abs : forall ty (p : Point2 (car ty)), match p2_abs (elem ty) p with
  | Done w => e_abs (elem ty) (p2x p) = Done (p2x w) /\ e_abs (elem ty) (p2y p) = Done (p2y w)
  | Panic => e_abs (elem ty) (p2x p) = Panic \/ e_abs (elem ty) (p2y p) = Panic
  | OutOfFuel => False
  end.
Proof. exact point2_abs. Qed.
Print Assumptions C70_point2_abs.
(** The machine numbers: 64-bit integers, and the two formats of floats. *)
Theorem C70_machine_integers : forall z, (in_range z = true <-> (- 9223372036854775808 <= z <= 9223372036854775807)%Z) /\
  in_range (wrap z) = true /\ exists k, (wrap z = z + k * 18446744073709551616)%Z.
Proof. exact machine_integers. Qed.
Print Assumptions C70_machine_integers.
Theorem C70_formats : flt F32 = binary_float 24 128 /\ flt F64 = binary_float 53 1024.
Proof. exact (conj eq_refl eq_refl). Qed.
Print Assumptions C70_formats.
(** The operations on one component: integers. *)
Theorem C70_int_operations : forall chk a b, in_range a = true -> in_range b = true ->
  exactly chk (a + b) (e_add (i64 chk) a b) /\ exactly chk (a - b) (e_sub (i64 chk) a b) /\
  exactly chk (a * b) (e_mul (i64 chk) a b) /\ exactly chk (- a) (e_neg (i64 chk) a) /\ exactly chk (Z.abs a) (e_abs (i64 chk) a).
Proof. exact int_ops. Qed.
Print Assumptions C70_int_operations.
Theorem C70_int_division : forall chk a b, in_range a = true -> in_range b = true ->
  (e_div (i64 chk) a b = Panic <-> (b = 0 \/ (a = - 2 ^ 63 /\ b = - 1))%Z) /\
  (forall q, e_div (i64 chk) a b = Done q -> exists r, (a = b * q + r /\ Z.abs r < Z.abs b /\ 0 <= r * a)%Z).
Proof. exact int_div. Qed.
Print Assumptions C70_int_division.
Example C70_int_example : in_range (- 2 ^ 63) = true /\ e_div (i64 true) (- 2 ^ 63)%Z (-1)%Z = Panic /\
  e_div (i64 true) (-7)%Z 2%Z = Done (-3)%Z /\ e_abs (i64 false) (- 2 ^ 63)%Z = Done (- 2 ^ 63)%Z.
Proof. repeat split; reflexivity. Qed.
(** Floats: the exact result rounded to nearest. *)
Theorem C70_float_operations : forall f (a b : flt f), is_finite a = true -> is_finite b = true ->
  (exists z, e_add (f_elem f) a b = Done z /\ rounds_to f (B2R a + B2R b) z) /\
  (exists z, e_sub (f_elem f) a b = Done z /\ rounds_to f (B2R a - B2R b) z) /\
  (exists z, e_mul (f_elem f) a b = Done z /\ rounds_to f (B2R a * B2R b) z) /\
  (B2R b <> 0%R -> exists z, e_div (f_elem f) a b = Done z /\ rounds_to f (B2R a / B2R b) z) /\
  (exists z, e_neg (f_elem f) a = Done z /\ is_finite z = true /\ B2R z = (- B2R a)%R) /\
  (exists z, e_abs (f_elem f) a = Done z /\ is_finite z = true /\ B2R z = Rabs (B2R a)).
Proof. exact float_ops. Qed.
Print Assumptions C70_float_operations.
Example C70_float_example : is_finite (f32 3) = true /\ B2R (f32 3) <> 0.
Proof. split; [reflexivity|]. change (B2R (f_of_int F32 3) <> 0). rewrite (proj1 (FloatCore.int_correct F32 3 ltac:(cbn; lia))). lra. Qed.

(** ** C71: len is the Euclidean length *)
(** Square root of the sum of squares; zero only for the zero vector; triangle inequality; scaling. *)
Theorem C71_length_real : forall u v s, exists w x l m lw lx, v3_add r_elem u v = Done w /\ v3_mul r_elem u s = Done x /\
  v3_len r_float r_elem (fun x => x) u = Done l /\ v3_len r_float r_elem (fun x => x) v = Done m /\
  v3_len r_float r_elem (fun x => x) w = Done lw /\ v3_len r_float r_elem (fun x => x) x = Done lx /\
  0 <= l /\ l * l = dotR u u /\ (l = 0 <-> u = V3 0 0 0) /\ lw <= l + m /\ lx = Rabs s * l.
Proof. exact len_thm. Qed.
Print Assumptions C71_length_real.
(** In rounded arithmetic: never NaN, never negative. *)
Theorem C71_length_float : forall f (v : Vector3 (flt f)), (forall i, is_nan (vcoord i v) = false) ->
  exists l, v3_len (f_float f) (f_elem f) (fun x => x) v = Done l /\ Bleb (f_of_int f 0) l = true.
Proof. exact len_nonneg_float. Qed.
Print Assumptions C71_length_float.
Example C71_example : forall i, is_nan (vcoord i (V3 (f32 3) (f32 4) (f_inf F32))) = false.
Proof. intros []; reflexivity. Qed.
(** Integer vectors, overflow checks on: panic, or the root of the exact sum of squares, rounded. *)
Theorem C71_length_int : forall f (v : Vector3 Z), vec_range v ->
  v3_len (f_float f) (i64 true) (f_of_int f) v = Panic \/
  exists l, v3_len (f_float f) (i64 true) (f_of_int f) v = Done l /\ is_finite l = true /\ B2R l = nearest f (sqrt (nearest f (IZR (dotZ v v)))).
Proof. exact len_int. Qed.
Print Assumptions C71_length_int.
Example C71_int_example : vec_range (V3 3 4 12)%Z /\
  omap B2SF (v3_len (f_float F32) (i64 true) (f_of_int F32) (V3 3 4 12)%Z) = Done (B2SF (f32 13)).
Proof. split; [intros []; reflexivity|vm_compute; reflexivity]. Qed.
(** Integer vectors, overflow checks off: the length can be NaN. *)
Theorem C71_unchecked_refuted : exists v l, vec_range v /\ v3_len (f_float F32) (i64 false) (f_of_int F32) v = Done l /\ is_nan l = true.
Proof. exact len_int_nan. Qed.
Print Assumptions C71_unchecked_refuted.
(** Normals have the same length as the vector with their components. *)
Theorem C71_normals : forall {T F} (FT : FloatT F) (E : Elem T) as_ n, n3_len FT E as_ n = v3_len FT E as_ (V3 (nx n) (ny n) (nz n)).
Proof. exact @n3_len_as_v3. Qed.
Print Assumptions C71_normals.

(** ** C48: volume and surface_area of float boxes *)
Theorem C48_area_nonneg : forall f (b : Bounds3 (flt f)), bfinite b -> normalised (tle (TFloat f)) b ->
  (forall i, is_finite (fext b i) = true) ->
  exists s, b3_surface_area (f_elem f) b = Done s /\ Bleb (f_of_int f 0) s = true.
Proof. exact area_nonneg_float. Qed.
Print Assumptions C48_area_nonneg.
Example C48_example : let b := bx (f32 0) (f32 0) (f32 0) (f32 2) (f32 3) (f32 4) in
  bfinite b /\ normalised (tle (TFloat F32)) b /\ (forall i, is_finite (fext b i) = true) /\
  omap B2SF (b3_surface_area (f_elem F32) b) = Done (B2SF (f32 52)) /\ omap B2SF (b3_volume (f_elem F32) b) = Done (B2SF (f32 24)).
Proof. cbv zeta. split; [split; intros []; reflexivity|]. split; [intros []; reflexivity|]. split; [intros []; reflexivity|]. split; vm_compute; reflexivity. Qed.
Theorem C48_area_monotone : forall f (a b : Bounds3 (flt f)), bfinite a -> bfinite b -> normalised (tle (TFloat f)) a -> subbox (tle (TFloat f)) a b ->
  (forall i, is_finite (fext b i) = true) ->
  exists s s', b3_surface_area (f_elem f) a = Done s /\ b3_surface_area (f_elem f) b = Done s' /\ Bleb s s' = true.
Proof. exact area_mono_float. Qed.
Print Assumptions C48_area_monotone.
Example C48_monotone_example : subbox (tle (TFloat F32)) (bx (f32 0) (f32 0) (f32 0) (f32 1) (f32 1) (f32 1)) (bx (f32 0) (f32 0) (f32 0) (f32 1) (f32 1) (f32 1)) /\
  bfinite (bx (f32 0) (f32 0) (f32 0) (f32 1) (f32 1) (f32 1)).
Proof. split; [intros p Hp; exact Hp|split; intros []; reflexivity]. Qed.
Theorem C48_volume_monotone : forall f (a b : Bounds3 (flt f)), bfinite a -> bfinite b -> normalised (tle (TFloat f)) a -> subbox (tle (TFloat f)) a b ->
  (forall i, is_finite (fext b i) = true) ->
  exists v v', b3_volume (f_elem f) a = Done v /\ b3_volume (f_elem f) b = Done v' /\ (is_nan v = false -> is_nan v' = false -> Bleb v v' = true).
Proof. exact volume_mono_float. Qed.
Print Assumptions C48_volume_monotone.
(** The volume is NaN exactly when the area of the base overflows and the height is zero; otherwise it is not negative. *)
Theorem C48_volume_cases : forall f (b : Bounds3 (flt f)), bfinite b -> normalised (tle (TFloat f)) b ->
  (forall i, is_finite (fext b i) = true) ->
  exists v, b3_volume (f_elem f) b = Done v /\
    (is_nan v = true <-> is_finite (f_mult (fext b AX) (fext b AY)) = false /\ Beqb (fext b AZ) (f_of_int f 0) = true) /\
    (is_nan v = false -> Bleb (f_of_int f 0) v = true).
Proof. exact volume_cases. Qed.
Print Assumptions C48_volume_cases.
Theorem C48_volume_nan_refuted : exists b : Bounds3 (flt F32), bfinite b /\ normalised (tle (TFloat F32)) b /\ (forall i, is_finite (fext b i) = true) /\
  exists v, b3_volume (f_elem F32) b = Done v /\ is_nan v = true.
Proof. exact volume_nan. Qed.
Print Assumptions C48_volume_nan_refuted.

(** ** C72: is_identity recognises exactly the identity matrix *)
Theorem C72_identity_float : forall f t, t_is_identity (f_float f) t = true <->
  forall r c, is_finite (mget (t_m t) r c) = true /\ B2R (mget (t_m t) r c) = if ix_eqb r c then 1 else 0.
Proof. exact is_identity_float. Qed.
Print Assumptions C72_identity_float.
Example C72_example : t_is_identity (f_float F32) (mkT (f_ident F32) (f_ident F32)) = true /\
  t_is_identity (f_float F32) (mkT (mset (f_ident F32) I3 I0 (f32 1)) (f_ident F32)) = false.
Proof. split; reflexivity. Qed.
Theorem C72_identity_real : forall t, t_is_identity r_float t = true <-> t_m t = identR.
Proof. exact ExactThms.is_identity_thm. Qed.
Print Assumptions C72_identity_real.
(** Such a transformation leaves every finite vector unchanged, up to the sign of zero. *)
Theorem C72_identity_vectors : forall f t v, vfinite v -> t_is_identity (f_float f) t = true -> exists w, v3_transform (f_float f) (fun x => x) v t = Done w /\ vveq f w v.
Proof. exact ident_vector_float. Qed.
Print Assumptions C72_identity_vectors.

(** ** C73: transforming vectors *)
(** The vector is multiplied by the upper 3x3 block; translation parts do not matter. *)
Theorem C73_block : forall t v, exists w, v3_transform r_float (fun x => x) v t = Done w /\ forall i, vcoord i w = block_times (t_m t) v (axis_ix i).
Proof. exact transform_block. Qed.
Print Assumptions C73_block.
Theorem C73_linear : forall t u v s, exists a b c d e g, v3_add r_elem u v = Done a /\ v3_mul r_elem u s = Done b /\
  v3_transform r_float (fun x => x) u t = Done c /\ v3_transform r_float (fun x => x) v t = Done d /\ v3_add r_elem c d = Done e /\ v3_mul r_elem c s = Done g /\ v3_transform r_float (fun x => x) a t = Done e /\ v3_transform r_float (fun x => x) b t = Done g.
Proof. exact transform_linear. Qed.
Print Assumptions C73_linear.
(** Transforming by a product is transforming twice. *)
Theorem C73_product : forall s t v mi, affine (t_m t) -> exists w x, v3_transform r_float (fun x => x) v t = Done w /\ v3_transform r_float (fun x => x) w s = Done x /\
  v3_transform r_float (fun x => x) v (mkT (prodR (t_m s) (t_m t)) mi) = Done x.
Proof. exact transform_product. Qed.
Print Assumptions C73_product.
Theorem C73_undo : forall t v, mutual t -> affine (t_m t) -> exists w, v3_transform r_float (fun x => x) v t = Done w /\ v3_transform r_float (fun x => x) w (t_inverse t) = Done v.
Proof. exact undo_transform. Qed.
Print Assumptions C73_undo.
Example C73_undo_example : exists t, t_translate r_float (V3 1 2 3) = Done t /\ mutual t /\ affine (t_m t).
Proof.
  destruct (TransThms.translate_mutual (V3 1 2 3)) as (t & H & M). exists t. split; [exact H|]. split; [exact M|].
  injection H as <-. intros []; reflexivity.
Qed.
Theorem C73_undo_inverse : forall t v, mutual t -> affine (t_m t) -> exists w, v3_transform r_float (fun x => x) v (t_inverse t) = Done w /\ v3_transform r_float (fun x => x) w t = Done v.
Proof. exact undo_inverse. Qed.
Print Assumptions C73_undo_inverse.
(** Orthonormal columns: dot products, hence lengths and angles, are kept. *)
Theorem C73_rotation : forall t u v, (forall i j, i <> I3 -> j <> I3 ->
    mget (t_m t) I0 i * mget (t_m t) I0 j + mget (t_m t) I1 i * mget (t_m t) I1 j + mget (t_m t) I2 i * mget (t_m t) I2 j = if ix_eqb i j then 1 else 0) ->
  exists w x, v3_transform r_float (fun x => x) u t = Done w /\ v3_transform r_float (fun x => x) v t = Done x /\ dotR w x = dotR u v.
Proof. exact rotation_dot. Qed.
Print Assumptions C73_rotation.
Example C73_rotation_example : forall i j, i <> I3 -> j <> I3 ->
  let m := mkm (fun r c => match r, c with I0, I1 => -1 | I1, I0 => 1 | I2, I2 => 1 | I3, I3 => 1 | _, _ => 0 end) in
  mget m I0 i * mget m I0 j + mget m I1 i * mget m I1 j + mget m I2 i * mget m I2 j = if ix_eqb i j then 1 else 0.
Proof. intros [] [] A B; try contradiction; cbn; ring. Qed.
Theorem C73_translate : forall d v, exists t, t_translate r_float d = Done t /\ v3_transform r_float (fun x => x) v t = Done v.
Proof. exact translate_vector. Qed.
Print Assumptions C73_translate.
Theorem C73_translate_float : forall f (d v : Vector3 (flt f)), vfinite v -> exists t w, t_translate (f_float f) d = Done t /\ v3_transform (f_float f) (fun x => x) v t = Done w /\ vveq f w v.
Proof. exact translate_vector_float. Qed.
Print Assumptions C73_translate_float.
Example C73_translate_example : vfinite (V3 (f32 1) (f32 2) (f32 3)).
Proof. intros []; reflexivity. Qed.
(** The wrong last row of scale's second matrix does not matter for vectors. *)
Theorem C73_scale : forall a b c v, a <> 0 -> b <> 0 -> c <> 0 -> exists t, t_scale r_float a b c = Done t /\
  v3_transform r_float (fun x => x) v t = Done (V3 (a * vx v) (b * vy v) (c * vz v)) /\
  v3_transform r_float (fun x => x) v (t_inverse t) = Done (V3 (vx v / a) (vy v / b) (vz v / c)).
Proof. exact scale_vector. Qed.
Print Assumptions C73_scale.
Theorem C73_scale_float : forall f (a b c : flt f) v, vfinite v -> exists t w, t_scale (f_float f) a b c = Done t /\ v3_transform (f_float f) (fun x => x) v t = Done w /\
  vveq f w (V3 (f_mult a (vx v)) (f_mult b (vy v)) (f_mult c (vz v))).
Proof. exact scale_vector_float. Qed.
Print Assumptions C73_scale_float.

(** ** C76: translate and scale move points as named *)
Theorem C76_translate : forall d p, exists t, t_translate r_float d = Done t /\
  (forall i, image (t_m t) p (axis_ix i) = coord i p + vcoord i d) /\ image (t_m t) p I3 = 1.
Proof. exact translate_image. Qed.
Print Assumptions C76_translate.
Theorem C76_scale : forall a b c p, a <> 0 -> b <> 0 -> c <> 0 -> exists t, t_scale r_float a b c = Done t /\
  (forall i, image (t_m t) p (axis_ix i) = vcoord i (V3 a b c) * coord i p) /\ image (t_m t) p I3 = 1.
Proof. exact scale_image. Qed.
Print Assumptions C76_scale.
(** Factor zero: 1/0 has no exact value. *)
Theorem C76_scale_zero : forall a b c, a = 0 \/ b = 0 \/ c = 0 -> t_scale r_float a b c = Panic.
Proof. exact scale_zero. Qed.
Print Assumptions C76_scale_zero.

(** ** C74: new rays and ray differentials *)
Theorem C74_new_infinite : forall f (o : Point3 (flt f)) d, let r := ray_new_infinite (f_float f) o d in
  r_o r = o /\ r_d r = d /\ is_finite (r_time r) = true /\ B2R (r_time r) = 0.
Proof. exact new_infinite_fields. Qed.
Print Assumptions C74_new_infinite.
Theorem C74_unbounded : forall f (o : Point3 (flt f)) d x, is_nan x = false -> Bleb x (r_t_max (ray_new_infinite (f_float f) o d)) = true.
Proof. exact new_infinite_top. Qed.
Print Assumptions C74_unbounded.
Example C74_example : is_nan (f_of_int F32 (2 ^ 127)) = false.
Proof. reflexivity. Qed.
Theorem C74_no_differentials : forall f (r : Ray (flt f)), let d := rd_new (f_float f) r in
  rd_ray d = r /\ rd_has d = false /\
  forall i, Forall (fun x : flt f => is_finite x = true /\ B2R x = 0)
    [coord i (rx_origin d); coord i (ry_origin d); vcoord i (rx_direction d); vcoord i (ry_direction d)]%list.
Proof. exact rd_new_fields. Qed.
Print Assumptions C74_no_differentials.

(** ** C63: the frame is right-handed *)
Theorem C63_handed : forall v1, (vx v1 <> 0 \/ vy v1 <> 0 \/ vz v1 <> 0) ->
  exists v2 v3, coordinate_system r_float v1 = Done (v2, v3) /\ 0 < triple v1 v2 v3.
Proof. exact coordinate_system_handed. Qed.
Print Assumptions C63_handed.
Example C63_handed_example : vx (V3 0 0 2) <> 0 \/ vy (V3 0 0 2) <> 0 \/ vz (V3 0 0 2) <> 0.
Proof. cbn. lra. Qed.

(** ** C75: inverse of integer matrices *)
Theorem C75_inverse : forall m, (detZ m = 0%Z /\ m4_inverse_of r_elem IZR m = Panic) \/
  (detZ m <> 0%Z /\ exists b, m4_inverse_of r_elem IZR m = Done b /\ prodR (IZRm m) b = identR /\ prodR b (IZRm m) = identR).
Proof. exact inverse_int. Qed.
Print Assumptions C75_inverse.
Example C75_example : detZ (W4 (W4 7 1 9 5) (W4 4 5 2 4) (W4 3 7 8 8) (W4 1 9 8 9))%Z = (-39)%Z.
Proof. reflexivity. Qed.
(** The matrix of src/bin/pbrt.rs 18: its inverse is computed without a panic, in f32 and f64. *)
Theorem C75_main : forall f, exists b, m4_inverse_of (f_elem f) (f_of_int f) (W4 (W4 7 1 9 5) (W4 4 5 2 4) (W4 3 7 8 8) (W4 1 9 8 9))%Z = Done b.
Proof. exact inverse_main. Qed.
Print Assumptions C75_main.
