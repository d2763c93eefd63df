(** Property theorems: order survives rounding. Nothing but statements, examples and [Print Assumptions]. *)
From Coq Require Import ZArith.
From Flocq Require Import IEEE754.BinarySingleNaN.
From Verif Require Import Base Elem GeoModel MatModel MatSpec FloatInst GeoSpec ArithSpec OpsSpec.
From Verif Require Import FloatMono.

(** ** C113: what is larger before is not smaller after, in f32 and f64 *)
(** Points of a ray: each coordinate moves in the direction of the ray only. *)
Theorem C113_ray : forall f (r : Ray (flt f)) t t' p p' i, ray_at (f_float f) r t = Done p -> ray_at (f_float f) r t' = Done p' ->
  Bleb t t' = true -> is_nan (coord i p) = false -> is_nan (coord i p') = false ->
  (Bleb (f_of_int f 0) (vcoord i (r_d r)) = true -> Bleb (coord i p) (coord i p') = true) /\
  (Bleb (vcoord i (r_d r)) (f_of_int f 0) = true -> Bleb (coord i p') (coord i p) = true).
Proof. exact ray_order. Qed.
Print Assumptions C113_ray.
(** So a ray that has left a box does not come back. *)
Theorem C113_box_on_ray : forall f (r : Ray (flt f)) (b : Bounds3 (flt f)) t0 t t1 p0 p p1, pfinite (r_o r) -> vfinite (r_d r) ->
  is_finite t0 = true -> is_finite t = true -> is_finite t1 = true -> Bleb t0 t = true -> Bleb t t1 = true ->
  ray_at (f_float f) r t0 = Done p0 -> ray_at (f_float f) r t = Done p -> ray_at (f_float f) r t1 = Done p1 ->
  b3_inside (f_elem f) b p0 = true -> b3_inside (f_elem f) b p1 = true -> b3_inside (f_elem f) b p = true.
Proof. exact ray_convex. Qed.
Print Assumptions C113_box_on_ray.
Example C113_ray_case : let r := mkRay (P3 (f32 0) (f32 1) (f32 2)) (V3 (f32 1) (f32 (-1)) (f32 0)) (f_inf F32) (f32 0) tt in
  let b := bx (f32 0) (f32 (-5)) (f32 0) (f32 6) (f32 5) (f32 4) in
  omap psf (ray_at (f_float F32) r (f32 1)) = Done (psf (P3 (f32 1) (f32 0) (f32 2))) /\
  omap psf (ray_at (f_float F32) r (f32 3)) = Done (psf (P3 (f32 3) (f32 (-2)) (f32 2))) /\
  omap (b3_inside (f_elem F32) b) (ray_at (f_float F32) r (f32 1)) = Done true /\
  omap (b3_inside (f_elem F32) b) (ray_at (f_float F32) r (f32 5)) = Done true /\
  omap (b3_inside (f_elem F32) b) (ray_at (f_float F32) r (f32 7)) = Done false /\
  Bleb (f32 1) (f32 3) = true /\ Bleb (f32 3) (f32 5) = true.
Proof. exact mono_cases. Qed.

(** Relative coordinates in a box. *)
Theorem C113_offset : forall f (b : Bounds3 (flt f)) p q v w i, b3_offset (f_elem f) b p = Done v -> b3_offset (f_elem f) b q = Done w ->
  Bleb (coord i p) (coord i q) = true -> is_nan (vcoord i v) = false -> is_nan (vcoord i w) = false -> is_finite (coord i (b_min b)) = true ->
  is_finite (coord i (b_max b)) = true -> Bleb (vcoord i v) (vcoord i w) = true.
Proof. exact offset_order. Qed.
Print Assumptions C113_offset.
Example C113_offset_case : let b := bx (f32 0) (f32 0) (f32 0) (f32 4) (f32 0) (f32 3) in
  omap vsf (b3_offset (f_elem F32) b (P3 (f32 1) (f32 2) (f32 9))) = Done (vsf (V3 (f_div (f32 1) (f32 4)) (f32 2) (f32 3))) /\
  omap vsf (b3_offset (f_elem F32) b (P3 (f32 8) (f32 2) (f32 9))) = Done (vsf (V3 (f32 2) (f32 2) (f32 3))) /\ bfinite b.
Proof. exact offset_case. Qed.

(** A larger box expanded by more is larger; it has the longer diagonal. *)
Theorem C113_expand : forall f (a b : Bounds3 (flt f)) d d', bfinite a -> bfinite b -> normalised (tle (TFloat f)) a ->
  is_finite d = true -> is_finite d' = true -> subbox (tle (TFloat f)) a b -> Bleb (f_of_int f 0) d = true -> Bleb d d' = true ->
  exists a' b', b3_expand (f_elem f) a d = Done a' /\ b3_expand (f_elem f) b d' = Done b' /\ subbox (tle (TFloat f)) a' b'.
Proof. exact expand_order. Qed.
Print Assumptions C113_expand.
Theorem C113_diagonal : forall f (a b : Bounds3 (flt f)), bfinite a -> bfinite b -> normalised (tle (TFloat f)) a -> subbox (tle (TFloat f)) a b ->
  exists d e, b3_diagonal (f_elem f) a = Done d /\ b3_diagonal (f_elem f) b = Done e /\ forall i, Bleb (vcoord i d) (vcoord i e) = true.
Proof. exact diagonal_order. Qed.
Print Assumptions C113_diagonal.
Example C113_box_case : let a := bx (f32 0) (f32 0) (f32 0) (f32 1) (f32 1) (f32 1) in let b := bx (f32 (-1)) (f32 0) (f32 0) (f32 1) (f32 1) (f32 2) in
  bfinite a /\ bfinite b /\ normalised (tle (TFloat F32)) a /\ subbox (tle (TFloat F32)) a b /\ Bleb (f32 0) (f32 1) = true /\ Bleb (f32 1) (f32 3) = true.
Proof. exact box_case. Qed.

(** Lengths, dot products with a vector and images under a matrix without negative entries. *)
Theorem C113_length : forall f (u v : Vector3 (flt f)), (forall i, Bleb (Babs (vcoord i u)) (Babs (vcoord i v)) = true) ->
  exists l m, v3_len (f_float f) (f_elem f) (fun x => x) u = Done l /\ v3_len (f_float f) (f_elem f) (fun x => x) v = Done m /\ Bleb l m = true.
Proof. exact length_order. Qed.
Print Assumptions C113_length.
Theorem C113_dot : forall f (u v w : Vector3 (flt f)) d e, (forall j, Bleb (f_of_int f 0) (vcoord j w) = true) ->
  (forall j, Bleb (vcoord j u) (vcoord j v) = true) ->
  v3_dot (f_elem f) w u = Done d -> v3_dot (f_elem f) w v = Done e -> is_nan d = false -> is_nan e = false -> Bleb d e = true.
Proof. exact dot_order. Qed.
Print Assumptions C113_dot.
Theorem C113_transform : forall f (t : Transform (flt f)) (u v u' v' : Vector3 (flt f)) i,
  (forall j, Bleb (f_of_int f 0) (mget (t_m t) (axis_ix i) (axis_ix j)) = true) -> (forall j, Bleb (vcoord j u) (vcoord j v) = true) ->
  v3_transform (f_float f) (fun x => x) u t = Done u' -> v3_transform (f_float f) (fun x => x) v t = Done v' ->
  is_nan (vcoord i u') = false -> is_nan (vcoord i v') = false -> Bleb (vcoord i u') (vcoord i v') = true.
Proof. exact transform_order. Qed.
Print Assumptions C113_transform.
Example C113_vector_case : let u := V3 (f32 1) (f32 (-2)) (f32 0) in let v := V3 (f32 1) (f32 3) (f32 2) in let w := V3 (f32 2) (f32 0) (f32 5) in
  let t := mkT (ident_of (f32 2) (f32 5)) (ident_of (f32 0) (f32 1)) in
  (forall i, Bleb (Babs (vcoord i u)) (Babs (vcoord i v)) = true) /\ (forall i, Bleb (vcoord i u) (vcoord i v) = true) /\
  (forall i, Bleb (f32 0) (vcoord i w) = true) /\ (forall i j, Bleb (f32 0) (mget (t_m t) (axis_ix i) (axis_ix j)) = true) /\
  omap B2SF (v3_dot (f_elem F32) w u) = Done (B2SF (f32 2)) /\ omap B2SF (v3_dot (f_elem F32) w v) = Done (B2SF (f32 12)) /\
  omap vsf (v3_transform (f_float F32) (fun x => x) u t) = Done (vsf (V3 (f32 1) (f32 (-8)) (f32 (-2)))) /\
  omap vsf (v3_transform (f_float F32) (fun x => x) v t) = Done (vsf (V3 (f32 15) (f32 21) (f32 18))).
Proof. exact vector_case. Qed.

(** lerp between a negative and a positive number never turns, outside of [0,1] either. Between numbers of one sign it does: C103. *)
Theorem C113_lerp : forall f (t t' a b d e : flt f), Bleb a (f_of_int f 0) = true -> Bleb (f_of_int f 0) b = true -> Bleb t t' = true ->
  lerp (f_float f) t a b = Done d -> lerp (f_float f) t' a b = Done e -> is_nan d = false -> is_nan e = false -> Bleb d e = true.
Proof. exact lerp_order. Qed.
Print Assumptions C113_lerp.
Example C113_lerp_case : let a := f32 (-2) in let b := f32 6 in let t := f_div (f32 1) (f32 4) in
  Bleb a (f32 0) = true /\ Bleb (f32 0) b = true /\ Bleb t (f32 2) = true /\
  omap B2SF (lerp (f_float F32) t a b) = Done (B2SF (f32 0)) /\ omap B2SF (lerp (f_float F32) (f32 2) a b) = Done (B2SF (f32 14)).
Proof. exact lerp_case. Qed.
