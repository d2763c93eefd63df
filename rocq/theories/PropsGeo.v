(** Property theorems about boxes, vectors and rays that involve arithmetic. Nothing but statements, examples and
    [Print Assumptions]. *)
From Coq Require Import ZArith Reals Lra Lia List.
From Flocq Require Import IEEE754.BinarySingleNaN.
From Verif Require Import Base Elem GeoModel MatModel FloatInst ExactInst GeoSpec ArithSpec IterSpec.
From Verif Require Import ExactThms IntThms IterThms FloatThms PropsMatLemmas.

(** ** C37: expand by a non-negative amount only grows the box *)
Theorem C37_expand_float : forall f (b : Bounds3 (flt f)) d p, Bleb (f_of_int f 0) d = true -> (is_finite d = true \/ bfinite b) ->
  inb (tle (TFloat f)) b p -> exists b', b3_expand (f_elem f) b d = Done b' /\ inb (tle (TFloat f)) b' p.
Proof. exact expand_float. Qed.
Print Assumptions C37_expand_float.
Theorem C37_expand_int : forall chk (b : Bounds3 Z) d p, (0 <= d)%Z ->
  (forall i, in_range (coord i (b_min b) - d) = true /\ in_range (coord i (b_max b) + d) = true) ->
  inb (tle (TInt chk)) b p -> exists b', b3_expand (i64 chk) b d = Done b' /\ inb (tle (TInt chk)) b' p.
Proof. exact expand_int. Qed.
Print Assumptions C37_expand_int.
Theorem C37_overflow : forall (b : Bounds3 Z) d,
  (exists i, in_range (coord i (b_min b) - d) = false \/ in_range (coord i (b_max b) + d) = false) ->
  b3_expand (i64 true) b d = Panic.
Proof. exact expand_int_panic. Qed.
Print Assumptions C37_overflow.
(** The condition on infinities is needed: an infinite box expanded by infinity loses its points. *)
Theorem C37_infinite_refuted : exists (b : Bounds3 (flt F32)) p b', inb (tle (TFloat F32)) b p /\
  b3_expand (f_elem F32) b (f_inf F32) = Done b' /\ ~ inb (tle (TFloat F32)) b' p.
Proof. exact expand_infinite. Qed.
Print Assumptions C37_infinite_refuted.
Example C37_example : inb (tle (TFloat F32)) (bx (f32 0) (f32 0) (f32 0) (f32 1) (f32 2) (f32 3)) (P3 (f32 1) (f32 1) (f32 1)) /\
  b3_expand (i64 true) (bx 0 0 0 1 2 3)%Z 1%Z = Done (bx (-1) (-1) (-1) 2 3 4)%Z.
Proof. split; [intros []; split; reflexivity|reflexivity]. Qed.

(** ** C41: offset gives relative coordinates in [0,1] *)
Theorem C41_offset : forall f (b : Bounds3 (flt f)) p, bfinite b ->
  (forall i, is_finite (f_sub (coord i (b_max b)) (coord i (b_min b))) = true) ->
  inb (tle (TFloat f)) b p -> exists o, b3_offset (f_elem f) b p = Done o /\ forall i,
  Bltb (coord i (b_min b)) (coord i (b_max b)) = true ->
  Bleb (f_of_int f 0) (vcoord i o) = true /\ Bleb (vcoord i o) (f_of_int f 1) = true /\
  (Beqb (coord i p) (coord i (b_min b)) = true -> Beqb (vcoord i o) (f_of_int f 0) = true) /\
  (Beqb (coord i p) (coord i (b_max b)) = true -> Beqb (vcoord i o) (f_of_int f 1) = true).
Proof. exact offset_thm. Qed.
Print Assumptions C41_offset.
(** The condition on the extents is needed. *)
Theorem C41_extent_refuted : exists (b : Bounds3 (flt F32)) p o, bfinite b /\ inb (tle (TFloat F32)) b p /\
  b3_offset (f_elem F32) b p = Done o /\ Bleb (vcoord AX o) (f32 1) = false.
Proof. exact offset_overflow. Qed.
Print Assumptions C41_extent_refuted.
Example C41_example : omap vsf (b3_offset (f_elem F32) (bx (f32 0) (f32 0) (f32 0) (f32 4) (f32 2) (f32 3)) (P3 (f32 2) (f32 2) (f32 0))) =
  Done (vsf (V3 (f_div (f32 1) (f32 2)) (f32 1) (f32 0))) /\
  bfinite (bx (f32 0) (f32 0) (f32 0) (f32 4) (f32 2) (f32 3)) /\
  inb (tle (TFloat F32)) (bx (f32 0) (f32 0) (f32 0) (f32 4) (f32 2) (f32 3)) (P3 (f32 2) (f32 2) (f32 0)).
Proof. split; [vm_compute; reflexivity|]. split; [split; intros []; reflexivity|intros []; split; reflexivity]. Qed.

(** ** C42: volume and surface_area *)
Theorem C42_nonneg : forall b, normalised Rle b -> exists v s, b3_volume r_elem b = Done v /\ b3_surface_area r_elem b = Done s /\
  (v = ext b AX * ext b AY * ext b AZ /\ s = 2 * (ext b AX * ext b AY + ext b AX * ext b AZ + ext b AY * ext b AZ) /\
  0 <= v /\ 0 <= s)%R.
Proof. exact volume_nonneg. Qed.
Print Assumptions C42_nonneg.
Theorem C42_monotone : forall a b, normalised Rle a -> subbox Rle a b -> exists v s v' s',
  b3_volume r_elem a = Done v /\ b3_surface_area r_elem a = Done s /\ b3_volume r_elem b = Done v' /\ b3_surface_area r_elem b = Done s' /\
  (v <= v' /\ s <= s')%R.
Proof. exact volume_mono. Qed.
Print Assumptions C42_monotone.
Theorem C42_int : forall chk b, box_range b ->
  exactly chk (extZ b AX * extZ b AY * extZ b AZ) (b3_volume (i64 chk) b) /\
  exactly chk (2 * (extZ b AX * extZ b AY + extZ b AX * extZ b AZ + extZ b AY * extZ b AZ)) (b3_surface_area (i64 chk) b).
Proof. exact (fun chk b H => conj (volume_exact chk b H) (area_exact chk b H)). Qed.
Print Assumptions C42_int.
Example C42_example : normalised Rle (bx 0 0 0 1 2 3)%R /\ subbox Rle (bx 0 0 0 1 2 3)%R (bx (-1) 0 0 4 2 3)%R /\
  b3_volume (i64 true) (bx 0 0 0 1 2 3)%Z = Done 6%Z /\ b3_surface_area (i64 true) (bx 0 0 0 1 2 3)%Z = Done 22%Z.
Proof.
  split; [intros []; cbn; lra|]. split; [|split; reflexivity]. intros p H i. specialize (H i). destruct i; cbn in *; lra.
Qed.

(** ** C43: bounding_sphere contains the box *)
Theorem C43_contains : forall b, normalised Rle b -> exists c r, bounding_sphere r_float b = Done (c, r) /\ (0 <= r)%R /\
  (forall p, inb Rle b p -> (dist_sq p c <= r * r)%R) /\ inb Rle b c.
Proof. exact bounding_sphere_thm. Qed.
Print Assumptions C43_contains.
Theorem C43_centre_float : forall f (b : Bounds3 (flt f)), bfinite b -> normalised (tle (TFloat f)) b ->
  (forall i, is_finite (f_add (coord i (b_min b)) (coord i (b_max b))) = true) ->
  exists c r, bounding_sphere (f_float f) b = Done (c, r) /\ inb (tle (TFloat f)) b c.
Proof. exact sphere_inside. Qed.
Print Assumptions C43_centre_float.
Theorem C43_overflow_float : forall f (b : Bounds3 (flt f)), bfinite b ->
  (exists i, is_finite (f_add (coord i (b_min b)) (coord i (b_max b))) = false) ->
  exists c, bounding_sphere (f_float f) b = Done (c, f_of_int f 0).
Proof. exact sphere_overflow. Qed.
Print Assumptions C43_overflow_float.
Example C43_example : omap (fun cr => (psf (fst cr), B2SF (snd cr))) (bounding_sphere (f_float F32) (bx (f32 0) (f32 0) (f32 0) (f32 2) (f32 4) (f32 4))) =
  Done (psf (P3 (f32 1) (f32 2) (f32 2)), B2SF (f32 3)).
Proof. vm_compute. reflexivity. Qed.
Example C43_overflow_example : exists big : flt F32, is_finite big = true /\ is_finite (f_add big big) = false.
Proof. exists (f_of_int F32 (2 ^ 127)). split; reflexivity. Qed.

(** ** C44: lerp interpolates *)
Theorem C44_lerp : forall a b, lerp r_float 0%R a b = Done a /\ lerp r_float 1%R a b = Done b /\
  forall t, (0 <= t <= 1)%R -> exists x, lerp r_float t a b = Done x /\ (Rmin a b <= x <= Rmax a b)%R.
Proof. exact lerp_thm. Qed.
Print Assumptions C44_lerp.
Theorem C44_point_lerp : forall p q, p3_lerp r_float 0%R p q = Done p /\ p3_lerp r_float 1%R p q = Done q /\
  forall t i, exists r, p3_lerp r_float t p q = Done r /\ lerp r_float t (coord i p) (coord i q) = Done (coord i r).
Proof. exact p3_lerp_thm. Qed.
Print Assumptions C44_point_lerp.
Theorem C44_box_lerp : forall b t, normalised Rle b -> (forall i, 0 <= coord i t <= 1)%R -> exists p, b3_lerp r_float b t = Done p /\ inb Rle b p.
Proof. exact b3_lerp_inside. Qed.
Print Assumptions C44_box_lerp.
Theorem C44_inverts_offset : forall b p, normalised Rle b -> inb Rle b p -> exists o, b3_offset r_elem b p = Done o /\
  b3_lerp r_float b (p3_from_v3 o) = Done p /\
  forall i, (coord i (b_min b) < coord i (b_max b))%R -> (0 <= vcoord i o <= 1)%R.
Proof. exact offset_lerp. Qed.
Print Assumptions C44_inverts_offset.
Example C44_example : normalised Rle (bx 0 0 0 1 2 3)%R /\ inb Rle (bx 0 0 0 1 2 3)%R (P3 1 1 1)%R /\
  omap B2SF (lerp (f_float F32) (f_div (f32 1) (f32 2)) (f32 2) (f32 6)) = Done (B2SF (f32 4)).
Proof. split; [intros []; cbn; lra|]. split; [intros []; cbn; lra|vm_compute; reflexivity]. Qed.

(** ** C45: iterating a Bounds2 ends and never overflows *)
Theorem C45_iteration : forall chk b, pt2_range (b2_min b) -> pt2_range (b2_max b) -> collects (i64 chk) (b2_into_iter b) (visited b).
Proof. exact iter_visited. Qed.
Print Assumptions C45_iteration.
Theorem C45_only_sequence : forall T (E : Elem T) it l l', collects E it l -> collects E it l' -> l = l'.
Proof. exact (fun T E it l l' H H' => collects_det E it l H l' H'). Qed.
Print Assumptions C45_only_sequence.
Theorem C45_stays_at_end : forall T (E : Elem T) it it', b2_next E it = Done (None, it') -> it' = it.
Proof. exact (fun T => @next_none_stays T). Qed.
Print Assumptions C45_stays_at_end.
Example C45_example : collects (i64 true) (b2_into_iter (B2 (P2 1 1) (P2 2 2)))%Z [P2 2 1; P2 0 2; P2 1 2; P2 2 2]%Z.
Proof. exact (iter_visited true (B2 (P2 1 1) (P2 2 2))%Z (conj eq_refl eq_refl) (conj eq_refl eq_refl)). Qed.

(** ** C46: iterating a Bounds2 visits each lattice point once. Refuted. *)
Theorem C46_lattice_refuted : exists b l p, pt2_range (b2_min b) /\ pt2_range (b2_max b) /\
  collects (i64 true) (b2_into_iter b) l /\ ((inb2 b p /\ ~ In p l) /\ exists q, In q l /\ ~ inb2 b q).
Proof. exact lattice_false. Qed.
Print Assumptions C46_lattice_refuted.
Theorem C46_lattice_partial : forall chk b, pt2_range (b2_min b) -> pt2_range (b2_max b) ->
  p2x (b2_min b) = 0%Z -> (0 <= p2x (b2_max b))%Z -> (p2y (b2_min b) <= p2y (b2_max b))%Z ->
  exists l, collects (i64 chk) (b2_into_iter b) l /\ NoDup l /\ forall p, In p l <-> inb2 b p /\ p <> b2_min b.
Proof. exact lattice_true. Qed.
Print Assumptions C46_lattice_partial.
Theorem C46_visited : forall chk b, pt2_range (b2_min b) -> pt2_range (b2_max b) ->
  exists l, collects (i64 chk) (b2_into_iter b) l /\ NoDup l /\ forall p, In p l <->
    (p2x (b2_min b) < p2x p <= p2x (b2_max b) /\ p2y p = p2y (b2_min b))%Z \/
    (0 <= p2x p <= Z.max 0 (p2x (b2_max b)) /\ p2y (b2_min b) < p2y p <= p2y (b2_max b))%Z.
Proof. exact lattice_all. Qed.
Print Assumptions C46_visited.
Example C46_example : visited (B2 (P2 0 0) (P2 1 1))%Z = [P2 1 0; P2 0 1; P2 1 1]%Z.
Proof. reflexivity. Qed.

(** ** C60: dot and cross product *)
Theorem C60_cross : forall u v, exists c, v3_cross r_elem u v = Done c /\
  v3_dot r_elem u c = Done 0%R /\ v3_dot r_elem v c = Done 0%R /\
  (exists c', v3_cross r_elem v u = Done c' /\ v3_neg r_elem c' = Done c) /\
  exists a b d e, v3_len_sq r_elem c = Done a /\ v3_len_sq r_elem u = Done b /\ v3_len_sq r_elem v = Done d /\
    v3_dot r_elem u v = Done e /\ (a = b * d - e * e)%R.
Proof. exact cross_thm. Qed.
Print Assumptions C60_cross.
Theorem C60_dot : forall u v, v3_dot r_elem u v = v3_dot r_elem v u /\ v3_len_sq r_elem u = v3_dot r_elem u u /\
  exists l, v3_len_sq r_elem u = Done l /\ (0 <= l)%R.
Proof. exact dot_thm. Qed.
Print Assumptions C60_dot.
Theorem C60_dot_float : forall f (u v : Vector3 (flt f)), v3_dot (f_elem f) u v = v3_dot (f_elem f) v u.
Proof. exact dot_sym_float. Qed.
Print Assumptions C60_dot_float.
Theorem C60_cross_float : forall f (u v : Vector3 (flt f)), exists a b nb,
  v3_cross (f_elem f) u v = Done a /\ v3_cross (f_elem f) v u = Done b /\ v3_neg (f_elem f) b = Done nb /\ vveq f a nb.
Proof. exact cross_anti_float. Qed.
Print Assumptions C60_cross_float.
Theorem C60_normals : forall T (E : Elem T) u v,
  n3_dot E u v = v3_dot E (V3 (nx u) (ny u) (nz u)) (V3 (nx v) (ny v) (nz v)) /\
  n3_len_sq E u = v3_len_sq E (V3 (nx u) (ny u) (nz u)) /\
  n3_cross E u v = obind (v3_cross E (V3 (nx u) (ny u) (nz u)) (V3 (nx v) (ny v) (nz v))) (fun c => Done (n3_from_v3 c)).
Proof. exact n3_as_v3. Qed.
Print Assumptions C60_normals.
Example C60_example : omap vsf (v3_cross (f_elem F32) (V3 (f32 1) (f32 2) (f32 3)) (V3 (f32 4) (f32 5) (f32 7))) = Done (vsf (V3 (f32 (-1)) (f32 5) (f32 (-3)))) /\
  omap B2SF (v3_dot (f_elem F32) (V3 (f32 1) (f32 2) (f32 3)) (V3 (f32 4) (f32 5) (f32 7))) = Done (B2SF (f32 35)).
Proof. split; vm_compute; reflexivity. Qed.

(** ** C61: face_forward *)
Theorem C61_real : forall u v, exists w, v3_face_forward r_elem u v = Done w /\
  (w = u \/ v3_neg r_elem u = Done w) /\ exists d, v3_dot r_elem w v = Done d /\ (0 <= d)%R.
Proof. exact face_forward_r. Qed.
Print Assumptions C61_real.
Theorem C61_float : forall f (u v : Vector3 (flt f)), exists w d, v3_face_forward (f_elem f) u v = Done w /\
  (w = u \/ v3_neg (f_elem f) u = Done w) /\ v3_dot (f_elem f) w v = Done d /\ Bltb d (f_of_int f 0) = false.
Proof. exact face_forward_float. Qed.
Print Assumptions C61_float.
Theorem C61_normals : forall T (E : Elem T) (u v : Normal3 T),
  n3_face_forward E u v = obind (v3_face_forward E (V3 (nx u) (ny u) (nz u)) (V3 (nx v) (ny v) (nz v))) (fun w => Done (n3_from_v3 w)).
Proof. exact (fun T => @n3_face_forward_as_v3 T). Qed.
Print Assumptions C61_normals.
Example C61_example : omap vsf (v3_face_forward (f_elem F32) (V3 (f32 1) (f32 2) (f32 3)) (V3 (f32 0) (f32 0) (f32 (-1)))) =
  Done (vsf (V3 (f32 (-1)) (f32 (-2)) (f32 (-3)))).
Proof. vm_compute. reflexivity. Qed.

(** ** C62: Vector2 division divides. Refuted: it multiplies. *)
Theorem C62_divides_refuted : exists (v : Vector2 (flt F32)) s r, Beqb s (f32 0) = false /\ v2_div (f_elem F32) v s = Done r /\
  ~ veq F32 (v2x r) (f_div (v2x v) s).
Proof. exact v2_div_false. Qed.
Print Assumptions C62_divides_refuted.
Theorem C62_float_partial : forall f (v : Vector2 (flt f)) s, v2_div (f_elem f) v s =
  if Beqb s (f_of_int f 0) then Panic else Done (V2 (f_mult (v2x v) s) (f_mult (v2y v) s)).
Proof. exact v2_div_float. Qed.
Print Assumptions C62_float_partial.
Theorem C62_int_partial : forall chk (v : Vector2 Z) s, v2_div (i64 chk) v s =
  if (s =? 0)%Z then Panic else
  if chk && negb (in_range (v2x v * s) && in_range (v2y v * s)) then Panic else Done (V2 (wrap (v2x v * s)) (wrap (v2y v * s))).
Proof. exact v2_div_int. Qed.
Print Assumptions C62_int_partial.
Example C62_example : v2_div (i64 true) (V2 6 8)%Z 2%Z = Done (V2 12 16)%Z /\ v2_div (i64 true) (V2 6 8)%Z 0%Z = Panic.
Proof. split; reflexivity. Qed.

(** ** C63: coordinate_system *)
Theorem C63_frame : forall v1, v3_len_sq r_elem v1 = Done 1%R ->
  exists v2 v3, coordinate_system r_float v1 = Done (v2, v3) /\
    v3_len_sq r_elem v2 = Done 1%R /\ v3_len_sq r_elem v3 = Done 1%R /\
    v3_dot r_elem v1 v2 = Done 0%R /\ v3_dot r_elem v1 v3 = Done 0%R /\ v3_dot r_elem v2 v3 = Done 0%R.
Proof. exact coordinate_system_unit. Qed.
Print Assumptions C63_frame.
Theorem C63_nonzero : forall v1, (vx v1 <> 0 \/ vy v1 <> 0 \/ vz v1 <> 0)%R ->
  exists v2 v3 l, coordinate_system r_float v1 = Done (v2, v3) /\ v3_len_sq r_elem v1 = Done l /\
    v3_len_sq r_elem v2 = Done 1%R /\ v3_len_sq r_elem v3 = Done l /\
    v3_dot r_elem v1 v2 = Done 0%R /\ v3_dot r_elem v1 v3 = Done 0%R /\ v3_dot r_elem v2 v3 = Done 0%R.
Proof. exact coordinate_system_thm. Qed.
Print Assumptions C63_nonzero.
Example C63_example : v3_len_sq r_elem (V3 (3/5) 0 (4/5))%R = Done 1%R /\
  omap (fun vs => (vsf (fst vs), vsf (snd vs))) (coordinate_system (f_float F32) (V3 (f32 1) (f32 0) (f32 0))) =
    Done (vsf (V3 (Bopp (f32 0)) (f32 0) (f32 1)), vsf (V3 (f32 0) (f32 (-1)) (f32 0))).
Proof. split; [rewrite len_sq_r; cbn [vx vy vz]; f_equal; lra|vm_compute; reflexivity]. Qed.

(** ** C64: indexing and permute *)
Theorem C64_index_panic : forall T (v : Vector3 T) (w : Vector2 T) (n : Normal3 T) (m : Matrix4 T) i,
  (v2_index w i = Panic <-> 2 <= i) /\ (v3_index v i = Panic <-> 3 <= i) /\ (n3_index n i = Panic <-> 3 <= i) /\
  (m4_index m i = Panic <-> 4 <= i).
Proof. exact index_panic. Qed.
Print Assumptions C64_index_panic.
Theorem C64_index : forall T (w : Vector2 T) (v : Vector3 T) (n : Normal3 T) i,
  v2_index w 0 = Done (v2x w) /\ v2_index w 1 = Done (v2y w) /\
  v3_index v (axis_nat i) = Done (vcoord i v) /\ n3_index n (axis_nat i) = Done (ncoord i n).
Proof. exact (fun T w v n i => conj eq_refl (conj eq_refl (conj (v3_index_axis T v i) (n3_index_axis T n i)))). Qed.
Print Assumptions C64_index.
Theorem C64_permute : forall T (v : Vector3 T) (n : Normal3 T) i j k,
  v3_permute v (axis_nat i) (axis_nat j) (axis_nat k) = Done (V3 (vcoord i v) (vcoord j v) (vcoord k v)) /\
  n3_permute n (axis_nat i) (axis_nat j) (axis_nat k) = Done (N3 (ncoord i n) (ncoord j n) (ncoord k n)).
Proof. exact (fun T v n i j k => conj (v3_permute_thm T v i j k) (n3_permute_thm T n i j k)). Qed.
Print Assumptions C64_permute.
Theorem C64_permute_panic : forall T (v : Vector3 T) (n : Normal3 T) x y z,
  (v3_permute v x y z = Panic <-> 3 <= x \/ 3 <= y \/ 3 <= z) /\ (n3_permute n x y z = Panic <-> 3 <= x \/ 3 <= y \/ 3 <= z).
Proof. exact (fun T v n x y z => conj (v3_permute_panic T v x y z) (n3_permute_panic T n x y z)). Qed.
Print Assumptions C64_permute_panic.
Example C64_example : v3_permute (V3 5 6 7)%Z 2 0 0 = Done (V3 7 5 5)%Z /\ v3_permute (V3 5 6 7)%Z 2 3 0 = Panic.
Proof. split; reflexivity. Qed.

(** ** C65: Ray::at *)
Theorem C65_affine : forall r, ray_at r_float r 0%R = Done (r_o r) /\ ray_at r_float r 1%R = p3_add r_elem (r_o r) (r_d r) /\
  forall s t, exists p dt, ray_at r_float r s = Done p /\ v3_mul r_elem (r_d r) t = Done dt /\ ray_at r_float r (s + t)%R = p3_add r_elem p dt.
Proof. exact at_thm. Qed.
Print Assumptions C65_affine.
Theorem C65_at_zero_float : forall f (r : Ray (flt f)), pfinite (r_o r) -> vfinite (r_d r) ->
  exists p, ray_at (f_float f) r (f_of_int f 0) = Done p /\ forall i, Beqb (coord i p) (coord i (r_o r)) = true.
Proof. exact at_zero_float. Qed.
Print Assumptions C65_at_zero_float.
Example C65_example : omap psf (ray_at (f_float F32) (ray_new_infinite (f_float F32) (P3 (f32 1) (f32 2) (f32 3)) (V3 (f32 0) (f32 1) (f32 (-1)))) (f32 2)) =
  Done (psf (P3 (f32 1) (f32 4) (f32 1))).
Proof. vm_compute. reflexivity. Qed.

(** ** C66: scale_differentials *)
Theorem C66_scale : forall rd, rd_scale r_float rd 1%R = Done rd /\
  (exists c, rd_scale r_float rd 0%R = Done c /\ rx_origin c = r_o (rd_ray rd) /\ ry_origin c = r_o (rd_ray rd) /\
     rx_direction c = r_d (rd_ray rd) /\ ry_direction c = r_d (rd_ray rd)) /\
  (forall s, exists c, rd_scale r_float rd s = Done c /\ rd_ray c = rd_ray rd /\ rd_has c = rd_has rd) /\
  (forall s t, exists c, rd_scale r_float rd s = Done c /\ rd_scale r_float c t = rd_scale r_float rd (s * t)%R).
Proof. exact rd_scale_thm. Qed.
Print Assumptions C66_scale.
Example C66_example : omap (fun c => (psf (rx_origin c), vsf (ry_direction c))) (rd_scale (f_float F32) (mkRD (ray_new_infinite (f_float F32) (P3 (f32 0) (f32 0) (f32 0)) (V3 (f32 0) (f32 0) (f32 1)))
    true (P3 (f32 1) (f32 0) (f32 0)) (P3 (f32 0) (f32 1) (f32 0)) (V3 (f32 1) (f32 0) (f32 1)) (V3 (f32 0) (f32 1) (f32 1))) (f32 3)) =
  Done (psf (P3 (f32 3) (f32 0) (f32 0)), vsf (V3 (f32 0) (f32 3) (f32 1))).
Proof. vm_compute. reflexivity. Qed.

(** ** C67: conversions *)
Theorem C67_keep : forall T (p : Point3 T) (v : Vector3 T), p3_from_v3 (v3_from_p3 p) = p /\ v3_from_p3 (p3_from_v3 v) = v /\
  forall i, ncoord i (n3_from_v3 v) = vcoord i v /\ vcoord i (v3_from_p3 p) = coord i p.
Proof. exact (fun T => @conv_thm T). Qed.
Print Assumptions C67_keep.
Theorem C67_point2 : forall T (E : Elem T) (p : Point3 T),
  ((exists i, e_is_nan E (coord i p) = true) /\ p2_from_p3 E p = Panic) \/
  ((forall i, e_is_nan E (coord i p) = false) /\ p2_from_p3 E p = Done (P2 (px p) (py p))).
Proof. exact (fun T => @p2_from_p3_thm T). Qed.
Print Assumptions C67_point2.
(** With the floats' own NaN. *)
Theorem C67_point2_float : forall f (p : Point3 (flt f)),
  ((exists i, coord i p = B754_nan) /\ p2_from_p3 (f_elem f) p = Panic) \/
  ((forall i, coord i p <> B754_nan) /\ p2_from_p3 (f_elem f) p = Done (P2 (px p) (py p))).
Proof. exact p2_from_p3_float. Qed.
Print Assumptions C67_point2_float.
Example C67_example : p2_from_p3 (f_elem F32) (P3 (f32 1) (f32 2) f_nan) = Panic /\
  p2_from_p3 (f_elem F32) (P3 (f32 1) (f32 2) (f32 3)) = Done (P2 (f32 1) (f32 2)).
Proof. split; reflexivity. Qed.

(** ** C68: floor and ceil *)
Theorem C68_floor_ceil : forall f (p : Point3 (flt f)), pfinite p -> forall i,
  let x := B2R (coord i p) in let lo := coord i (p3_floor (f_float f) p) in let hi := coord i (p3_ceil (f_float f) p) in
  is_finite lo = true /\ is_finite hi = true /\ integral (B2R lo) /\ integral (B2R hi) /\
  (B2R lo <= x < B2R lo + 1)%R /\ (x <= B2R hi < x + 1)%R /\
  Bleb lo (coord i p) = true /\ Bleb (coord i p) hi = true.
Proof. exact floor_ceil_thm. Qed.
Print Assumptions C68_floor_ceil.
Example C68_example : let half := f_div (f32 (-7)) (f32 2) in
  psf (p3_floor (f_float F32) (P3 half (f32 3) (f32 0))) = psf (P3 (f32 (-4)) (f32 3) (f32 0)) /\
  psf (p3_ceil (f_float F32) (P3 half (f32 3) (f32 0))) = psf (P3 (f32 (-3)) (f32 3) (f32 0)).
Proof. split; vm_compute; reflexivity. Qed.
