(** The geometry code read in exact (real) arithmetic. *)
From Coq Require Import Reals Lra Psatz.
From Flocq Require Import Core.Raux.
From Verif Require Import Base Elem GeoModel MatModel FloatInst ExactInst GeoSpec MatSpec ArithSpec.
Local Open Scope R_scope.

Lemma dot_r u v : v3_dot r_elem u v = Done (vx u * vx v + vy u * vy v + vz u * vz v). Proof. reflexivity. Qed.
Lemma len_sq_r u : v3_len_sq r_elem u = Done (vx u * vx u + vy u * vy u + vz u * vz u). Proof. reflexivity. Qed.
Lemma cross_r u v : v3_cross r_elem u v =
  Done (V3 (vy u * vz v - vz u * vy v) (vz u * vx v - vx u * vz v) (vx u * vy v - vy u * vx v)).
Proof. reflexivity. Qed.
Lemma div_r a b : b <> 0 -> e_div r_elem a b = Done (a / b).
Proof. intros H. cbn [e_div r_elem]. rewrite Req_bool_false by auto. reflexivity. Qed.
Lemma sqrt_r a : 0 <= a -> fl_sqrt r_float a = Done (sqrt a).
Proof. intros H. cbn [fl_sqrt r_float]. rewrite Rlt_bool_false by auto. reflexivity. Qed.

(** *** C60 *)
Lemma cross_thm u v : exists c, v3_cross r_elem u v = Done c /\
  v3_dot r_elem u c = Done 0 /\ v3_dot r_elem v c = Done 0 /\
  (exists c', v3_cross r_elem v u = Done c' /\ v3_neg r_elem c' = Done c) /\
  exists a b d e, v3_len_sq r_elem c = Done a /\ v3_len_sq r_elem u = Done b /\ v3_len_sq r_elem v = Done d /\
    v3_dot r_elem u v = Done e /\ a = b * d - e * e.
Proof.
  eexists. split; [apply cross_r|]. rewrite !dot_r. cbn [vx vy vz]. split; [f_equal; ring|]. split; [f_equal; ring|].
  split.
  - eexists. split; [apply cross_r|]. unfold v3_neg, mk3. cbn [e_neg r_elem obind vx vy vz]. f_equal. f_equal; ring.
  - do 4 eexists. repeat (split; [apply len_sq_r || apply dot_r|]). cbn [vx vy vz]. ring.
Qed.
Lemma dot_thm u v : v3_dot r_elem u v = v3_dot r_elem v u /\ v3_len_sq r_elem u = v3_dot r_elem u u /\
  exists l, v3_len_sq r_elem u = Done l /\ 0 <= l.
Proof.
  rewrite !dot_r, !len_sq_r. split; [f_equal; ring|]. split; [reflexivity|]. eexists. split; [reflexivity|]. nra.
Qed.
Lemma n3_as_v3 T (E : Elem T) u v :
  n3_dot E u v = v3_dot E (V3 (nx u) (ny u) (nz u)) (V3 (nx v) (ny v) (nz v)) /\
  n3_len_sq E u = v3_len_sq E (V3 (nx u) (ny u) (nz u)) /\
  n3_cross E u v = obind (v3_cross E (V3 (nx u) (ny u) (nz u)) (V3 (nx v) (ny v) (nz v))) (fun c => Done (n3_from_v3 c)).
Proof.
  split; [reflexivity|]. split; [reflexivity|]. unfold n3_cross, v3_cross, mk3, n3_from_v3. cbn [vx vy vz].
  repeat match goal with |- context [obind ?m _] => destruct m; cbn [obind]; try reflexivity end.
Qed.

(** *** C61 in exact arithmetic *)
Lemma face_forward_r u v : exists w, v3_face_forward r_elem u v = Done w /\
  (w = u \/ v3_neg r_elem u = Done w) /\ exists d, v3_dot r_elem w v = Done d /\ 0 <= d.
Proof.
  unfold v3_face_forward. rewrite dot_r. cbn [obind e_lt r_elem e_from_int].
  destruct (Rlt_bool_spec (vx u * vx v + vy u * vy v + vz u * vz v) 0) as [H|H].
  - eexists. split; [reflexivity|]. split; [right; reflexivity|]. eexists. split; [reflexivity|].
    unfold e_neg, e_add, e_mul, r_elem. cbn [vx vy vz]. lra.
  - exists u. split; [reflexivity|]. split; [auto|]. rewrite dot_r. eexists. split; [reflexivity|]. lra.
Qed.

(** *** C63 *)
Lemma coordinate_system_thm v1 : (vx v1 <> 0 \/ vy v1 <> 0 \/ vz v1 <> 0) ->
  exists v2 v3 l, coordinate_system r_float v1 = Done (v2, v3) /\ v3_len_sq r_elem v1 = Done l /\
    v3_len_sq r_elem v2 = Done 1 /\ v3_len_sq r_elem v3 = Done l /\
    v3_dot r_elem v1 v2 = Done 0 /\ v3_dot r_elem v1 v3 = Done 0 /\ v3_dot r_elem v2 v3 = Done 0.
Proof.
  destruct v1 as [x y z]. cbn [vx vy vz]. intros Hn. unfold coordinate_system. cbn [vx vy vz].
  cbn [e_abs r_elem r_float fl_elem obind e_lt].
  destruct (Rlt_bool_spec (Rabs y) (Rabs x)) as [H|H].
  - assert (Hx : x <> 0) by (intros ->; rewrite Rabs_R0 in H; pose proof (Rabs_pos y); lra).
    set (s := x * x + z * z). assert (Hs : 0 < s) by (unfold s; nra).
    change (obind (e_neg r_elem z) _) with (obind (fl_sqrt r_float s) (fun r => v3_div r_elem (V3 (- z) 0 x) r)).
    rewrite sqrt_r by lra. cbn [obind]. pose proof (sqrt_lt_R0 s Hs) as Hr. pose proof (sqrt_sqrt s (Rlt_le _ _ Hs)) as Hq.
    set (r := sqrt s) in *. unfold v3_div, mk3, lift2. cbn [obind vx vy vz]. rewrite !div_r by lra. cbn [obind].
    rewrite cross_r. cbn [obind vx vy vz].
    do 3 eexists. split; [reflexivity|]. rewrite !len_sq_r, !dot_r. cbn [vx vy vz].
    assert (Hr0 : r <> 0) by lra.
    assert (Hq' : r * r = x * x + z * z) by exact Hq. clear Hq. assert (E1 : r * r * / r * / r = 1) by (field; auto).
    split; [reflexivity|].
    split; [f_equal; transitivity ((x * x + z * z) * / r * / r); [field; auto | rewrite <- Hq'; field; auto]|].
    split; [f_equal|split; [f_equal; field; auto|split; f_equal; field; auto]].
    transitivity ((x * x + y * y + z * z) * (x * x + z * z) * / r * / r); [field; auto | rewrite <- Hq'; field; auto].
  - assert (Hs : 0 < y * y + z * z).
    { destruct (Req_dec y 0) as [->|Hy]; [|nra]. rewrite Rabs_R0 in H.
      assert (x = 0) by (destruct (Req_dec x 0); auto; pose proof (Rabs_pos_lt x); lra). subst x.
      assert (z <> 0) by tauto. nra. }
    set (s := y * y + z * z) in *.
    change (obind (e_neg r_elem y) _) with (obind (fl_sqrt r_float s) (fun r => v3_div r_elem (V3 0 z (- y)) r)).
    rewrite sqrt_r by lra. cbn [obind]. pose proof (sqrt_lt_R0 s Hs) as Hr. pose proof (sqrt_sqrt s (Rlt_le _ _ Hs)) as Hq.
    set (r := sqrt s) in *. unfold v3_div, mk3, lift2. cbn [obind vx vy vz]. rewrite !div_r by lra. cbn [obind].
    rewrite cross_r. cbn [obind vx vy vz].
    do 3 eexists. split; [reflexivity|]. rewrite !len_sq_r, !dot_r. cbn [vx vy vz].
    assert (Hr0 : r <> 0) by lra.
    assert (Hq' : r * r = y * y + z * z) by exact Hq. clear Hq.
    split; [reflexivity|].
    split; [f_equal; transitivity ((y * y + z * z) * / r * / r); [field; auto | rewrite <- Hq'; field; auto]|].
    split; [f_equal|split; [f_equal; field; auto|split; f_equal; field; auto]].
    transitivity ((x * x + y * y + z * z) * (y * y + z * z) * / r * / r); [field; auto | rewrite <- Hq'; field; auto].
Qed.
Lemma coordinate_system_unit v1 : v3_len_sq r_elem v1 = Done 1 ->
  exists v2 v3, coordinate_system r_float v1 = Done (v2, v3) /\
    v3_len_sq r_elem v2 = Done 1 /\ v3_len_sq r_elem v3 = Done 1 /\
    v3_dot r_elem v1 v2 = Done 0 /\ v3_dot r_elem v1 v3 = Done 0 /\ v3_dot r_elem v2 v3 = Done 0.
Proof.
  intros H. destruct (coordinate_system_thm v1) as (v2 & v3 & l & H1 & H2 & H3).
  - rewrite len_sq_r in H. injection H as H. destruct (Req_dec (vx v1) 0) as [Q1|]; [|auto].
    destruct (Req_dec (vy v1) 0) as [Q2|]; [|auto]. destruct (Req_dec (vz v1) 0) as [Q3|]; [|auto].
    rewrite Q1, Q2, Q3 in H. lra.
  - exists v2, v3. split; [exact H1|]. rewrite H in H2. injection H2 as <-. exact H3.
Qed.

(** *** Boxes: C42, C43, C44 *)
Lemma diagonal_r b : b3_diagonal r_elem b = Done (V3 (px (b_max b) - px (b_min b)) (py (b_max b) - py (b_min b)) (pz (b_max b) - pz (b_min b))).
Proof. reflexivity. Qed.
Lemma volume_r b : b3_volume r_elem b = Done (ext b AX * ext b AY * ext b AZ). Proof. reflexivity. Qed.
Lemma area_r b : b3_surface_area r_elem b = Done (2 * (ext b AX * ext b AY + ext b AX * ext b AZ + ext b AY * ext b AZ)).
Proof. reflexivity. Qed.
Lemma volume_nonneg b : normalised Rle b -> exists v s, b3_volume r_elem b = Done v /\ b3_surface_area r_elem b = Done s /\
  v = ext b AX * ext b AY * ext b AZ /\ s = 2 * (ext b AX * ext b AY + ext b AX * ext b AZ + ext b AY * ext b AZ) /\
  0 <= v /\ 0 <= s.
Proof.
  intros N. pose proof (N AX). pose proof (N AY). pose proof (N AZ). do 2 eexists. split; [apply volume_r|]. split; [apply area_r|].
  split; [reflexivity|]. split; [reflexivity|]. unfold ext in *.
  split; [repeat apply Rmult_le_pos; lra|]. apply Rmult_le_pos; [lra|]. repeat apply Rplus_le_le_0_compat; apply Rmult_le_pos; lra.
Qed.
Lemma volume_mono a b : normalised Rle a -> subbox Rle a b -> exists v s v' s',
  b3_volume r_elem a = Done v /\ b3_surface_area r_elem a = Done s /\ b3_volume r_elem b = Done v' /\ b3_surface_area r_elem b = Done s' /\
  v <= v' /\ s <= s'.
Proof.
  intros N S. do 4 eexists. split; [apply volume_r|]. split; [apply area_r|]. split; [apply volume_r|]. split; [apply area_r|].
  assert (K : forall i, 0 <= ext a i <= ext b i).
  { assert (I1 : inb Rle b (b_min a)) by (apply S; intros j; split; [apply Rle_refl | apply N]).
    assert (I2 : inb Rle b (b_max a)) by (apply S; intros j; split; [apply N | apply Rle_refl]).
    intros i. specialize (I1 i). specialize (I2 i). specialize (N i). unfold ext. lra. }
  pose proof (K AX). pose proof (K AY). pose proof (K AZ).
  assert (M : forall p q p' q', 0 <= p <= p' -> 0 <= q <= q' -> 0 <= p * q <= p' * q').
  { intros. split; [apply Rmult_le_pos; lra | apply Rmult_le_compat; lra]. }
  split.
  - apply M; [|auto]. apply M; auto.
  - pose proof (M _ _ _ _ (K AX) (K AY)). pose proof (M _ _ _ _ (K AX) (K AZ)). pose proof (M _ _ _ _ (K AY) (K AZ)). lra.
Qed.

Lemma sq_le a b : - b <= a <= b -> a * a <= b * b. Proof. intros. nra. Qed.
Lemma bounding_sphere_thm b : normalised Rle b -> exists c r, bounding_sphere r_float b = Done (c, r) /\ 0 <= r /\
  (forall p, inb Rle b p -> dist_sq p c <= r * r) /\ inb Rle b c.
Proof.
  intros N. destruct b as [[x0 y0 z0] [x1 y1 z1]]. pose proof (N AX) as Nx. pose proof (N AY) as Ny. pose proof (N AZ) as Nz.
  cbn [coord b_min b_max px py pz] in Nx, Ny, Nz.
  unfold bounding_sphere. cbn [b_min b_max].
  change (p3_add r_float _ _) with (@Done (Point3 R) (P3 (x0 + x1) (y0 + y1) (z0 + z1))). cbn [obind].
  unfold p3_div, mk3, lift2. cbn [obind px py pz]. change (e_from_int r_float 2) with 2. rewrite !div_r by lra. cbn [obind].
  set (c := P3 ((x0 + x1) / 2) ((y0 + y1) / 2) ((z0 + z1) / 2)).
  assert (Hin : b3_inside r_float (B3 (P3 x0 y0 z0) (P3 x1 y1 z1)) c = true).
  { unfold b3_inside, c. cbn [b_min b_max px py pz e_le r_float fl_elem r_elem]. rewrite !Rle_bool_true by lra. reflexivity. }
  rewrite Hin.
  change (p3_sub r_float c _) with (@Done (Vector3 R) (V3 (px c - x1) (py c - y1) (pz c - z1))). cbn [obind].
  unfold v3_len. rewrite len_sq_r. cbn [obind vx vy vz].
  set (s := (px c - x1) * (px c - x1) + (py c - y1) * (py c - y1) + (pz c - z1) * (pz c - z1)).
  assert (Hs : 0 <= s) by (unfold s; repeat apply Rplus_le_le_0_compat; apply Rle_0_sqr). rewrite sqrt_r by exact Hs. cbn [obind].
  exists c, (sqrt s). split; [reflexivity|]. split; [apply sqrt_pos|]. split.
  - intros p Hp. rewrite sqrt_sqrt by exact Hs. pose proof (Hp AX) as Px. pose proof (Hp AY) as Py. pose proof (Hp AZ) as Pz.
    cbn [coord b_min b_max px py pz] in Px, Py, Pz. unfold dist_sq, s, c. cbn [px py pz].
    pose proof (sq_le (px p - (x0 + x1) / 2) (x1 - (x0 + x1) / 2) ltac:(lra)).
    pose proof (sq_le (py p - (y0 + y1) / 2) (y1 - (y0 + y1) / 2) ltac:(lra)).
    pose proof (sq_le (pz p - (z0 + z1) / 2) (z1 - (z0 + z1) / 2) ltac:(lra)). nra.
  - intros []; unfold c; cbn [coord b_min b_max px py pz]; lra.
Qed.

Lemma lerp_r t a b : lerp r_float t a b = Done ((1 - t) * a + t * b). Proof. reflexivity. Qed.
Lemma lerp_thm a b : lerp r_float 0 a b = Done a /\ lerp r_float 1 a b = Done b /\
  forall t, 0 <= t <= 1 -> exists x, lerp r_float t a b = Done x /\ Rmin a b <= x <= Rmax a b.
Proof.
  rewrite !lerp_r. split; [f_equal; ring|]. split; [f_equal; ring|]. intros t Ht. eexists. split; [apply lerp_r|].
  destruct (Rle_or_lt a b) as [H|H]; [rewrite Rmin_left, Rmax_right by lra | rewrite Rmin_right, Rmax_left by lra]; nra.
Qed.
Lemma p3_lerp_r t p q : p3_lerp r_float t p q =
  Done (P3 ((1 - t) * px p + t * px q) ((1 - t) * py p + t * py q) ((1 - t) * pz p + t * pz q)).
Proof. reflexivity. Qed.
Lemma p3_lerp_thm p q : p3_lerp r_float 0 p q = Done p /\ p3_lerp r_float 1 p q = Done q /\
  forall t i, exists r, p3_lerp r_float t p q = Done r /\ lerp r_float t (coord i p) (coord i q) = Done (coord i r).
Proof.
  rewrite !p3_lerp_r. destruct p as [x y z], q as [x' y' z']. cbn [px py pz].
  split; [f_equal; f_equal; ring|]. split; [f_equal; f_equal; ring|].
  intros t i. eexists. split; [reflexivity|]. destruct i; reflexivity.
Qed.
Lemma b3_lerp_r b t : b3_lerp r_float b t = Done (P3
  ((1 - px t) * px (b_min b) + px t * px (b_max b)) ((1 - py t) * py (b_min b) + py t * py (b_max b))
  ((1 - pz t) * pz (b_min b) + pz t * pz (b_max b))).
Proof. reflexivity. Qed.
Lemma b3_lerp_inside b t : normalised Rle b -> (forall i, 0 <= coord i t <= 1) -> exists p, b3_lerp r_float b t = Done p /\ inb Rle b p.
Proof.
  intros N H. eexists. split; [apply b3_lerp_r|]. intros i. specialize (N i). specialize (H i).
  destruct i; cbn [coord px py pz] in *; nra.
Qed.
Lemma offset_r b p : exists o, b3_offset r_elem b p = Done o /\
  forall i, vcoord i o = if Rlt_bool (coord i (b_min b)) (coord i (b_max b))
    then (coord i p - coord i (b_min b)) / (coord i (b_max b) - coord i (b_min b)) else coord i p - coord i (b_min b).
Proof.
  unfold b3_offset. change (p3_sub r_elem p (b_min b)) with
    (@Done (Vector3 R) (V3 (px p - px (b_min b)) (py p - py (b_min b)) (pz p - pz (b_min b)))). cbn [obind].
  change (e_lt r_elem) with Rlt_bool. unfold lift2. cbn [obind e_sub r_elem].
  destruct (Rlt_bool_spec (px (b_min b)) (px (b_max b))); destruct (Rlt_bool_spec (py (b_min b)) (py (b_max b)));
    destruct (Rlt_bool_spec (pz (b_min b)) (pz (b_max b))); rewrite ?div_r by lra; cbn [obind vx vy vz]; rewrite ?div_r by lra; cbn [obind vx vy vz];
    rewrite ?div_r by lra; cbn [obind vx vy vz];
    (eexists; split; [reflexivity|]; intros []; cbn [coord vcoord vx vy vz];
     rewrite ?Rlt_bool_true by assumption; rewrite ?Rlt_bool_false by assumption; reflexivity).
Qed.
Lemma offset_lerp b p : normalised Rle b -> inb Rle b p -> exists o, b3_offset r_elem b p = Done o /\
  b3_lerp r_float b (p3_from_v3 o) = Done p /\
  forall i, coord i (b_min b) < coord i (b_max b) -> 0 <= vcoord i o <= 1.
Proof.
  intros N Hp. destruct (offset_r b p) as (o & E & H). exists o. split; [exact E|].
  assert (K : forall i, (1 - vcoord i o) * coord i (b_min b) + vcoord i o * coord i (b_max b) = coord i p).
  { intros i. specialize (N i). specialize (Hp i). rewrite (H i). destruct (Rlt_bool_spec (coord i (b_min b)) (coord i (b_max b))).
    - field. lra.
    - assert (coord i (b_min b) = coord i (b_max b)) as Q by lra. assert (coord i p = coord i (b_max b)) as Q' by lra. rewrite Q, Q'. ring. }
  split.
  - rewrite b3_lerp_r. destruct p as [x y z]. f_equal. pose proof (K AX). pose proof (K AY). pose proof (K AZ).
    cbn [vcoord coord px py pz p3_from_v3] in *. f_equal; assumption.
  - intros i Hi. specialize (Hp i). rewrite (H i). rewrite Rlt_bool_true by assumption.
    assert (0 < coord i (b_max b) - coord i (b_min b)) by lra. split.
    + apply Rmult_le_pos; [lra|]. left. now apply Rinv_0_lt_compat.
    + apply Rmult_le_reg_r with (coord i (b_max b) - coord i (b_min b)); [lra|]. unfold Rdiv. rewrite Rmult_assoc, Rinv_l by lra. lra.
Qed.

(** *** Rays: C65, C66 *)
Lemma at_r r t : ray_at r_float r t = Done (P3 (px (r_o r) + t * vx (r_d r)) (py (r_o r) + t * vy (r_d r)) (pz (r_o r) + t * vz (r_d r))).
Proof. reflexivity. Qed.
Lemma at_thm r : ray_at r_float r 0 = Done (r_o r) /\ ray_at r_float r 1 = p3_add r_elem (r_o r) (r_d r) /\
  forall s t, exists p dt, ray_at r_float r s = Done p /\ v3_mul r_elem (r_d r) t = Done dt /\ ray_at r_float r (s + t) = p3_add r_elem p dt.
Proof.
  rewrite !at_r. destruct r as [[x y z] [dx dy dz] tm ti me]. cbn [r_o r_d px py pz vx vy vz].
  split; [f_equal; f_equal; ring|].
  split; [change (p3_add r_elem (P3 x y z) (V3 dx dy dz)) with (@Done (Point3 R) (P3 (x + dx) (y + dy) (z + dz))); f_equal; f_equal; ring|].
  intros s t. do 2 eexists. split; [apply at_r|]. split; [reflexivity|]. rewrite at_r. cbn [r_o r_d px py pz vx vy vz].
  unfold p3_add, mk3, lift2. cbn [obind e_add r_elem vx vy vz px py pz e_mul]. f_equal. f_equal; ring.
Qed.
Lemma rd_scale_r rd s : rd_scale r_float rd s =
  let o := r_o (rd_ray rd) in let d := r_d (rd_ray rd) in
  let po q := P3 (px o + s * (px q - px o)) (py o + s * (py q - py o)) (pz o + s * (pz q - pz o)) in
  let pd q := V3 (vx d + s * (vx q - vx d)) (vy d + s * (vy q - vy d)) (vz d + s * (vz q - vz d)) in
  Done (mkRD (rd_ray rd) (rd_has rd) (po (rx_origin rd)) (po (ry_origin rd)) (pd (rx_direction rd)) (pd (ry_direction rd))).
Proof. reflexivity. Qed.
Lemma rd_scale_thm rd : rd_scale r_float rd 1 = Done rd /\
  (exists c, rd_scale r_float rd 0 = Done c /\ rx_origin c = r_o (rd_ray rd) /\ ry_origin c = r_o (rd_ray rd) /\
     rx_direction c = r_d (rd_ray rd) /\ ry_direction c = r_d (rd_ray rd)) /\
  (forall s, exists c, rd_scale r_float rd s = Done c /\ rd_ray c = rd_ray rd /\ rd_has c = rd_has rd) /\
  (forall s t, exists c, rd_scale r_float rd s = Done c /\ rd_scale r_float c t = rd_scale r_float rd (s * t)).
Proof.
  destruct rd as [[[ox oy oz] [dx dy dz] tm ti me] h [a1 a2 a3] [b1 b2 b3] [c1 c2 c3] [d1 d2 d3]].
  split; [rewrite rd_scale_r; cbn; repeat f_equal; ring|].
  split; [eexists; split; [apply rd_scale_r|]; cbn; repeat split; f_equal; ring|].
  split; [intros s; eexists; split; [apply rd_scale_r|]; split; reflexivity|].
  intros s t. eexists. split; [apply rd_scale_r|]. rewrite !rd_scale_r. cbn. f_equal. f_equal; f_equal; ring.
Qed.

(** *** C58 *)
Lemma has_scale_r t : t_has_scale r_float t = Done (not_one r_float (col_sq t I0) || not_one r_float (col_sq t I1) || not_one r_float (col_sq t I2))%bool.
Proof.
  unfold t_has_scale, v3_transform, mk3, lift2. cbn [obind e_add e_mul r_elem r_float fl_elem vx vy vz e_from_int v3_len_sq lift2].
  unfold v3_len_sq, lift2. cbn [obind e_add e_mul r_elem r_float fl_elem vx vy vz e_from_int]. unfold col_sq.
  f_equal. f_equal; [f_equal|]; f_equal; ring.
Qed.
Lemma not_one_r x : not_one r_float x = true <-> x < 999 / 1000 \/ 1001 / 1000 < x.
Proof.
  unfold not_one. cbn [e_lt r_float fl_elem r_elem fl_0999 fl_1001]. rewrite Bool.orb_true_iff.
  destruct (Rlt_bool_spec x (999 / 1000)), (Rlt_bool_spec (1001 / 1000) x); intuition (try discriminate; try lra).
Qed.
Lemma has_scale_thm t : exists b, t_has_scale r_float t = Done b /\
  (b = true <-> exists j, (j = I0 \/ j = I1 \/ j = I2) /\ (col_sq t j < 999 / 1000 \/ 1001 / 1000 < col_sq t j)).
Proof.
  eexists. split; [apply has_scale_r|]. rewrite !Bool.orb_true_iff, !not_one_r. split.
  - intros [[H|H]|H]; eexists; (split; [|exact H]); auto.
  - intros (j & [->|[->| ->]] & H); auto.
Qed.
Lemma has_scale_false t : (forall j, j <> I3 -> col_sq t j = 1) -> t_has_scale r_float t = Done false.
Proof.
  intros H. rewrite has_scale_r, !H by discriminate. f_equal.
  replace (not_one r_float 1) with false; [reflexivity|]. symmetry. apply Bool.not_true_is_false. rewrite not_one_r. lra.
Qed.
Lemma has_scale_translate d : exists t, t_translate r_float d = Done t /\ t_has_scale r_float t = Done false.
Proof.
  eexists. split; [reflexivity|]. apply has_scale_false. intros [] H; try congruence; unfold col_sq; cbn [mget vget t_m w0 w1 w2 w3 e_from_int r_float r_elem fl_elem]; ring.
Qed.
Lemma Req_bool_iff a b : Req_bool a b = true <-> a = b.
Proof. destruct (Req_bool_spec a b); split; auto; discriminate. Qed.
Lemma is_identity_thm t : t_is_identity r_float t = true <-> t_m t = identR.
Proof.
  unfold t_is_identity, m4_eq, v4_eq. destruct t as [[[a1 a2 a3 a4] [b1 b2 b3 b4] [c1 c2 c3 c4] [d1 d2 d3 d4]] i].
  cbn [t_m w0 w1 w2 w3 e_eq r_float r_elem fl_elem]. rewrite !Bool.andb_true_iff, !Req_bool_iff. cbn [e_from_int]. change identR with (W4 (W4 1 0 0 0) (W4 0 1 0 0) (W4 0 0 1 0) (W4 0 0 0 1)). split.
  - intros H. repeat match goal with H : _ /\ _ |- _ => destruct H end. subst. reflexivity.
  - intros H. injection H; intros; subst. tauto.
Qed.
Lemma identity_has_scale t : t_is_identity r_float t = true -> t_has_scale r_float t = Done false.
Proof.
  intros H. apply is_identity_thm in H. apply has_scale_false. unfold col_sq. rewrite H. intros [] Hj; try congruence; cbn; ring.
Qed.
