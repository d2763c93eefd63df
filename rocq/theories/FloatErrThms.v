(** Proofs about rounding errors of the float operations. *)
From Coq Require Import ZArith Reals Lra Lia.
From Flocq Require Import Core.Core IEEE754.BinarySingleNaN.
From Verif Require Import Base Elem GeoModel FloatInst MatModel MatSpec MatThms GeoSpec ArithSpec OpsSpec FloatCore FloatErrSpec FloatErr.
Local Open Scope R_scope.

Section T.
Context (f : fmt).
Local Notation B := (flt f).
Local Notation u := (half_ulp f).
Local Notation eta := (half_tiny f).
Local Notation ap n K x X A := (approx f n K (@B2R (fprec f) (femax f) x) X A).

Lemma small_power n : (n <= 8)%nat -> (1 + u) ^ n - 1 <= (INR n + 1) * u.
Proof.
  intros H. pose proof (u_pos f). pose proof (u_small f).
  assert (G : forall k, (k <= 8)%nat -> (1 + u) ^ k <= 1 + INR k * u + INR k * INR k * u * u).
  { induction k as [|k IH]; intros Hk; [cbn; lra|]. specialize (IH ltac:(lia)). rewrite S_INR. cbn [pow].
    assert (0 <= INR k) by apply pos_INR. assert (INR k <= 8) by (replace 8 with (INR 8) by (cbn; lra); apply le_INR; lia).
    apply Rle_trans with ((1 + u) * (1 + INR k * u + INR k * INR k * u * u)); [nra|].
    assert (INR k * INR k * u <= 64 * u) by (apply Rmult_le_compat_r; nra).
    assert (0 <= u * u * (INR k + 1 - INR k * INR k * u)) by (apply Rmult_le_pos; nra). nra. }
  specialize (G n H). assert (0 <= INR n) by apply pos_INR.
  assert (INR n <= 8) by (replace 8 with (INR 8) by (cbn; lra); apply le_INR; lia).
  assert (INR n * INR n * u <= 64 * u) by (apply Rmult_le_compat_r; nra). nra.
Qed.

(** Sums of three products. *)
Lemma sum3 (a b c d g h : B) : is_finite (f_add (f_add (f_mult a b) (f_mult c d)) (f_mult g h)) = true ->
  ap 3 (3 * eta) (f_add (f_add (f_mult a b) (f_mult c d)) (f_mult g h)) (B2R a * B2R b + B2R c * B2R d + B2R g * B2R h)
    (Rabs (B2R a * B2R b) + Rabs (B2R c * B2R d) + Rabs (B2R g * B2R h)).
Proof.
  intros H. pose proof (fin_add f _ _ H) as (H1 & H2 & _). pose proof (fin_add f _ _ H1) as (H3 & H4 & _).
  replace (3 * eta) with (eta + eta + eta) by ring.
  apply (ap_add f 2 (eta + eta) _ _ _ _ 1 eta); auto using ap_product.
  apply (ap_add f 1 eta _ _ _ _ 1 eta); auto using ap_product.
Qed.
Lemma dot_err (v w : Vector3 B) d : v3_dot (f_elem f) v w = Done d -> is_finite d = true ->
  within f 3 (dot_abs (v_real v) (v_real w)) (3 * eta) d (dotR (v_real v) (v_real w)).
Proof. intros [= <-] H. apply ap_within. exact (sum3 _ _ _ _ _ _ H). Qed.
Lemma dot_abs_self v : dot_abs v v = dotR v v.
Proof. unfold dot_abs, dotR. rewrite !Rabs_pos_eq by (apply Rle_0_sqr || nra). reflexivity. Qed.
Lemma len_sq_err (v : Vector3 B) d : v3_len_sq (f_elem f) v = Done d -> is_finite d = true ->
  within f 3 (dotR (v_real v) (v_real v)) (3 * eta) d (dotR (v_real v) (v_real v)).
Proof. intros [= <-] H. rewrite <- dot_abs_self at 1. apply ap_within. exact (sum3 _ _ _ _ _ _ H). Qed.

(** Square roots. *)
Lemma sqrt_gap a b : 0 <= a -> 0 <= b -> Rabs (sqrt a - sqrt b) <= sqrt (Rabs (a - b)).
Proof.
  assert (G : forall a b, 0 <= b -> b <= a -> sqrt a - sqrt b <= sqrt (a - b)).
  { intros x y Hy L. pose proof (sqrt_pos y). pose proof (sqrt_pos (x - y)).
    cut (sqrt x <= sqrt (x - y) + sqrt y); [lra|]. rewrite <- (sqrt_square (sqrt (x - y) + sqrt y)) by lra. apply sqrt_le_1_alt.
    pose proof (sqrt_sqrt (x - y) ltac:(lra)). pose proof (sqrt_sqrt y Hy). nra. }
  intros Ha Hb. destruct (Rle_or_lt b a) as [L|L].
  - rewrite !Rabs_pos_eq; [now apply G|lra|]. apply sqrt_le_1_alt in L. lra.
  - rewrite Rabs_minus_sym, (Rabs_minus_sym a b), !Rabs_pos_eq; [apply G; lra|lra|]. apply Rlt_le, sqrt_le_1_alt in L. lra.
Qed.
(** [|sqrt a - sqrt b| <= r sqrt b + sqrt k] when [|a - b| <= r b + k]. *)
Lemma sqrt_rel a b r k : 0 <= a -> 0 <= b -> 0 <= r -> 0 <= k -> Rabs (a - b) <= r * b + k ->
  Rabs (sqrt a - sqrt b) <= r * sqrt b + sqrt k.
Proof.
  intros Ha Hb Hr Hk H. pose proof (sqrt_pos b). pose proof (sqrt_pos k). pose proof (sqrt_sqrt b Hb). pose proof (sqrt_sqrt k Hk).
  pose proof (sqrt_sqrt a Ha). pose proof (sqrt_pos a).
  apply Rabs_le_inv in H. apply Rabs_le. split.
  - (* sqrt b <= sqrt a + r sqrt b + sqrt k *)
    apply Rnot_lt_le. intros L. assert (sqrt b - (r * sqrt b + sqrt k) > sqrt a) by lra.
    assert (r * sqrt b + sqrt k < sqrt b) by lra. assert (sqrt k <= sqrt b) by nra.
    (* b - a <= r b + k, but b - a = (sb - sa)(sb + sa) > (r sb + sk)(sb) >= r b + k *)
    assert (0 <= r * sqrt b) by (apply Rmult_le_pos; assumption). assert (0 < sqrt b) by lra.
    assert ((r * sqrt b + sqrt k) * sqrt b < (sqrt b - sqrt a) * sqrt b) by (apply Rmult_lt_compat_r; lra).
    assert (sqrt a * sqrt a <= sqrt a * sqrt b) by (apply Rmult_le_compat_l; lra).
    assert (sqrt k * sqrt k <= sqrt k * sqrt b) by (apply Rmult_le_compat_l; lra). nra.
  - apply Rnot_lt_le. intros L. assert (sqrt a > sqrt b + (r * sqrt b + sqrt k)) by lra.
    assert (0 <= r * sqrt b) by (apply Rmult_le_pos; assumption). set (t := r * sqrt b + sqrt k) in *.
    assert ((sqrt b + t) * (sqrt b + t) < sqrt a * sqrt a) by (apply Rmult_le_0_lt_compat; unfold t in *; lra).
    assert (sqrt k * sqrt k <= t * t) by (apply Rmult_le_compat; unfold t; lra).
    assert (r * sqrt b * sqrt b <= t * sqrt b) by (apply Rmult_le_compat_r; unfold t; lra).
    assert (0 <= r * b) by (apply Rmult_le_pos; assumption). nra.
Qed.
Lemma len_err (v : Vector3 B) d : v3_len (f_float f) (f_elem f) (fun x => x) v = Done d -> is_finite d = true ->
  Rabs (B2R d - normR (v_real v)) <= ((1 + u) ^ 4 - 1) * normR (v_real v) + (1 + u) * sqrt ((1 + u) ^ 3 * (3 * eta)).
Proof.
  unfold v3_len. destruct (v3_len_sq (f_elem f) v) as [l| |] eqn:El; try discriminate. intros [= <-] H.
  apply fin_sqrt in H as (Fl & E). pose proof (len_sq_err v l El Fl) as W. unfold within in W.
  destruct (rnd_sqrt f (B2R l) (fmt_B f l)) as (d & Hd & Er). rewrite E, Er.
  set (N := dotR (v_real v) (v_real v)) in *. assert (HN : 0 <= N) by (unfold N, dotR; nra).
  unfold normR. fold N. pose proof (u_pos f). pose proof (eta_pos f). pose proof (p1 f 3) as P.
  assert (Hl : 0 <= B2R l).
  { cbn in El. injection El as <-. pose proof Fl as G. apply fin_add in G as (G1 & G2 & ->). apply fin_add in G1 as (G3 & G4 & G5).
    apply fin_mult in G2 as (_ & _ & ->). apply fin_mult in G3 as (_ & _ & R1). apply fin_mult in G4 as (_ & _ & R2).
    rewrite G5, R1, R2. assert (S : forall x, 0 <= rnd f (x * x)).
    { intros x. rewrite <- (rnd_0 f). apply rnd_le. nra. }
    assert (S' : forall x, 0 <= x -> 0 <= rnd f x) by (intros x Hx; rewrite <- (rnd_0 f); now apply rnd_le).
    apply S'. apply Rplus_le_le_0_compat; [apply S', Rplus_le_le_0_compat; apply S|apply S]. }
  assert (P0 : 0 <= (1 + u) ^ 3 - 1) by lra. assert (K0 : 0 <= (1 + u) ^ 3 * (3 * eta)) by (apply Rmult_le_pos; lra).
  pose proof (sqrt_rel (B2R l) N _ _ Hl HN P0 K0 W) as Q.
  set (k := sqrt ((1 + u) ^ 3 * (3 * eta))) in *. pose proof (sqrt_pos N). assert (0 <= k) by apply sqrt_pos.
  replace (sqrt (B2R l) * (1 + d) - sqrt N) with ((sqrt (B2R l) - sqrt N) * (1 + d) + sqrt N * d) by ring.
  eapply Rle_trans; [apply Rabs_triang|]. rewrite !Rabs_mult, (Rabs_pos_eq (sqrt N)) by assumption.
  assert (Rabs (1 + d) <= 1 + u). { eapply Rle_trans; [apply Rabs_triang|]. rewrite Rabs_R1. lra. }
  pose proof (Rabs_pos (1 + d)). pose proof (Rabs_pos (sqrt (B2R l) - sqrt N)). pose proof (Rabs_pos d).
  apply Rle_trans with ((((1 + u) ^ 3 - 1) * sqrt N + k) * (1 + u) + sqrt N * u).
  - apply Rplus_le_compat; [apply Rmult_le_compat; lra|nra].
  - change ((1 + u) ^ 4) with ((1 + u) * (1 + u) ^ 3). ring_simplify. lra.
Qed.

(** Differences of two products. *)
Lemma diff2 (a b c d : B) : is_finite (f_sub (f_mult a b) (f_mult c d)) = true ->
  ap 2 (2 * eta) (f_sub (f_mult a b) (f_mult c d)) (B2R a * B2R b - B2R c * B2R d) (Rabs (B2R a * B2R b) + Rabs (B2R c * B2R d)).
Proof.
  intros H. pose proof (fin_sub f _ _ H) as (H1 & H2 & _). replace (2 * eta) with (eta + eta) by ring.
  apply (ap_sub f 1 eta _ _ _ _ 1 eta); auto using ap_product.
Qed.
Lemma cross_err (v w : Vector3 B) c i : v3_cross (f_elem f) v w = Done c -> is_finite (vcoord i c) = true ->
  within f 2 (cross_abs i (v_real v) (v_real w)) (2 * eta) (vcoord i c) (cross_r i (v_real v) (v_real w)).
Proof. intros [= <-] H. destruct i; apply ap_within; exact (diff2 _ _ _ _ H). Qed.

(** The upper block of a matrix times a vector. *)
Lemma transform_err (t : Transform B) (v w : Vector3 B) i : v3_transform (f_float f) (fun x => x) v t = Done w ->
  is_finite (vcoord i w) = true ->
  within f 3 (row_abs (m_real (t_m t)) (v_real v) (axis_ix i)) (3 * eta) (vcoord i w) (block_times (m_real (t_m t)) (v_real v) (axis_ix i)).
Proof. intros [= <-] H. destruct i; apply ap_within; exact (sum3 _ _ _ _ _ _ H). Qed.

(** Products of matrices: the first addition, to zero, is exact. *)
Lemma add_zero_l (x : B) : is_finite (f_add (f_of_int f 0) x) = true -> is_finite x = true /\ B2R (f_add (f_of_int f 0) x) = B2R x.
Proof.
  intros H. apply fin_add in H as (_ & Fx & ->). split; [assumption|]. rewrite (proj1 (zero_val f)), Rplus_0_l. apply rnd_B.
Qed.
Lemma sum4 (a b c d g h i j : B) :
  let s := f_add (f_add (f_add (f_add (f_of_int f 0) (f_mult a b)) (f_mult c d)) (f_mult g h)) (f_mult i j) in
  is_finite s = true ->
  ap 4 (4 * eta) s (B2R a * B2R b + B2R c * B2R d + B2R g * B2R h + B2R i * B2R j)
    (Rabs (B2R a * B2R b) + Rabs (B2R c * B2R d) + Rabs (B2R g * B2R h) + Rabs (B2R i * B2R j)).
Proof.
  intros s H. unfold s in *. pose proof (fin_add f _ _ H) as (H1 & H2 & _). pose proof (fin_add f _ _ H1) as (H3 & H4 & _).
  pose proof (fin_add f _ _ H3) as (H5 & H6 & _). destruct (add_zero_l _ H5) as [H7 E].
  replace (4 * eta) with (eta + eta + eta + eta) by ring.
  apply (ap_add f 3 (eta + eta + eta) _ _ _ _ 1 eta); auto using ap_product.
  apply (ap_add f 2 (eta + eta) _ _ _ _ 1 eta); auto using ap_product.
  apply (ap_add f 1 eta _ _ _ _ 1 eta); auto using ap_product.
  rewrite E. now apply ap_product.
Qed.
Lemma product_err (a b p : Matrix4 B) r c : m4_mul (f_elem f) a b = Done p -> is_finite (mget p r c) = true ->
  within f 4 (entry_abs (m_real a) (m_real b) r c) (4 * eta) (mget p r c) (mget (prodR (m_real a) (m_real b)) r c).
Proof.
  intros E H. rewrite mul_fill in E. pose proof (fill_inv _ _ _ E r c) as Ec. cbv beta in Ec. injection Ec as Ec.
  rewrite <- Ec in *. apply ap_within. destruct r, c; exact (sum4 _ _ _ _ _ _ _ _ H).
Qed.

(** Interpolation. *)
Lemma lerp_ap (t a b : B) : let s := f_add (f_mult (f_sub (f_of_int f 1) t) a) (f_mult t b) in is_finite s = true ->
  ap 3 (2 * eta) s ((1 - B2R t) * B2R a + B2R t * B2R b) (Rabs ((1 - B2R t) * B2R a) + Rabs (B2R t * B2R b)).
Proof.
  intros s H. unfold s in *. pose proof (fin_add f _ _ H) as (H1 & H2 & _). pose proof (fin_mult f _ _ H1) as (H3 & H4 & _).
  replace (2 * eta) with ((0 * Rabs (B2R a) + Rabs (1 - B2R t) * 0 + 0 * 0 + eta) + eta) by ring.
  rewrite (Rabs_mult (1 - B2R t)).
  apply (ap_add f 2 _ _ _ _ _ 1 eta); auto using ap_product.
  apply (ap_mult f 1 0 _ _ _ _ 0 0); auto using ap_exact.
  pose proof (ap_difference f _ _ H3) as D. now rewrite (proj1 (one_val f)) in D.
Qed.
Lemma lerp_err (t a b d : B) : lerp (f_float f) t a b = Done d -> is_finite d = true ->
  within f 3 (Rabs ((1 - B2R t) * B2R a) + Rabs (B2R t * B2R b)) (2 * eta) d ((1 - B2R t) * B2R a + B2R t * B2R b).
Proof. intros [= <-] H. apply ap_within. exact (lerp_ap _ _ _ H). Qed.
Lemma p_lerp_err (t : B) (p q w : Point3 B) i : p3_lerp (f_float f) t p q = Done w -> is_finite (coord i w) = true ->
  within f 3 (Rabs ((1 - B2R t) * B2R (coord i p)) + Rabs (B2R t * B2R (coord i q))) (2 * eta) (coord i w)
    ((1 - B2R t) * B2R (coord i p) + B2R t * B2R (coord i q)).
Proof. intros [= <-] H. destruct i; apply ap_within; exact (lerp_ap _ _ _ H). Qed.
Lemma b_lerp_err (b : Bounds3 B) (t w : Point3 B) i : b3_lerp (f_float f) b t = Done w -> is_finite (coord i w) = true ->
  within f 3 (Rabs ((1 - B2R (coord i t)) * B2R (coord i (b_min b))) + Rabs (B2R (coord i t) * B2R (coord i (b_max b)))) (2 * eta) (coord i w)
    ((1 - B2R (coord i t)) * B2R (coord i (b_min b)) + B2R (coord i t) * B2R (coord i (b_max b))).
Proof. intros [= <-] H. destruct i; apply ap_within; exact (lerp_ap _ _ _ H). Qed.

(** Points of a ray. *)
Lemma ray_ap (o d t : B) : is_finite (f_add o (f_mult t d)) = true ->
  ap 2 eta (f_add o (f_mult t d)) (B2R o + B2R t * B2R d) (Rabs (B2R o) + Rabs (B2R t * B2R d)).
Proof.
  intros H. pose proof (fin_add f _ _ H) as (H1 & H2 & _). replace eta with (0 + eta) by ring.
  apply (ap_add f 0 0 _ _ _ _ 1 eta); auto using ap_product, ap_exact.
Qed.
Lemma ray_err (r : Ray B) (t : B) w i : ray_at (f_float f) r t = Done w -> is_finite (coord i w) = true ->
  within f 2 (Rabs (B2R (coord i (r_o r))) + Rabs (B2R t * B2R (vcoord i (r_d r)))) eta (coord i w)
    (B2R (coord i (r_o r)) + B2R t * B2R (vcoord i (r_d r))).
Proof. intros [= <-] H. destruct i; apply ap_within; exact (ray_ap _ _ _ H). Qed.

(** Boxes. *)
Lemma volume_err (b : Bounds3 B) d : b3_volume (f_elem f) b = Done d -> is_finite d = true ->
  within f 5 (Rabs (box_volume (b_real b))) (eta * Rabs (side AZ (b_real b)) + eta) d (box_volume (b_real b)).
Proof.
  intros [= <-] H. cbn [vx vy vz]. pose proof (fin_mult f _ _ H) as (H1 & H2 & _). pose proof (fin_mult f _ _ H1) as (H3 & H4 & _).
  apply ap_within. unfold box_volume. rewrite !Rabs_mult. unfold side. cbn [coord b_real p_real b_min b_max px py pz].
  set (X := B2R (px (b_max b)) - B2R (px (b_min b))). set (Y := B2R (py (b_max b)) - B2R (py (b_min b))).
  set (Z := B2R (pz (b_max b)) - B2R (pz (b_min b))).
  assert (M := ap_mult f 1 0 _ _ X _ 1 0 Y _ (ap_difference f _ _ H3) (ap_difference f _ _ H4) H1).
  assert (N := ap_mult f _ _ _ _ _ _ 1 0 Z _ M (ap_difference f _ _ H2) H).
  eapply approx_le; [apply Rle_refl| |exact N]. fold X Y Z. lra.
Qed.
Lemma double_ap n K (x : B) X A : ap n K x X A -> is_finite (f_mult (f_of_int f 2) x) = true ->
  ap n (2 * K) (f_mult (f_of_int f 2) x) (2 * X) (2 * A).
Proof.
  intros (H1 & H2 & H3) H. apply fin_mult in H as (_ & _ & ->). rewrite (proj1 (two_val f)), (rnd_id f _ (fmt_double f _ (fmt_B f x))).
  split; [|split; [|lra]].
  - replace (2 * B2R x - 2 * X) with (2 * (B2R x - X)) by ring. rewrite Rabs_mult, (Rabs_pos_eq 2) by lra. lra.
  - rewrite Rabs_mult, (Rabs_pos_eq 2) by lra. lra.
Qed.
Lemma surface_err (b : Bounds3 B) d : b3_surface_area (f_elem f) b = Done d -> is_finite d = true ->
  within f 5 (surface_abs (b_real b)) (6 * eta) d (box_surface (b_real b)).
Proof.
  intros [= <-] H. cbn [vx vy vz]. pose proof (fin_mult f _ _ H) as (_ & H1 & _). pose proof (fin_add f _ _ H1) as (H2 & H3 & _).
  pose proof (fin_add f _ _ H2) as (H4 & H5 & _).
  pose proof (fin_mult f _ _ H4) as (X1 & Y1 & _). pose proof (fin_mult f _ _ H5) as (_ & Z1 & _).
  apply ap_within. unfold box_surface, surface_abs. rewrite !Rabs_mult. unfold side. cbn [coord b_real p_real b_min b_max px py pz].
  apply ap_difference in X1, Y1, Z1.
  assert (M1 := ap_mult f 1 0 _ _ _ _ 1 0 _ _ X1 Y1 H4). assert (M2 := ap_mult f 1 0 _ _ _ _ 1 0 _ _ X1 Z1 H5).
  assert (M3 := ap_mult f 1 0 _ _ _ _ 1 0 _ _ Y1 Z1 H3).
  assert (A1 := ap_add f _ _ _ _ _ _ _ _ _ _ M1 M2 H2). assert (A2 := ap_add f _ _ _ _ _ _ _ _ _ _ A1 M3 H1).
  assert (D := double_ap _ _ _ _ _ A2 H). eapply approx_le; [apply Rle_refl| |exact D]. lra.
Qed.

End T.
