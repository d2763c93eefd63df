(** Proofs about the bounding sphere in floats. *)
From Coq Require Import ZArith Reals Lra Lia.
From Flocq Require Import Core.Core IEEE754.BinarySingleNaN.
From Verif Require Import Base Elem GeoModel FloatInst MatModel MatSpec GeoSpec ArithSpec OpsSpec FloatCore FloatThms FloatErrSpec FloatErr FloatErrThms.
Local Open Scope R_scope.

(** Norms. *)
Definition v_add (a b : Vector3 R) : Vector3 R := V3 (vx a + vx b) (vy a + vy b) (vz a + vz b).
Lemma dot_pos v : 0 <= dotR v v. Proof. unfold dotR. nra. Qed.
Lemma norm_pos v : 0 <= normR v. Proof. apply sqrt_pos. Qed.
Lemma norm_sq v : normR v * normR v = dotR v v. Proof. apply sqrt_sqrt, dot_pos. Qed.
Lemma cauchy a b : dotR a b <= normR a * normR b.
Proof.
  unfold normR. rewrite <- sqrt_mult by apply dot_pos. apply Rle_trans with (Rabs (dotR a b)); [apply Rle_abs|].
  rewrite <- sqrt_Rsqr_abs. apply sqrt_le_1_alt. unfold Rsqr, dotR. destruct a as [a1 a2 a3], b as [b1 b2 b3]; cbn [vx vy vz].
  pose proof (Rle_0_sqr (a1 * b2 - a2 * b1)). pose proof (Rle_0_sqr (a1 * b3 - a3 * b1)). pose proof (Rle_0_sqr (a2 * b3 - a3 * b2)).
  unfold Rsqr in *. nra.
Qed.
Lemma norm_triang a b : normR (v_add a b) <= normR a + normR b.
Proof.
  pose proof (norm_pos a). pose proof (norm_pos b). pose proof (cauchy a b). pose proof (norm_sq a). pose proof (norm_sq b).
  apply Rsqr_incr_0_var; [|lra]. unfold Rsqr. rewrite norm_sq.
  replace (dotR (v_add a b) (v_add a b)) with (dotR a a + 2 * dotR a b + dotR b b) by (unfold dotR, v_add; cbn; ring). nra.
Qed.
Lemma norm_le a b : (forall i, Rabs (vcoord i a) <= Rabs (vcoord i b)) -> normR a <= normR b.
Proof.
  intros H. apply sqrt_le_1_alt. unfold dotR. pose proof (H AX) as Hx. pose proof (H AY) as Hy. pose proof (H AZ) as Hz.
  apply Rsqr_le_abs_1 in Hx, Hy, Hz. unfold Rsqr in *. cbn in *. lra.
Qed.
Definition v_abs (a : Vector3 R) : Vector3 R := V3 (Rabs (vx a)) (Rabs (vy a)) (Rabs (vz a)).
Lemma norm_abs a : normR (v_abs a) = normR a.
Proof. apply Rle_antisym; apply norm_le; intros []; cbn; rewrite ?Rabs_Rabsolu; lra. Qed.
Definition v_scale k (a : Vector3 R) : Vector3 R := V3 (k * vx a) (k * vy a) (k * vz a).
Lemma norm_scale k a : 0 <= k -> normR (v_scale k a) = k * normR a.
Proof.
  intros H. unfold normR. rewrite <- (sqrt_square k H) at 3. rewrite <- sqrt_mult by (try nra; apply dot_pos).
  f_equal. unfold dotR, v_scale. cbn. ring.
Qed.
Lemma norm_const k : 0 <= k -> normR (V3 k k k) <= 7 / 4 * k.
Proof.
  intros H. rewrite <- (sqrt_square (7 / 4 * k)) by lra. apply sqrt_le_1_alt. unfold dotR. cbn. nra.
Qed.
(** A vector bounded in every component by [r] times another and a constant. *)
Lemma norm_bound a b r k : 0 <= r -> 0 <= k -> (forall i, Rabs (vcoord i a) <= r * Rabs (vcoord i b) + k) -> normR a <= r * normR b + 7 / 4 * k.
Proof.
  intros Hr Hk H. rewrite <- (norm_abs b), <- norm_scale by assumption.
  eapply Rle_trans; [|apply Rplus_le_compat_l, norm_const; assumption].
  eapply Rle_trans; [|apply norm_triang]. apply norm_le. intros i. specialize (H i).
  pose proof (Rabs_pos (vcoord i b)). rewrite (Rabs_pos_eq (vcoord i (v_add _ _))); destruct i; cbn in *; nra.
Qed.
(** Relative errors in every component change the norm by the relative error. *)
Lemma norm_rel a b r : 0 <= r -> (forall i, Rabs (vcoord i a - vcoord i b) <= r * Rabs (vcoord i b)) -> Rabs (normR a - normR b) <= r * normR b.
Proof.
  intros Hr H. set (d := V3 (vx a - vx b) (vy a - vy b) (vz a - vz b)).
  assert (D : normR d <= r * normR b).
  { pose proof (norm_bound d b r 0 Hr (Rle_refl 0)) as N. rewrite Rmult_0_r, Rplus_0_r in N. apply N. intros i. specialize (H i).
    destruct i; cbn in *; lra. }
  pose proof (norm_triang b d) as T1. pose proof (norm_triang a (v_scale 1 (V3 (- vx d) (- vy d) (- vz d)))) as T2.
  assert (E : normR (v_scale 1 (V3 (- vx d) (- vy d) (- vz d))) = normR d) by (unfold normR, dotR, v_scale; cbn; f_equal; ring).
  rewrite E in T2. replace (v_add b d) with a in T1 by (destruct a, b; unfold v_add, d; cbn; f_equal; ring).
  replace (v_add a (v_scale 1 (V3 (- vx d) (- vy d) (- vz d)))) with b in T2 by (destruct a, b; unfold v_add, v_scale, d; cbn; f_equal; ring).
  apply Rabs_le. lra.
Qed.

Section T.
Context (f : fmt).
Local Notation B := (flt f).
Local Notation u := (half_ulp f).
Local Notation eta := (half_tiny f).

Lemma half_ap (x y : B) : let c := f_div (f_add x y) (f_of_int f 2) in is_finite c = true ->
  approx f 2 eta (B2R c) ((B2R x + B2R y) / 2) (Rabs ((B2R x + B2R y) / 2)).
Proof.
  intros c H. unfold c in *. pose proof (fin_div f _ _ H (proj2 (two_val f))) as (H1 & _ & E). rewrite (proj1 (two_val f)) in E.
  apply fin_add in H1 as (_ & _ & E1). destruct (rnd_plus f _ _ (fmt_B f x) (fmt_B f y)) as (d & Hd & Ed).
  destruct (rnd_any f (B2R (f_add x y) / 2)) as (d' & e' & Hd' & He' & E').
  rewrite E, E'. rewrite E1, Ed. replace eta with (0 + eta) by ring. apply approx_round; try assumption.
  replace ((B2R x + B2R y) * (1 + d) / 2) with ((B2R x + B2R y) / 2 * (1 + d) + 0) by field. replace 0 with (0 + 0) at 1 by ring.
  apply approx_round; [apply approx_exact|assumption|rewrite Rabs_R0; lra].
Qed.
Lemma sphere_inv (b : Bounds3 B) c r : bounding_sphere (f_float f) b = Done (c, r) ->
  let m i := f_div (f_add (coord i (b_min b)) (coord i (b_max b))) (f_of_int f 2) in
  c = P3 (m AX) (m AY) (m AZ) /\
  (b3_inside (f_elem f) b c = true ->
   v3_len (f_float f) (f_elem f) (fun x => x) (V3 (f_sub (px c) (px (b_max b))) (f_sub (py c) (py (b_max b))) (f_sub (pz c) (pz (b_max b)))) = Done r).
Proof.
  rewrite sphere_float. cbv zeta. destruct (b3_inside _ _ _) eqn:E.
  - set (c' := P3 _ _ _). change (p3_sub (f_elem f) c' (b_max b))
      with (Done (V3 (f_sub (px c') (px (b_max b))) (f_sub (py c') (py (b_max b))) (f_sub (pz c') (pz (b_max b))))).
    cbn [obind]. destruct (v3_len _ _ _ _) eqn:L; try discriminate. cbn [obind]. intros H. injection H as <- <-.
    split; [reflexivity|]. intros _. exact L.
  - intros [= <- _]. split; [reflexivity|]. intros Q. assert (true = false) by (etransitivity; [symmetry; exact Q|exact E]). discriminate.
Qed.
Lemma centre_err (b : Bounds3 B) c r i : bounding_sphere (f_float f) b = Done (c, r) -> is_finite (coord i c) = true ->
  within f 2 (Rabs (vcoord i (mid (b_real b)))) eta (coord i c) (vcoord i (mid (b_real b))).
Proof.
  intros E H. apply sphere_inv in E as [-> _]. destruct i; apply ap_within; exact (half_ap _ _ H).
Qed.

(** The radius is the rounded length of the difference between the centre and the upper corner. *)
Definition k_rad := (1 + u) * sqrt ((1 + u) ^ 3 * (3 * eta)).
Lemma radius_err (b : Bounds3 B) c r : bounding_sphere (f_float f) b = Done (c, r) -> inb (tle (TFloat f)) b c -> is_finite r = true ->
  Rabs (B2R r - distR (p_real c) (p_real (b_max b))) <= ((1 + u) ^ 5 - 1) * distR (p_real c) (p_real (b_max b)) + k_rad.
Proof.
  intros E I H. apply sphere_inv in E as [_ El]. specialize (El (proj2 (inside_bool f b c) I)).
  set (d := V3 (f_sub (px c) (px (b_max b))) (f_sub (py c) (py (b_max b))) (f_sub (pz c) (pz (b_max b)))) in *.
  pose proof (len_err f d r El H) as L. fold k_rad in L.
  injection El as <-. apply fin_sqrt in H as (H & _). apply fin_add in H as (H1 & H2 & _). apply fin_add in H1 as (H3 & H4 & _).
  apply fin_mult in H2 as (Z1 & _). apply fin_mult in H3 as (X1 & _). apply fin_mult in H4 as (Y1 & _).
  apply ap_difference in X1, Y1, Z1. pose proof (u_pos f).
  assert (N : Rabs (normR (v_real d) - distR (p_real c) (p_real (b_max b))) <= u * distR (p_real c) (p_real (b_max b))).
  { apply norm_rel; [lra|]. intros []; cbn [vcoord vx vy vz v_real d px py pz p_real].
    - destruct X1 as (G & _). cbn [pow] in G. lra.
    - destruct Y1 as (G & _). cbn [pow] in G. lra.
    - destruct Z1 as (G & _). cbn [pow] in G. lra. }
  set (D := distR _ _) in *. assert (0 <= D) by apply norm_pos. pose proof (norm_pos (v_real d)).
  apply Rabs_le_inv in N. pose proof (p1 f 4). apply Rabs_le_inv in L. apply Rabs_le.
  assert (normR (v_real d) <= (1 + u) * D) by lra. change ((1 + u) ^ 5) with ((1 + u) * (1 + u) ^ 4).
  assert (((1 + u) ^ 4 - 1) * normR (v_real d) <= ((1 + u) ^ 4 - 1) * ((1 + u) * D)) by (apply Rmult_le_compat_l; lra).
  replace (((1 + u) * (1 + u) ^ 4 - 1) * D) with (((1 + u) ^ 4 - 1) * ((1 + u) * D) + u * D) by ring. lra.
Qed.
Lemma k_rad_le : k_rad <= 2 * sqrt eta.
Proof.
  unfold k_rad. pose proof (u_pos f). pose proof (u_small f). pose proof (eta_pos f). pose proof (sqrt_pos eta).
  rewrite sqrt_mult by (try (apply pow_le; lra); lra). rewrite (sqrt_mult 3) by lra.
  assert (sqrt ((1 + u) ^ 3) <= 1 + 1 / 100). { rewrite <- (sqrt_square (1 + 1 / 100)) by lra. apply sqrt_le_1_alt. pose proof (small_power f 3 ltac:(lia)) as S. cbn [INR] in S. lra. }
  assert (sqrt 3 <= 174 / 100). { rewrite <- (sqrt_square (174 / 100)) by lra. apply sqrt_le_1_alt. lra. }
  pose proof (sqrt_pos ((1 + u) ^ 3)). pose proof (sqrt_pos 3).
  apply Rle_trans with ((1 + 1 / 1000) * ((1 + 1 / 100) * (174 / 100 * sqrt eta))); [|lra].
  apply Rmult_le_compat; [lra|repeat apply Rmult_le_pos; lra|lra|]. apply Rmult_le_compat; [lra|apply Rmult_le_pos; lra|lra|].
  apply Rmult_le_compat_r; lra.
Qed.

Lemma box_dist (b : Bounds3 R) (c p : Point3 R) : inb Rle b p ->
  distR p c <= distR c (b_max b) + 2 * normR (V3 (px c - vx (mid b)) (py c - vy (mid b)) (pz c - vz (mid b))).
Proof.
  intros I. rewrite <- norm_scale by lra. unfold distR at 2. set (x := V3 _ _ _) at 1. set (y := v_scale _ _).
  rewrite <- (norm_abs x), <- (norm_abs y). eapply Rle_trans; [|apply norm_triang]. apply norm_le. intros i.
  specialize (I i). rewrite (Rabs_pos_eq (vcoord i (v_add _ _))).
  2: { destruct i; cbn; apply Rplus_le_le_0_compat; apply Rabs_pos. }
  destruct i; cbn in *; unfold Rabs; repeat destruct Rcase_abs; lra.
Qed.
Lemma sphere_contains (b : Bounds3 B) c r : bfinite b -> normalised (tle (TFloat f)) b ->
  bounding_sphere (f_float f) b = Done (c, r) -> (forall i, is_finite (coord i c) = true) -> is_finite r = true ->
  forall p, inb Rle (b_real b) p ->
    distR p (p_real c) <= (1 + 7 * u) * (B2R r + 2 * sqrt eta) + 6 * u * normR (mid (b_real b)) + 4 * eta.
Proof.
  intros Fb Nb E Fc Fr p I.
  assert (Ic : inb (tle (TFloat f)) b c).
  { destruct (sphere_inside f b Fb Nb) as (c' & r' & E' & I').
    - intros i. pose proof E as E1. apply sphere_inv in E1 as [Ec _]. specialize (Fc i). rewrite Ec in Fc.
      assert (G : is_finite (f_div (f_add (coord i (b_min b)) (coord i (b_max b))) (f_of_int f 2)) = true) by (destruct i; exact Fc).
      now apply (fin_div f _ _ G (proj2 (two_val f))).
    - rewrite E in E'. injection E' as <- <-. exact I'. }
  pose proof (radius_err b c r E Ic Fr) as R1. pose proof (box_dist _ (p_real c) p I) as D. pose proof k_rad_le as K.
  change (b_max (b_real b)) with (p_real (b_max b)) in D.
  pose proof (small_power f 5 ltac:(lia)) as S5. pose proof (small_power f 2 ltac:(lia)) as S2. cbn [INR] in S5, S2.
  pose proof (u_pos f) as U. pose proof (u_small f) as US. pose proof (eta_pos f) as Et. pose proof (p1 f 2) as P2. pose proof (p1 f 5) as P5.
  set (m := V3 (px (p_real c) - _) _ _) in D.
  assert (M : normR m <= 3 * u * normR (mid (b_real b)) + 2 * eta).
  { apply Rle_trans with (3 * u * normR (mid (b_real b)) + 7 / 4 * ((1 + 1 / 1000) * eta)); [|lra].
    apply norm_bound; [lra|lra|]. intros i. pose proof (centre_err b c r i E (Fc i)) as W. unfold within in W.
    assert (Ei : vcoord i m = B2R (coord i c) - vcoord i (mid (b_real b))) by (destruct i; reflexivity). rewrite Ei.
    eapply Rle_trans; [exact W|]. apply Rplus_le_compat; apply Rmult_le_compat_r; try apply Rabs_pos; lra. }
  set (X := distR (p_real c) (p_real (b_max b))) in *. assert (0 <= X) by apply norm_pos. pose proof (sqrt_pos eta).
  apply Rabs_le_inv in R1.
  assert (G : X <= (1 + 7 * u) * (B2R r + 2 * sqrt eta)).
  { assert (((1 + u) ^ 5 - 1) * X <= 6 * u * X) by (apply Rmult_le_compat_r; lra).
    assert (Q : (1 - 6 * u) * X <= B2R r + 2 * sqrt eta) by lra.
    apply Rle_trans with ((1 + 7 * u) * ((1 - 6 * u) * X)); [|apply Rmult_le_compat_l; lra].
    assert (1 <= (1 + 7 * u) * (1 - 6 * u)) by nra. rewrite <- Rmult_assoc. nra. }
  lra.
Qed.
End T.
