(** Proofs for C133: signs of differences, and differences of numbers near each other. *)
From Coq Require Import ZArith Reals Lia Lra Bool.
From Flocq Require Import Core.Core IEEE754.BinarySingleNaN Plus_error Sterbenz.
From Verif Require Import Base Elem FloatInst GeoModel GeoSpec NearSpec.
From Verif Require Import OrderProofs FloatCore FloatThms FloatIter FloatRay FloatWhole.
Local Open Scope mon_scope.
Local Open Scope R_scope.

Section N.
Context (f : fmt).
Notation B := (flt f).
Notation zero := (f_of_int f 0).

Lemma fin_nan (x : B) : is_finite x = true -> is_nan x = false. Proof. now destruct x. Qed.
Lemma sat_sign r : Rcompare (sat f r) 0 = Rcompare r 0.
Proof.
  pose proof (big_pos f) as Q. unfold sat. destruct (Rcompare_spec r 0) as [H|H|H].
  - apply Rcompare_Lt. apply Rmax_lub_lt; [lra|]. rewrite Rmin_right; lra.
  - apply Rcompare_Eq. rewrite Rmin_right by lra. rewrite Rmax_right; lra.
  - apply Rcompare_Gt. eapply Rlt_le_trans; [|apply Rmax_r]. now apply Rmin_glb_lt.
Qed.
Lemma rnd_sign (x y : B) : Rcompare (rnd f (B2R x - B2R y)) 0 = Rcompare (B2R x) (B2R y).
Proof.
  assert (N : B2R x - B2R y <> 0 -> rnd f (B2R x - B2R y) <> 0).
  { intros H. unfold rnd, Rminus. apply round_plus_neq_0; try exact H.
    - apply fexp_valid.
    - apply monotone_exp_not_FTZ, fexp_mono. apply fexp_valid.
    - apply valid_rnd_N.
    - apply fmt_B.
    - apply generic_format_opp, fmt_B. }
  destruct (Rcompare_spec (B2R x) (B2R y)) as [H|H|H].
  - apply Rcompare_Lt. pose proof (rnd_nonpos f (B2R x - B2R y) ltac:(lra)). pose proof (N ltac:(lra)). lra.
  - apply Rcompare_Eq. rewrite H, Rminus_diag_eq by reflexivity. apply rnd_0.
  - apply Rcompare_Gt. pose proof (rnd_nonneg f (B2R x - B2R y) ltac:(lra)). pose proof (N ltac:(lra)). lra.
Qed.
Lemma zero_val : is_nan zero = false /\ key f zero = 0.
Proof. now destruct f. Qed.
Lemma sub_tells (x y : B) : tells (f_sub x y) x y.
Proof.
  intros N. destruct zero_val as [Z0 Z1].
  destruct (is_finite x) eqn:Fx; [destruct (is_finite y) eqn:Fy|].
  - destruct (sub_key f x y Fx Fy) as (_ & K & _). rewrite !cmp_key; auto using fin_nan. rewrite Z1, K, sat_sign, rnd_sign, !key_finite by auto. reflexivity.
  - destruct y as [|[]| |]; try discriminate; destruct x as [[]|[]| |[] ? ? ?]; try discriminate; destruct f; reflexivity.
  - destruct x as [|[]| |]; try discriminate; destruct y as [[]|[]| |[] ? ? ?]; try discriminate; destruct f; reflexivity.
Qed.
Lemma near_sub (x y : B) : near x y -> exactly (f_sub x y) (B2R x - B2R y).
Proof.
  intros (Fx & Fy & C). assert (C' : close (B2R x) (B2R y)) by exact C. pose proof (close_exact f x y C') as X.
  assert (L : Rabs (rnd f (B2R x - B2R y)) < big f).
  { rewrite X. pose proof (abs_B2R_lt_emax _ _ x) as Bp. pose proof (abs_B2R_lt_emax _ _ y) as Bm. unfold big.
    apply Rabs_lt_inv in Bp, Bm. apply Rabs_lt. destruct C; lra. }
  destruct (sub_val f x y Fx Fy L) as [F1 V1]. split; [exact F1|]. now rewrite V1.
Qed.
Lemma back (x y d : B) : is_finite x = true -> is_finite y = true -> exactly d (B2R x - B2R y) -> exactly (f_add y d) (B2R x).
Proof.
  intros Fx Fy [Fd Vd]. assert (V : B2R y + B2R d = B2R x) by (rewrite Vd; ring). pose proof (add_val f y d Fy Fd) as A. rewrite V, rnd_B in A.
  apply A. apply abs_B2R_lt_emax.
Qed.

Lemma points_sign (p q : Point3 B) : exists d, p3_sub (f_elem f) p q = Done d /\ forall i, tells (vcoord i d) (coord i p) (coord i q).
Proof. eexists. split; [reflexivity|]. intros []; apply sub_tells. Qed.
Lemma shift_sign (p : Point3 B) v : exists d, p3_sub_v (f_elem f) p v = Done d /\ forall i, tells (coord i d) (coord i p) (vcoord i v).
Proof. eexists. split; [reflexivity|]. intros []; apply sub_tells. Qed.
Lemma vectors_sign (p q : Vector3 B) : exists d, v3_sub (f_elem f) p q = Done d /\ forall i, tells (vcoord i d) (vcoord i p) (vcoord i q).
Proof. eexists. split; [reflexivity|]. intros []; apply sub_tells. Qed.
Lemma normals_sign (p q : Normal3 B) : exists d, n3_sub (f_elem f) p q = Done d /\ forall i, tells (ncoord i d) (ncoord i p) (ncoord i q).
Proof. eexists. split; [reflexivity|]. intros []; apply sub_tells. Qed.
Lemma diagonal_sign (s : Bounds3 B) : exists d, b3_diagonal (f_elem f) s = Done d /\ forall i, tells (vcoord i d) (coord i (b_max s)) (coord i (b_min s)).
Proof. apply points_sign. Qed.
Lemma points_exact (p q : Point3 B) : exists d, p3_sub (f_elem f) p q = Done d /\
  forall i, near (coord i p) (coord i q) -> exactly (vcoord i d) (B2R (coord i p) - B2R (coord i q)).
Proof. eexists. split; [reflexivity|]. intros []; apply near_sub. Qed.
Lemma vectors_exact (p q : Vector3 B) : exists d, v3_sub (f_elem f) p q = Done d /\
  forall i, near (vcoord i p) (vcoord i q) -> exactly (vcoord i d) (B2R (vcoord i p) - B2R (vcoord i q)).
Proof. eexists. split; [reflexivity|]. intros []; apply near_sub. Qed.
Lemma normals_exact (p q : Normal3 B) : exists d, n3_sub (f_elem f) p q = Done d /\
  forall i, near (ncoord i p) (ncoord i q) -> exactly (ncoord i d) (B2R (ncoord i p) - B2R (ncoord i q)).
Proof. eexists. split; [reflexivity|]. intros []; apply near_sub. Qed.
Lemma sides_exact (s : Bounds3 B) : exists d, b3_diagonal (f_elem f) s = Done d /\
  forall i, near (coord i (b_max s)) (coord i (b_min s)) -> exactly (vcoord i d) (B2R (coord i (b_max s)) - B2R (coord i (b_min s))).
Proof. apply points_exact. Qed.
Lemma there_and_back (p q : Point3 B) : exists d r, p3_sub (f_elem f) p q = Done d /\ p3_add (f_elem f) q d = Done r /\
  forall i, near (coord i p) (coord i q) -> exactly (coord i r) (B2R (coord i p)).
Proof.
  do 2 eexists. split; [reflexivity|]. split; [reflexivity|].
  intros [] N; pose proof N as (Fx & Fy & _); apply near_sub in N; cbn [coord px py pz vx vy vz] in *; now apply back.
Qed.
Lemma through1 (x y : B) : near x y -> exactly (f_add y (f_mult (f_of_int f 1) (f_sub x y))) (B2R x).
Proof.
  intros N. destruct (h_1 f) as [F1 V1]. pose proof N as (Fx & Fy & _). apply near_sub in N as [Fd Vd].
  destruct (one_mult f _ _ F1 V1 Fd) as [H1 H2]. apply back; auto. split; [exact H1|]. now rewrite H2.
Qed.
Lemma through (p q : Point3 B) t tm : exists d r, p3_sub (f_elem f) p q = Done d /\
  ray_at (f_float f) (mkRay q d t tm tt) (f_of_int f 1) = Done r /\
  forall i, near (coord i p) (coord i q) -> exactly (coord i r) (B2R (coord i p)).
Proof. do 2 eexists. split; [reflexivity|]. split; [reflexivity|]. intros []; apply through1. Qed.
End N.
Lemma far_case : exists (p q r : Point3 (flt F32)) d, (forall i, is_finite (coord i p) = true /\ is_finite (coord i q) = true) /\
  p3_sub (f_elem F32) p q = Done d /\ p3_add (f_elem F32) q d = Done r /\ exactly (px p) 1 /\ exactly (px r) 0.
Proof.
  exists (P3 (f32 1) (f32 1) (f32 1)), (P3 (f32 (2 ^ 25)) (f32 1) (f32 1)). do 2 eexists. split; [intros []; split; vm_compute; reflexivity|].
  split; [reflexivity|]. split; [reflexivity|]. split; [apply h_1|]. split; vm_compute; reflexivity.
Qed.
(** 3 * 2^-100 and 2^-100: the difference is right, its square is not. *)
Lemma close_case : exists (p q : Point3 (flt F32)) d, p3_sub (f_elem F32) p q = Done d /\
  Bcompare (px p) (px q) = Some Gt /\ v3_len (f_float F32) (f_elem F32) (fun x => x) d = Done (f32 0).
Proof.
  exists (P3 (f_div (f_div (f32 3) (f32 (2 ^ 50))) (f32 (2 ^ 50))) (f32 0) (f32 0)), (P3 (f_div (f_div (f32 1) (f32 (2 ^ 50))) (f32 (2 ^ 50))) (f32 0) (f32 0)).
  eexists. split; [reflexivity|]. split; [vm_compute; reflexivity|]. vm_compute. repeat f_equal; apply Eqdep_dec.UIP_dec, bool_dec.
Qed.
Lemma near_example : near (f32 5) (f32 3) /\ near (f32 (-3)) (f32 (-5)) /\ near (f32 0) (f32 0) /\ ~ near (f32 7) (f32 3).
Proof.
  assert (H : forall z, (Z.abs z <= 100)%Z -> is_finite (f32 z) = true /\ B2R (f32 z) = IZR z).
  { intros z Hz. apply (h_int F32). unfold WholeSpec.whole. cbn. lia. }
  destruct (H 5%Z ltac:(lia)) as [F5 V5]. destruct (H 3%Z ltac:(lia)) as [F3 V3]. destruct (H (-3)%Z ltac:(lia)) as [F3' V3'].
  destruct (H (-5)%Z ltac:(lia)) as [F5' V5']. destruct (H 0%Z ltac:(lia)) as [F0 V0]. destruct (H 7%Z ltac:(lia)) as [F7 V7].
  unfold near. rewrite V5, V3, V3', V5', V0, V7. repeat split; auto; try lra.
Qed.
