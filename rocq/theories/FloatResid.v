(** Proofs about C136: the product of a matrix and its inverse, both computed in floats. *)
From Coq Require Import List ZArith Reals Lia Lra Psatz.
From Flocq Require Import Core.Core IEEE754.BinarySingleNaN.
From Verif Require Import Base Elem FloatInst GeoModel MatModel GeoSpec ArithSpec MatSpec OpsSpec FloatErrSpec OrderProofs MatThms InvThms TransThms.
From Verif Require Import ExactInst FloatCore FloatErr FloatThms OpsThms FloatErrThms GaussReal FloatGauss FloatBack GaussEx.
Import ListNotations.
Local Open Scope mon_scope.
Local Open Scope R_scope.

Section Resid.
Context (f : fmt).
Notation E := (f_elem f).
Notation mat := (Matrix4 (flt f)).
Notation u := (half_ulp f).
Notation eta := (half_tiny f).
Notation val x := (@B2R (fprec f) (femax f) x).
Notation lim := (FloatGauss.lim f).

Lemma rel_le x d b : Rabs d <= u -> Rabs x <= b -> Rabs (x * (1 + d)) <= 2 * b.
Proof.
  intros Hd Hx. pose proof (u_small f). pose proof (Rabs_pos x). rewrite Rabs_mult.
  assert (Rabs (1 + d) <= 2) by (apply Rabs_le; apply abs2 in Hd; lra). pose proof (Rabs_pos (1 + d)). nra.
Qed.
Lemma add_lim (x y : flt f) X Y : is_finite x = true -> is_finite y = true -> Rabs (val x) <= X -> Rabs (val y) <= Y -> X + Y <= 4 * lim ->
  is_finite (f_add x y) = true /\ Rabs (val (f_add x y)) <= 2 * (X + Y).
Proof.
  intros Fx Fy HX HY H. assert (G : Rabs (val x + val y) <= X + Y) by (eapply Rle_trans; [apply Rabs_triang|lra]).
  destruct (add_key f x y Fx Fy) as (_ & K & F). rewrite Rlt_bool_true in F by exact (rnd_fin f _ (Rle_trans _ _ _ G H)). split; [assumption|].
  rewrite (finite_of_key f _ _ K F) by exact (rnd_fin f _ (Rle_trans _ _ _ G H)). destruct (rnd_plus f (val x) (val y) (fmt_B f x) (fmt_B f y)) as (d & Hd & ->).
  now apply rel_le.
Qed.
Lemma mult_lim (x y : flt f) X Y : is_finite x = true -> is_finite y = true -> Rabs (val x) <= X -> Rabs (val y) <= Y -> X * Y <= lim / 64 ->
  is_finite (f_mult x y) = true /\ Rabs (val (f_mult x y)) <= lim / 16.
Proof.
  intros Fx Fy HX HY H. pose proof (mul_le _ _ _ _ HX HY) as G. pose proof (lim_pos f). pose proof (u_small f). pose proof (eta_u f). pose proof (u_pos f).
  assert (64 <= lim) by (unfold FloatGauss.lim; change 64 with (bpow radix2 6); apply bpow_le; destruct f; cbn; lia).
  destruct (op_mult f x y Fx Fy) as (F & d & t & Hd & Ht & ->); [lra|]. split; [assumption|].
  eapply Rle_trans; [apply Rabs_triang|]. pose proof (rel_le _ _ _ Hd G). lra.
Qed.
(** A product with small enough entries is finite and near the product over the reals. *)
Lemma product_near (a b : mat) X Y : (forall r c, is_finite (mget a r c) = true) -> (forall r c, is_finite (mget b r c) = true) ->
  (forall r c, Rabs (val (mget a r c)) <= X) -> (forall r c, Rabs (val (mget b r c)) <= Y) -> X * Y <= lim / 64 ->
  exists p, m4_mul E a b = Done p /\ forall r c, is_finite (mget p r c) = true /\
    Rabs (val (mget p r c) - mget (prodR (m_real a) (m_real b)) r c) <= 20 * (X * Y) * u + 5 * eta.
Proof.
  intros Fa Fb HX HY L. pose proof (lim_pos f) as LP. pose proof (u_small f) as US. pose proof (u_pos f) as UP. pose proof (eta_pos f) as EP.
  assert (D : exists p, m4_mul E a b = Done p) by (eexists; rewrite mul_fill; apply fill_done; intros r c; apply cell_float).
  destruct D as [p Ep]. exists p. split; [assumption|]. intros r c.
  assert (F : is_finite (mget p r c) = true).
  { pose proof Ep as Ep'. rewrite mul_fill in Ep'. pose proof (fill_inv _ _ _ Ep' r c) as Ec. cbv beta in Ec. rewrite cell_float in Ec. injection Ec as Ec.
    rewrite <- Ec. clear Ec Ep'. cbv zeta.
    assert (T : forall i, is_finite (f_mult (mget a r i) (mget b i c)) = true /\ Rabs (val (f_mult (mget a r i) (mget b i c))) <= lim / 16)
      by (intros i; apply (mult_lim _ _ X Y); auto).
    destruct (zero_val f) as [Z0 FZ].
    destruct (add_lim (f_of_int f 0) _ 0 (lim / 16) FZ (proj1 (T I0))) as [F1 B1]; [rewrite Z0, Rabs_R0; lra|apply T|lra|].
    destruct (add_lim _ _ _ (lim / 16) F1 (proj1 (T I1)) B1) as [F2 B2]; [apply T|lra|].
    destruct (add_lim _ _ _ (lim / 16) F2 (proj1 (T I2)) B2) as [F3 B3]; [apply T|lra|].
    destruct (add_lim _ _ _ (lim / 16) F3 (proj1 (T I3)) B3) as [F4 _]; [apply T|lra|]. exact F4. }
  split; [assumption|]. eapply Rle_trans; [apply (product_err f a b p r c Ep F)|].
  assert (T : forall i, Rabs (mget (m_real a) r i * mget (m_real b) i c) <= X * Y) by (intros i; unfold m_real; rewrite !mget_mkm; now apply mul_le).
  assert (EA : 0 <= entry_abs (m_real a) (m_real b) r c <= 4 * (X * Y)).
  { unfold entry_abs. pose proof (T I0). pose proof (T I1). pose proof (T I2). pose proof (T I3). split; [|lra].
    repeat apply Rplus_le_le_0_compat; apply Rabs_pos. }
  pose proof (small_power f 4 ltac:(lia)) as P. replace (INR 4 + 1) with 5 in P by (cbn; lra).
  assert (0 <= X * Y) by lra. set (z := X * Y) in *. set (e := entry_abs _ _ _ _) in *. set (pw := (1 + u) ^ 4) in *. clearbody z e pw.
  assert ((pw - 1) * e <= 5 * u * e) by (apply Rmult_le_compat_r; lra).
  assert (5 * u * e <= 5 * u * (4 * z)) by (apply Rmult_le_compat_l; lra).
  assert (pw * (4 * eta) <= 5 / 4 * (4 * eta)) by (apply Rmult_le_compat_r; lra). lra.
Qed.
Lemma both_sides (S K : R) (A : mat) (C : Matrix4 R) : bpow radix2 (-60) <= S -> S <= bpow radix2 60 ->
  (forall r c, is_finite (mget A r c) = true) -> (forall r c, Rabs (val (mget A r c)) <= S) ->
  prodR (m_real A) C = identR -> (forall r c, Rabs (mget C r c) <= K) -> S * K * u <= 1 / 8192 ->
  exists B P Q, m4_inverse E A = Done B /\ m4_mul E B A = Done P /\ m4_mul E A B = Done Q /\
    forall r c, is_finite (mget P r c) = true /\ is_finite (mget Q r c) = true /\
      Rabs (val (mget P r c) - mget identR r c) <= 2840 * (S * K) * u /\
      Rabs (val (mget Q r c) - mget identR r c) <= 5640 * (S * K) * (S * K + 1) * u.
Proof.
  intros S1 S2 FA HA HC HK HU.
  pose proof (bpow_gt_0 radix2 (-60)) as P60. assert (SP : 0 < S) by lra. pose proof (u_pos f) as UP. pose proof (eta_pos f) as EP.
  pose proof (u_small f) as US. pose proof (eta_u f) as EU.
  assert (HAr : forall r c, Rabs (mget (m_real A) r c) <= S) by (intros r c; unfold m_real; rewrite mget_mkm; apply HA).
  pose proof (cond_ge S K _ _ HAr HC HK) as Kge. assert (KP : 0 < K) by nra.
  destruct (inverse_bounds f S K A C S1 S2 FA HA HC HK HU) as (B & E1 & HB).
  set (k := S * K) in *. set (q := k * u) in *. assert (Q0 : 0 < q) by (apply Rmult_lt_0_compat; lra).
  assert (qu : u <= 4 * q) by (unfold q; nra).
  assert (BB : forall r c, Rabs (val (mget B r c)) <= 186 / 100 * K).
  { intros r c. replace (val (mget B r c)) with ((val (mget B r c) - mget C r c) + mget C r c) by ring.
    eapply Rle_trans; [apply Rabs_triang|]. destruct (HB r c) as (_ & _ & H). specialize (HK r c).
    assert (1400 * K * (k + 1) * u <= 7000 * q * K).
    { replace (7000 * q * K) with (1400 * K * (5 * k) * u) by (unfold q; ring). apply Rmult_le_compat_r; [lra|]. apply Rmult_le_compat_l; lra. }
    assert (7000 * q * K <= 86 / 100 * K) by (apply Rmult_le_compat_r; lra). lra. }
  assert (FB : forall r c, is_finite (mget B r c) = true) by (intros r c; apply HB).
  assert (L : 186 / 100 * k <= lim / 64).
  { apply (Rmult_le_reg_r u); [lra|]. replace (186 / 100 * k * u) with (186 / 100 * q) by (unfold q; ring).
    replace (lim / 64 * u) with (lim * u / 64) by field. unfold FloatGauss.lim, half_ulp. rewrite <- bpow_plus. replace (67 + fprec f + - fprec f)%Z with 67%Z by lia.
    assert (bpow radix2 6 <= bpow radix2 67) by (apply bpow_le; lia). change (bpow radix2 6) with 64 in *. lra. }
  destruct (product_near B A (186 / 100 * K) S FB FA BB HA) as (P & EP1 & HP); [unfold k in L; lra|].
  destruct (product_near A B S (186 / 100 * K) FA FB HA BB) as (Q & EQ1 & HQ); [unfold k in L; lra|].
  exists B, P, Q. do 3 (split; [assumption|]). intros r c. destruct (HP r c) as [FP DP], (HQ r c) as [FQ DQ]. do 2 (split; [assumption|]).
  assert (DP' : 20 * (186 / 100 * K * S) * u + 5 * eta <= 40 * q).
  { replace (20 * (186 / 100 * K * S) * u) with (20 * (186 / 100 * q)) by (unfold q, k; ring). lra. }
  assert (DQ' : 20 * (S * (186 / 100 * K)) * u + 5 * eta <= 40 * q).
  { replace (20 * (S * (186 / 100 * K)) * u) with (20 * (186 / 100 * q)) by (unfold q, k; ring). lra. }
  destruct (HB r c) as (_ & RB & _). split.
  - replace (val (mget P r c) - mget identR r c) with
      ((val (mget P r c) - mget (prodR (m_real B) (m_real A)) r c) + (mget (prodR (m_real B) (m_real A)) r c - mget identR r c)) by ring.
    eapply Rle_trans; [apply Rabs_triang|]. replace (2840 * k * u) with (40 * q + 2800 * k * u) by (unfold q; ring). lra.
  - assert (RQ : Rabs (mget (prodR (m_real A) (m_real B)) r c - mget identR r c) <= 5600 * k * (k + 1) * u).
    { replace (mget (prodR (m_real A) (m_real B)) r c - mget identR r c) with
        (MatSpec.sum4 Rplus (fun j => mget (m_real A) r j * (mget (m_real B) j c - mget C j c))).
      - replace (5600 * k * (k + 1) * u) with (4 * (S * (1400 * K * (k + 1) * u))) by (unfold k; ring). apply sum4_le. intros j.
        apply mul_le; [apply HAr|]. unfold m_real. rewrite mget_mkm. apply HB.
      - rewrite <- HC. unfold prodR, prod_of. rewrite !mget_mkm. unfold MatSpec.sum4. ring. }
    replace (val (mget Q r c) - mget identR r c) with
      ((val (mget Q r c) - mget (prodR (m_real A) (m_real B)) r c) + (mget (prodR (m_real A) (m_real B)) r c - mget identR r c)) by ring.
    eapply Rle_trans; [apply Rabs_triang|].
    replace (5640 * k * (k + 1) * u) with (40 * q * (k + 1) + 5600 * k * (k + 1) * u) by (unfold q; ring).
    assert (40 * q * 1 <= 40 * q * (k + 1)) by (apply Rmult_le_compat_l; lra). lra.
Qed.
(** The same for the two matrices of a transform. *)
Lemma both_sides_t (S K : R) (A : mat) (C : Matrix4 R) : bpow radix2 (-60) <= S -> S <= bpow radix2 60 ->
  (forall r c, is_finite (mget A r c) = true) -> (forall r c, Rabs (val (mget A r c)) <= S) ->
  prodR (m_real A) C = identR -> (forall r c, Rabs (mget C r c) <= K) -> S * K * u <= 1 / 8192 ->
  exists t P Q, t_new_ (f_float f) A = Done t /\ m4_mul (f_float f) (t_inv t) (t_m t) = Done P /\ m4_mul (f_float f) (t_m t) (t_inv t) = Done Q /\
    forall r c, is_finite (mget P r c) = true /\ is_finite (mget Q r c) = true /\
      Rabs (val (mget P r c) - mget identR r c) <= 2840 * (S * K) * u /\
      Rabs (val (mget Q r c) - mget identR r c) <= 5640 * (S * K) * (S * K + 1) * u.
Proof.
  intros S1 S2 FA HA HC HK HU. destruct (both_sides S K A C S1 S2 FA HA HC HK HU) as (B & P & Q & E1 & E2 & E3 & H).
  exists (mkT A B), P, Q. split; [|split; [exact E2|split; [exact E3|exact H]]].
  unfold t_new_. change (m4_inverse (f_float f) A) with (m4_inverse E A). rewrite E1. reflexivity.
Qed.
End Resid.

(** Not exact: the matrix of tenths. *)
Definition tenths f : Matrix4 (flt f) :=
  let o := f_of_int f 0 in let d (z : Z) := f_div (f_of_int f z) (f_of_int f 10) in
  W4 (W4 (d 3%Z) (d 1%Z) o o) (W4 (d 1%Z) (d 7%Z) o o) (W4 o o (d 9%Z) (d 1%Z)) (W4 o o (d 2%Z) (d 6%Z)).
Definition resid {A} (E : Elem A) (a : Matrix4 A) : out (Matrix4 A * Matrix4 A) := b <~ m4_inverse E a ;; p <~ m4_mul E b a ;; Done (b, p).
Lemma resid_done {A} (E : Elem A) a b p : resid E a = Done (b, p) -> m4_inverse E a = Done b /\ m4_mul E b a = Done p.
Proof.
  unfold resid. destruct (m4_inverse E a) as [b'| |]; try discriminate. cbn. destruct (m4_mul E b' a) as [p'| |] eqn:H; try discriminate. cbn.
  intros Q. injection Q as <- <-. now split.
Qed.
Lemma tenths_off f : (forall r c, is_finite (mget (tenths f) r c) = true) /\ exists B P, m4_inverse (f_elem f) (tenths f) = Done B /\
  m4_mul (f_elem f) B (tenths f) = Done P /\ exists r c, Beqb (mget P r c) (f_of_int f (if ix_eqb r c then 1 else 0)%Z) = false.
Proof.
  split; [intros [] []; destruct f; vm_compute; reflexivity|].
  assert (H : match resid (f_elem f) (tenths f) with Done (_, p) =>
    forallb (fun r => forallb (fun c => Beqb (mget p r c) (f_of_int f (if ix_eqb r c then 1 else 0)%Z)) [I0; I1; I2; I3]) [I0; I1; I2; I3] = false | _ => False end)
    by (destruct f; vm_compute; reflexivity).
  destruct (resid (f_elem f) (tenths f)) as [[b p]| |] eqn:Er; try contradiction. apply resid_done in Er. destruct Er. exists b, p.
  do 2 (split; [assumption|]).
  assert (G : forall g : ix -> bool, forallb g [I0; I1; I2; I3] = false -> exists i, g i = false).
  { intros g Hg. cbn in Hg. destruct (g I0) eqn:?; [|eauto]. destruct (g I1) eqn:?; [|eauto]. destruct (g I2) eqn:?; [|eauto].
    destruct (g I3) eqn:?; [discriminate|eauto]. }
  apply G in H. destruct H as [r H]. apply G in H. destruct H as [c H]. now exists r, c.
Qed.
