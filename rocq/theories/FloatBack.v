(** Proofs about C111: inverting twice, and transforming a vector there and back, in floats. *)
From Coq Require Import ZArith Reals Lia Lra Psatz.
From Flocq Require Import Core.Core IEEE754.BinarySingleNaN.
From Verif Require Import Base Elem FloatInst GeoModel MatModel GeoSpec ArithSpec MatSpec OpsSpec FloatErrSpec OrderProofs MatThms InvThms TransThms.
From Verif Require Import ExactInst FloatCore FloatErr FloatThms OpsThms FloatErrThms GaussReal FloatGauss.
Local Open Scope mon_scope.
Local Open Scope R_scope.

(** ** A real matrix near the identity has an inverse near the identity *)
Lemma abs2 x b : Rabs x <= b <-> - b <= x <= b.
Proof. split; intros H; [now apply Rabs_le_inv|now apply Rabs_le]. Qed.
Lemma near_det (M : Matrix4 R) : (forall r c, Rabs (mget M r c - mget identR r c) <= 1 / 20) -> detR M <> 0.
Proof.
  intros H. unfold detR, det_of, minor. unfold identR, ident_of in H. setoid_rewrite mget_mkm in H. setoid_rewrite abs2 in H.
  pose proof (H I0 I0) as A00. pose proof (H I0 I1) as A01. pose proof (H I0 I2) as A02. pose proof (H I0 I3) as A03.
  pose proof (H I1 I0) as A10. pose proof (H I1 I1) as A11. pose proof (H I1 I2) as A12. pose proof (H I1 I3) as A13.
  pose proof (H I2 I0) as A20. pose proof (H I2 I1) as A21. pose proof (H I2 I2) as A22. pose proof (H I2 I3) as A23.
  pose proof (H I3 I0) as A30. pose proof (H I3 I1) as A31. pose proof (H I3 I2) as A32. pose proof (H I3 I3) as A33.
  clear H. cbn [ix_eqb] in *.
  generalize dependent (mget M I0 I0). intros m00 A00. generalize dependent (mget M I0 I1). intros m01 A01. generalize dependent (mget M I0 I2). intros m02 A02. generalize dependent (mget M I0 I3). intros m03 A03.
  generalize dependent (mget M I1 I0). intros m10 A10. generalize dependent (mget M I1 I1). intros m11 A11. generalize dependent (mget M I1 I2). intros m12 A12. generalize dependent (mget M I1 I3). intros m13 A13.
  generalize dependent (mget M I2 I0). intros m20 A20. generalize dependent (mget M I2 I1). intros m21 A21. generalize dependent (mget M I2 I2). intros m22 A22. generalize dependent (mget M I2 I3). intros m23 A23.
  generalize dependent (mget M I3 I0). intros m30 A30. generalize dependent (mget M I3 I1). intros m31 A31. generalize dependent (mget M I3 I2). intros m32 A32. generalize dependent (mget M I3 I3). intros m33 A33.
  assert (sm : forall x y, -1/20 <= x <= 1/20 -> -1/20 <= y <= 1/20 -> -1/400 <= x * y <= 1/400) by (clear; intros; nra).
  assert (mi : forall x y, -1/20 <= x <= 1/20 -> 19/20 <= y <= 21/20 -> -21/400 <= x * y <= 21/400) by (clear; intros; nra).
  assert (dg : forall x y, 19/20 <= x <= 21/20 -> 19/20 <= y <= 21/20 -> 361/400 <= x * y <= 441/400) by (clear; intros; nra).
  assert (T1 : forall x y, -1/20 <= x <= 1/20 -> -6/100 <= y <= 6/100 -> -3/1000 <= x * y <= 3/1000) by (clear; intros; nra).
  assert (T2 : forall x y, 19/20 <= x <= 21/20 -> -6/100 <= y <= 6/100 -> -63/1000 <= x * y <= 63/1000) by (clear; intros; nra).
  assert (T3 : forall x y, -1/20 <= x <= 1/20 -> -12/10 <= y <= 12/10 -> -6/100 <= x * y <= 6/100) by (clear; intros; nra).
  assert (T4 : forall x y, -1/20 <= x <= 1/20 -> -1/10 <= y <= 1/10 -> -5/1000 <= x * y <= 5/1000) by (clear; intros; nra).
  pose proof (dg m22 m33 ltac:(lra) ltac:(lra)). pose proof (sm m23 m32 ltac:(lra) ltac:(lra)).
  pose proof (mi m21 m33 ltac:(lra) ltac:(lra)). pose proof (sm m23 m31 ltac:(lra) ltac:(lra)).
  pose proof (sm m21 m32 ltac:(lra) ltac:(lra)). pose proof (mi m31 m22 ltac:(lra) ltac:(lra)).
  pose proof (mi m20 m33 ltac:(lra) ltac:(lra)). pose proof (sm m23 m30 ltac:(lra) ltac:(lra)).
  pose proof (sm m20 m32 ltac:(lra) ltac:(lra)). pose proof (mi m30 m22 ltac:(lra) ltac:(lra)).
  pose proof (sm m20 m31 ltac:(lra) ltac:(lra)). pose proof (sm m21 m30 ltac:(lra) ltac:(lra)).
  assert (M0 : 8/10 <= m11 * (m22 * m33 - m23 * m32) - m12 * (m21 * m33 - m23 * m31) + m13 * (m21 * m32 - m22 * m31)).
  { assert (19/20 * (9 / 10) <= m11 * (m22 * m33 - m23 * m32)) by (apply Rmult_le_compat; lra).
    pose proof (T1 m12 (m21 * m33 - m23 * m31) ltac:(lra) ltac:(lra)). pose proof (T1 m13 (m21 * m32 - m22 * m31) ltac:(lra) ltac:(lra)). lra. }
  assert (M1 : -1/10 <= m10 * (m22 * m33 - m23 * m32) - m12 * (m20 * m33 - m23 * m30) + m13 * (m20 * m32 - m22 * m30) <= 1/10).
  { pose proof (T3 m10 (m22 * m33 - m23 * m32) ltac:(lra) ltac:(lra)).
    pose proof (T1 m12 (m20 * m33 - m23 * m30) ltac:(lra) ltac:(lra)). pose proof (T1 m13 (m20 * m32 - m22 * m30) ltac:(lra) ltac:(lra)). lra. }
  assert (M2 : -1/10 <= m10 * (m21 * m33 - m23 * m31) - m11 * (m20 * m33 - m23 * m30) + m13 * (m20 * m31 - m21 * m30) <= 1/10).
  { pose proof (T1 m10 (m21 * m33 - m23 * m31) ltac:(lra) ltac:(lra)).
    pose proof (T2 m11 (m20 * m33 - m23 * m30) ltac:(lra) ltac:(lra)). pose proof (T1 m13 (m20 * m31 - m21 * m30) ltac:(lra) ltac:(lra)). lra. }
  assert (M3 : -1/10 <= m10 * (m21 * m32 - m22 * m31) - m11 * (m20 * m32 - m22 * m30) + m12 * (m20 * m31 - m21 * m30) <= 1/10).
  { pose proof (T1 m10 (m21 * m32 - m22 * m31) ltac:(lra) ltac:(lra)).
    pose proof (T2 m11 (m20 * m32 - m22 * m30) ltac:(lra) ltac:(lra)). pose proof (T1 m12 (m20 * m31 - m21 * m30) ltac:(lra) ltac:(lra)). lra. }
  pose proof (T4 m01 _ ltac:(lra) M1). pose proof (T4 m02 _ ltac:(lra) M2). pose proof (T4 m03 _ ltac:(lra) M3).
  assert (19/20 * (8 / 10) <= m00 * (m11 * (m22 * m33 - m23 * m32) - m12 * (m21 * m33 - m23 * m31) + m13 * (m21 * m32 - m22 * m31))).
  { apply Rmult_le_compat; lra. }
  lra.
Qed.
Lemma largest (g : ix -> ix -> R) : exists r c, forall r' c', g r' c' <= g r c.
Proof.
  assert (L : forall h : ix -> R, exists i, forall j, h j <= h i).
  { intros h. assert (exists i, h I0 <= h i /\ h I1 <= h i /\ h I2 <= h i /\ h I3 <= h i) as (i & A & B & C & D).
    { destruct (Rle_or_lt (h I0) (h I1)), (Rle_or_lt (h I2) (h I3)).
      - destruct (Rle_or_lt (h I1) (h I3)); [exists I3|exists I1]; repeat split; lra.
      - destruct (Rle_or_lt (h I1) (h I2)); [exists I2|exists I1]; repeat split; lra.
      - destruct (Rle_or_lt (h I0) (h I3)); [exists I3|exists I0]; repeat split; lra.
      - destruct (Rle_or_lt (h I0) (h I2)); [exists I2|exists I0]; repeat split; lra. }
    exists i. intros []; assumption. }
  destruct (L (g I0)) as [a A], (L (g I1)) as [b B], (L (g I2)) as [c C], (L (g I3)) as [d D].
  destruct (L (fun r => match r with I0 => g I0 a | I1 => g I1 b | I2 => g I2 c | I3 => g I3 d end)) as [r R].
  exists r, (match r with I0 => a | I1 => b | I2 => c | I3 => d end). intros r' c'.
  pose proof (R r') as R'. destruct r', r; cbn in *; try (eapply Rle_trans; [|exact R']); auto.
Qed.
Lemma mul_le x y a b : Rabs x <= a -> Rabs y <= b -> Rabs (x * y) <= a * b.
Proof. intros. rewrite Rabs_mult. apply Rmult_le_compat; try assumption; apply Rabs_pos. Qed.
Lemma sum4_le F b : (forall i : ix, Rabs (F i) <= b) -> Rabs (MatSpec.sum4 Rplus F) <= 4 * b.
Proof.
  intros H. unfold MatSpec.sum4. pose proof (H I0). pose proof (H I1). pose proof (H I2). pose proof (H I3). setoid_rewrite abs2 in H.
  apply Rabs_le. pose proof (H I0). pose proof (H I1). pose proof (H I2). pose proof (H I3). lra.
Qed.
Lemma near_inverse (M : Matrix4 R) e : 0 <= e -> e <= 1 / 20 -> (forall r c, Rabs (mget M r c - mget identR r c) <= e) ->
  exists X, prodR M X = identR /\ forall r c, Rabs (mget X r c) <= 5 / 4 /\ Rabs (mget X r c - mget identR r c) <= 5 * e.
Proof.
  intros He He' H. destruct (inverse_R M) as [(D & _)|(_ & X & _ & H1 & _)].
  { exfalso. apply (near_det M); [|exact D]. intros r c. specialize (H r c). lra. }
  exists X. split; [exact H1|].
  assert (EQ : forall r c, mget X r c - mget identR r c = - MatSpec.sum4 Rplus (fun k => (mget M r k - mget identR r k) * mget X k c)).
  { intros r c. rewrite <- H1 at 1. unfold prodR, prod_of. rewrite mget_mkm.
    unfold identR, ident_of, MatSpec.sum4. destruct r; rewrite !mget_mkm; cbn [ix_eqb]; ring. }
  assert (X54 : forall r c, Rabs (mget X r c) <= 5 / 4).
  { destruct (largest (fun r c => Rabs (mget X r c))) as (r & c & L). set (m := Rabs (mget X r c)) in *.
    assert (B : Rabs (mget X r c - mget identR r c) <= 4 * (e * m)).
    { rewrite EQ, Rabs_Ropp. apply sum4_le. intros k. apply mul_le; [apply H|apply L]. }
    assert (I1 : Rabs (mget identR r c) <= 1).
    { unfold identR, ident_of. rewrite mget_mkm. destruct (ix_eqb r c); apply Rabs_le; lra. }
    assert (m <= 1 + 4 * (e * m)).
    { unfold m at 1. replace (mget X r c) with (mget identR r c + (mget X r c - mget identR r c)) by ring.
      eapply Rle_trans; [apply Rabs_triang|]. lra. }
    assert (0 <= m) by apply Rabs_pos. assert (m <= 5 / 4) by nra. intros r' c'. specialize (L r' c'). lra. }
  intros r c. split; [apply X54|]. rewrite EQ, Rabs_Ropp.
  replace (5 * e) with (4 * (e * (5 / 4))) by field. apply sum4_le. intros k. apply mul_le; [apply H|apply X54].
Qed.

Section Back.
Context (f : fmt).
Notation E := (f_elem f).
Notation mat := (Matrix4 (flt f)).
Notation u := (half_ulp f).
Notation eta := (half_tiny f).
Notation val x := (@B2R (fprec f) (femax f) x).

Lemma cond_ge (S K : R) (A C : Matrix4 R) : (forall r c, Rabs (mget A r c) <= S) -> prodR A C = identR -> (forall r c, Rabs (mget C r c) <= K) ->
  1 / 4 <= S * K.
Proof.
  intros HA HC HK. assert (H : mget (prodR A C) I0 I0 = 1) by (rewrite HC; reflexivity).
  unfold prodR, prod_of in H. rewrite mget_mkm in H. pose proof (sum4_le (fun k => mget A I0 k * mget C k I0) (S * K)) as B.
  rewrite H, Rabs_R1 in B. assert (1 <= 4 * (S * K)); [|lra]. apply B. intros i. apply mul_le; auto.
Qed.
Lemma inverse_twice (S K : R) (A : mat) (C : Matrix4 R) : bpow radix2 (-60) <= S -> S <= bpow radix2 60 ->
  bpow radix2 (-60) <= K -> K <= bpow radix2 59 ->
  (forall r c, is_finite (mget A r c) = true) -> (forall r c, Rabs (val (mget A r c)) <= S) ->
  prodR (m_real A) C = identR -> (forall r c, Rabs (mget C r c) <= K) -> S * K * u <= 1 / 65536 ->
  exists B A', m4_inverse E A = Done B /\ m4_inverse E B = Done A' /\ forall r c, is_finite (mget A' r c) = true /\
    Rabs (val (mget A' r c) - val (mget A r c)) <= 80000 * S * (S * K) * u.
Proof.
  intros S1 S2 K1 K2 FA HA HC HK HU.
  pose proof (bpow_gt_0 radix2 (-60)) as P60. assert (SP : 0 < S) by lra. assert (KP : 0 < K) by lra. pose proof (u_pos f) as UP.
  assert (SK : 0 < S * K) by now apply Rmult_lt_0_compat.
  assert (HAr : forall r c, Rabs (mget (m_real A) r c) <= S) by (intros r c; unfold m_real; rewrite mget_mkm; apply HA).
  pose proof (cond_ge S K _ _ HAr HC HK) as Kge. set (k := S * K) in *. set (q := k * u) in *.
  assert (Q0 : 0 < q) by now apply Rmult_lt_0_compat.
  destruct (inverse_bounds f S K A C S1 S2 FA HA HC HK ltac:(fold k q; lra)) as (B & E1 & HB). fold k in HB.
  destruct (near_inverse (prodR (m_real B) (m_real A)) (2800 * q)) as (X & HX & BX); [lra|lra|intros r c; unfold q; rewrite <- Rmult_assoc; apply HB|].
  set (D := prodR (m_real A) X).
  assert (HD : prodR (m_real B) D = identR).
  { unfold D, prodR. rewrite <- (prod_assoc 0 1 _ _ _ _ RTheory). exact HX. }
  assert (DA : forall r c, Rabs (mget D r c - val (mget A r c)) <= 56000 * S * q).
  { intros r c. replace (mget D r c - val (mget A r c)) with (MatSpec.sum4 Rplus (fun j => mget (m_real A) r j * (mget X j c - mget identR j c))).
    - replace (56000 * S * q) with (4 * (S * (5 * (2800 * q)))) by ring. apply sum4_le. intros j. apply mul_le; [apply HAr|apply BX].
    - unfold D, prodR, prod_of. rewrite mget_mkm. unfold MatSpec.sum4, identR, ident_of, m_real. rewrite !mget_mkm.
      destruct c; cbn [ix_eqb]; ring. }
  assert (BB : forall r c, Rabs (val (mget B r c)) <= 10 / 9 * K).
  { intros r c. replace (val (mget B r c)) with ((val (mget B r c) - mget C r c) + mget C r c) by ring.
    eapply Rle_trans; [apply Rabs_triang|]. destruct (HB r c) as (_ & _ & H). specialize (HK r c).
    assert (1400 * K * (k + 1) * u <= 7000 * q * K).
    { replace (7000 * q * K) with (1400 * K * (5 * k) * u) by (unfold q; ring). apply Rmult_le_compat_r; [lra|]. apply Rmult_le_compat_l; lra. }
    assert (7000 * q * K <= 1 / 9 * K) by (apply Rmult_le_compat_r; lra). lra. }
  assert (BD : forall r c, Rabs (mget D r c) <= 2 * S).
  { intros r c. replace (mget D r c) with ((mget D r c - val (mget A r c)) + val (mget A r c)) by ring.
    eapply Rle_trans; [apply Rabs_triang|]. specialize (DA r c). specialize (HA r c).
    assert (56000 * S * q <= S) by (replace (56000 * S * q) with ((56000 * q) * S) by ring; rewrite <- (Rmult_1_l S) at 2; apply Rmult_le_compat_r; lra). lra. }
  assert (K59 : 10 / 9 * K <= bpow radix2 60).
  { change 60%Z with (1 + 59)%Z. rewrite bpow_plus. change (bpow radix2 1) with 2. lra. }
  destruct (inverse_bounds f (10 / 9 * K) (2 * S) B D) as (A' & E2 & HA').
  - lra.
  - exact K59.
  - intros r c. apply HB.
  - exact BB.
  - exact HD.
  - exact BD.
  - replace (10 / 9 * K * (2 * S) * u) with (20 / 9 * q) by (unfold q, k; field). lra.
  - exists B, A'. split; [exact E1|]. split; [exact E2|]. intros r c. destruct (HA' r c) as (F' & _ & H'). split; [exact F'|].
    replace (val (mget A' r c) - val (mget A r c)) with ((val (mget A' r c) - mget D r c) + (mget D r c - val (mget A r c))) by ring.
    eapply Rle_trans; [apply Rabs_triang|]. specialize (DA r c).
    assert (1400 * (2 * S) * (10 / 9 * K * (2 * S) + 1) * u <= 18000 * S * q).
    { replace (10 / 9 * K * (2 * S)) with (20 / 9 * k) by (unfold k; field). unfold q.
      replace (18000 * S * (k * u)) with (1400 * (2 * S) * (45 / 7 * k) * u) by field. apply Rmult_le_compat_r; [lra|].
      apply Rmult_le_compat_l; lra. }
    assert (0 <= S * q) by (apply Rmult_le_pos; lra). unfold q in *. nra.
Qed.
Lemma sum3_le a b c d : Rabs a <= d -> Rabs b <= d -> Rabs c <= d -> Rabs (a + b + c) <= 3 * d.
Proof. intros. pose proof (Rabs_triang (a + b) c). pose proof (Rabs_triang a b). lra. Qed.
Lemma within3 A W (z : flt f) X : within f 3 A (3 * eta) z X -> 0 <= A -> A <= W -> Rabs (val z - X) <= 301 / 100 * u * W + 303 / 100 * eta.
Proof.
  unfold within. intros H HA HW. pose proof (u_pos f) as UP. pose proof (u_small f) as US. pose proof (eta_pos f) as EP.
  assert (G : (1 + u) ^ 3 - 1 <= 301 / 100 * u) by (cbn [pow]; nra).
  assert (G0 : 0 <= (1 + u) ^ 3 - 1) by (cbn [pow]; nra).
  assert (((1 + u) ^ 3 - 1) * A <= 301 / 100 * u * W) by (apply Rmult_le_compat; lra).
  assert ((1 + u) ^ 3 * (3 * eta) <= 101 / 100 * (3 * eta)) by (apply Rmult_le_compat_r; lra). lra.
Qed.
Lemma row_abs_le (M : Matrix4 R) (v : Vector3 R) r m w : (forall c, Rabs (mget M r c) <= m) -> (forall i, Rabs (vcoord i v) <= w) ->
  0 <= row_abs M v r <= 3 * (m * w).
Proof.
  intros HM Hv. unfold row_abs. pose proof (mul_le _ _ _ _ (HM I0) (Hv AX)). pose proof (mul_le _ _ _ _ (HM I1) (Hv AY)).
  pose proof (mul_le _ _ _ _ (HM I2) (Hv AZ)). cbn [vcoord] in *.
  pose proof (Rabs_pos (mget M r I0 * vx v)). pose proof (Rabs_pos (mget M r I1 * vy v)). pose proof (Rabs_pos (mget M r I2 * vz v)). lra.
Qed.
Lemma block_le (M : Matrix4 R) (v : Vector3 R) r : Rabs (block_times M v r) <= row_abs M v r.
Proof. unfold block_times, row_abs. eapply Rle_trans; [apply Rabs_triang|]. pose proof (Rabs_triang (mget M r I0 * vx v) (mget M r I1 * vy v)). lra. Qed.
Lemma through_fin (t : Transform (flt f)) (v w : Vector3 (flt f)) i : v3_transform (f_float f) (fun x => x) v t = Done w ->
  is_finite (vcoord i w) = true -> forall j, is_finite (vcoord j v) = true.
Proof.
  intros [= <-] H j. assert (X : forall a b c x y z : flt f, is_finite (f_add (f_add (f_mult a x) (f_mult b y)) (f_mult c z)) = true ->
    is_finite x = true /\ is_finite y = true /\ is_finite z = true).
  { intros a b c x y z F. apply fin_add in F as (F1 & F2 & _). apply fin_add in F1 as (F1 & F3 & _).
    apply fin_mult in F1 as (_ & F1 & _). apply fin_mult in F2 as (_ & F2 & _). apply fin_mult in F3 as (_ & F3 & _). auto. }
  destruct i; cbn [vcoord vx vy vz] in H; apply X in H as (? & ? & ?); destruct j; assumption.
Qed.
Lemma there_and_back (S K V : R) (A : mat) (C : Matrix4 R) (t : Transform (flt f)) (v w x : Vector3 (flt f)) :
  bpow radix2 (-60) <= S -> S <= bpow radix2 60 ->
  (forall r c, is_finite (mget A r c) = true) -> (forall r c, Rabs (val (mget A r c)) <= S) -> (forall c, c <> I3 -> val (mget A I3 c) = 0) ->
  prodR (m_real A) C = identR -> (forall r c, Rabs (mget C r c) <= K) -> S * K * u <= 1 / 8192 ->
  t_new_ (f_float f) A = Done t -> (forall i, Rabs (val (vcoord i v)) <= V) ->
  v3_transform (f_float f) (fun x => x) v t = Done w -> v3_transform (f_float f) (fun x => x) w (t_inverse t) = Done x ->
  forall i, is_finite (vcoord i x) = true ->
  Rabs (val (vcoord i x) - val (vcoord i v)) <= 8600 * (S * K) * u * V + (18 * K + 4) * eta.
Proof.
  intros S1 S2 FA HA A3 HC HK HU Ht Hv Hw Hx i Fx.
  pose proof (bpow_gt_0 radix2 (-60)) as P60. assert (SP : 0 < S) by lra. pose proof (u_pos f) as UP. pose proof (eta_pos f) as EP.
  pose proof (u_small f) as US.
  assert (HAr : forall r c, Rabs (mget (m_real A) r c) <= S) by (intros r c; unfold m_real; rewrite mget_mkm; apply HA).
  pose proof (cond_ge S K _ _ HAr HC HK) as Kge. assert (KP : 0 < K) by nra.
  assert (VP : 0 <= V) by (eapply Rle_trans; [apply Rabs_pos|apply (Hv AX)]).
  set (k := S * K) in *. set (q := k * u) in *. assert (Q0 : 0 < q) by (apply Rmult_lt_0_compat; lra).
  destruct (inverse_bounds f S K A C S1 S2 FA HA HC HK HU) as (B & E1 & HB). fold k in HB.
  unfold t_new_ in Ht. change (m4_inverse (f_float f) A) with (m4_inverse E A) in Ht. rewrite E1 in Ht. injection Ht as <-.
  pose proof (through_fin _ _ _ _ Hx Fx) as Fw.
  assert (BB : forall r c, Rabs (mget (m_real B) r c) <= 186 / 100 * K).
  { intros r c. unfold m_real. rewrite mget_mkm. replace (val (mget B r c)) with ((val (mget B r c) - mget C r c) + mget C r c) by ring.
    eapply Rle_trans; [apply Rabs_triang|]. destruct (HB r c) as (_ & _ & H). specialize (HK r c).
    assert (1400 * K * (k + 1) * u <= 7000 * q * K).
    { replace (7000 * q * K) with (1400 * K * (5 * k) * u) by (unfold q; ring). apply Rmult_le_compat_r; [lra|]. apply Rmult_le_compat_l; lra. }
    assert (7000 * q * K <= 86 / 100 * K) by (apply Rmult_le_compat_r; lra). lra. }
  assert (Hvr : forall j, Rabs (vcoord j (v_real v)) <= V) by (intros []; apply (Hv AX) || apply (Hv AY) || apply (Hv AZ)).
  assert (D1 : forall j, Rabs (val (vcoord j w) - block_times (m_real A) (v_real v) (axis_ix j)) <= 301 / 100 * u * (3 * (S * V)) + 303 / 100 * eta).
  { intros j. pose proof (row_abs_le (m_real A) (v_real v) (axis_ix j) S V (HAr _) Hvr) as RA.
    cbn [t_m] in *. apply (within3 _ _ _ _ (transform_err f _ _ _ j Hw (Fw j))); apply RA. }
  assert (SV : 0 <= S * V) by (apply Rmult_le_pos; lra).
  set (d1 := 301 / 100 * u * (3 * (S * V)) + 303 / 100 * eta) in *.
  assert (W : forall j, Rabs (vcoord j (v_real w)) <= 301 / 100 * (S * V) + 303 / 100 * eta).
  { intros j. assert (EW : vcoord j (v_real w) = val (vcoord j w)) by (destruct j; reflexivity). rewrite EW.
    replace (val (vcoord j w)) with ((val (vcoord j w) - block_times (m_real A) (v_real v) (axis_ix j)) + block_times (m_real A) (v_real v) (axis_ix j)) by ring.
    eapply Rle_trans; [apply Rabs_triang|]. specialize (D1 j). pose proof (block_le (m_real A) (v_real v) (axis_ix j)).
    pose proof (row_abs_le (m_real A) (v_real v) (axis_ix j) S V (HAr _) Hvr).
    assert (301 / 100 * u * (3 * (S * V)) <= 1 / 100 * (S * V)) .
    { assert ((903 / 100 * u) * (S * V) <= 1 / 100 * (S * V)) by (apply Rmult_le_compat_r; lra). clearbody k q d1. lra. }
    unfold d1 in D1. lra. }
  set (ww := 301 / 100 * (S * V) + 303 / 100 * eta) in *.
  assert (D2 : Rabs (val (vcoord i x) - block_times (m_real B) (v_real w) (axis_ix i)) <= 301 / 100 * u * (3 * (186 / 100 * K * ww)) + 303 / 100 * eta).
  { pose proof (row_abs_le (m_real B) (v_real w) (axis_ix i) (186 / 100 * K) ww (BB _) W) as RA.
    apply (within3 _ _ _ _ (transform_err f _ _ _ i Hx Fx)); apply RA. }
  (* the exact images *)
  set (y j := block_times (m_real A) (v_real v) (axis_ix j)) in *.
  assert (D3 : Rabs (block_times (m_real B) (v_real w) (axis_ix i) - block_times (m_real B) (V3 (y AX) (y AY) (y AZ)) (axis_ix i)) <= 3 * (186 / 100 * K * d1)).
  { unfold block_times; cbn [vx vy vz v_real].
    match goal with |- Rabs ?e <= _ => replace e with (mget (m_real B) (axis_ix i) I0 * (val (vcoord AX w) - y AX) + mget (m_real B) (axis_ix i) I1 * (val (vcoord AY w) - y AY)
      + mget (m_real B) (axis_ix i) I2 * (val (vcoord AZ w) - y AZ)) by (cbn [vcoord]; ring) end.
    apply sum3_le; apply mul_le; apply BB || apply D1. }
  assert (D4 : Rabs (block_times (m_real B) (V3 (y AX) (y AY) (y AZ)) (axis_ix i) - val (vcoord i v)) <= 3 * (2800 * q * V)).
  { assert (R3 : forall c, c <> I3 -> Rabs (mget (m_real B) (axis_ix i) I0 * mget (m_real A) I0 c + mget (m_real B) (axis_ix i) I1 * mget (m_real A) I1 c
        + mget (m_real B) (axis_ix i) I2 * mget (m_real A) I2 c - mget identR (axis_ix i) c) <= 2800 * q).
    { intros c Hc. destruct (HB (axis_ix i) c) as (_ & H & _). replace (2800 * q) with (2800 * k * u) by (unfold q; ring).
      eapply Rle_trans; [|exact H]. right. f_equal. f_equal. unfold prodR, prod_of. rewrite mget_mkm. unfold MatSpec.sum4.
      assert (Z : mget (m_real A) I3 c = 0) by (unfold m_real; rewrite mget_mkm; now apply A3). rewrite Z. ring. }
    pose proof (mul_le _ _ _ _ (R3 I0 ltac:(discriminate)) (Hvr AX)) as T0. pose proof (mul_le _ _ _ _ (R3 I1 ltac:(discriminate)) (Hvr AY)) as T1.
    pose proof (mul_le _ _ _ _ (R3 I2 ltac:(discriminate)) (Hvr AZ)) as T2. 
    match goal with |- Rabs ?e <= _ => assert (EQ : e = (mget (m_real B) (axis_ix i) I0 * mget (m_real A) I0 I0 + mget (m_real B) (axis_ix i) I1 * mget (m_real A) I1 I0
        + mget (m_real B) (axis_ix i) I2 * mget (m_real A) I2 I0 - mget identR (axis_ix i) I0) * vcoord AX (v_real v) +
       (mget (m_real B) (axis_ix i) I0 * mget (m_real A) I0 I1 + mget (m_real B) (axis_ix i) I1 * mget (m_real A) I1 I1
        + mget (m_real B) (axis_ix i) I2 * mget (m_real A) I2 I1 - mget identR (axis_ix i) I1) * vcoord AY (v_real v) +
       (mget (m_real B) (axis_ix i) I0 * mget (m_real A) I0 I2 + mget (m_real B) (axis_ix i) I1 * mget (m_real A) I1 I2
        + mget (m_real B) (axis_ix i) I2 * mget (m_real A) I2 I2 - mget identR (axis_ix i) I2) * vcoord AZ (v_real v)) end.
    { unfold y, block_times, identR, ident_of, v_real. rewrite !mget_mkm. destruct i; cbn [vx vy vz vcoord axis_ix ix_eqb]; ring. }
    rewrite EQ. now apply sum3_le. }
  replace (val (vcoord i x) - val (vcoord i v)) with ((val (vcoord i x) - block_times (m_real B) (v_real w) (axis_ix i)) +
    (block_times (m_real B) (v_real w) (axis_ix i) - block_times (m_real B) (V3 (y AX) (y AY) (y AZ)) (axis_ix i)) +
    (block_times (m_real B) (V3 (y AX) (y AY) (y AZ)) (axis_ix i) - val (vcoord i v))) by ring.
  eapply Rle_trans; [apply Rabs_triang|]. pose proof (Rabs_triang (val (vcoord i x) - block_times (m_real B) (v_real w) (axis_ix i))
    (block_times (m_real B) (v_real w) (axis_ix i) - block_times (m_real B) (V3 (y AX) (y AY) (y AZ)) (axis_ix i))).
  assert (X1 : 301 / 100 * u * (3 * (186 / 100 * K * ww)) <= 60 * q * V + 1 / 2 * K * eta).
  { unfold ww, q, k. replace (301 / 100 * u * (3 * (186 / 100 * K * (301 / 100 * (S * V) + 303 / 100 * eta)))) with
      ((301 / 100 * 3 * (186 / 100) * (301 / 100)) * (S * K * u * V) + ((301 / 100 * 3 * (186 / 100) * (303 / 100)) * u) * (K * eta)) by ring.
    assert (0 <= S * K * u * V) by (repeat apply Rmult_le_pos; lra). assert (0 <= K * eta) by (apply Rmult_le_pos; lra).
    assert ((301 / 100 * 3 * (186 / 100) * (303 / 100)) * u * (K * eta) <= 1 / 2 * (K * eta)) by (apply Rmult_le_compat_r; lra). lra. }
  assert (X2 : 3 * (186 / 100 * K * d1) <= 60 * q * V + 17 * K * eta).
  { unfold d1, q, k. replace (3 * (186 / 100 * K * (301 / 100 * u * (3 * (S * V)) + 303 / 100 * eta))) with
      ((3 * (186 / 100) * (301 / 100) * 3) * (S * K * u * V) + (3 * (186 / 100) * (303 / 100)) * (K * eta)) by ring.
    assert (0 <= S * K * u * V) by (repeat apply Rmult_le_pos; lra). assert (0 <= K * eta) by (apply Rmult_le_pos; lra). lra. }
  assert (0 <= q * V) by (apply Rmult_le_pos; lra). assert (0 <= K * eta) by (apply Rmult_le_pos; lra).
  replace (8600 * k * u * V) with (8600 * (q * V)) by (unfold q; ring). replace (3 * (2800 * q * V)) with (8400 * (q * V)) in D4 by ring. lra.
Qed.
End Back.
