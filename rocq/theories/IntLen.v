(** Proofs for C137: lengths of vectors of integers. *)
From Coq Require Import ZArith Reals Lia Lra Bool.
From Flocq Require Import Core.Core IEEE754.BinarySingleNaN Relative.
From Verif Require Import Base Elem FloatInst GeoModel GeoSpec ArithSpec OpsSpec FloatErrSpec LenSpec.
From Verif Require Import FloatUnit FloatAxes OrderProofs FloatCore FloatThms FloatErr FloatMono FloatLerp OpsThms IntThms TransVec FloatLen.
Local Open Scope R_scope.

Lemma arith_out z : in_range z = false -> arith true z = Panic. Proof. intros H. unfold arith. now rewrite H. Qed.
Lemma arith_in chk z : in_range z = true -> arith chk z = Done z. Proof. intros H. unfold arith. now rewrite H. Qed.
Lemma sq_in z y : (0 <= z <= y)%Z -> in_range y = true -> in_range z = true.
Proof. rewrite !range_iff. lia. Qed.
Lemma in_range_lt z : (0 <= z)%Z -> (in_range z = true <-> (z < 2 ^ 63)%Z).
Proof. rewrite range_iff. lia. Qed.
Lemma len_sq_fits chk v : (dotZ v v < 2 ^ 63)%Z -> v3_len_sq (i64 chk) v = Done (dotZ v v).
Proof.
  intros H. assert (R : in_range (dotZ v v) = true) by (apply in_range_lt; [unfold dotZ; nia|exact H]).
  unfold v3_len_sq. cbn [i64 e_mul e_add obind lift2]. unfold dotZ in *.
  pose proof (Z.square_nonneg (vx v)) as X. pose proof (Z.square_nonneg (vy v)) as Y. pose proof (Z.square_nonneg (vz v)) as Z0.
  rewrite (arith_in chk (vx v * vx v)) by (apply in_range_lt; lia). rewrite (arith_in chk (vy v * vy v)) by (apply in_range_lt; lia). cbn [obind lift2].
  rewrite (arith_in chk (vx v * vx v + vy v * vy v)) by (apply in_range_lt; lia). rewrite (arith_in chk (vz v * vz v)) by (apply in_range_lt; lia). cbn [obind lift2].
  now rewrite arith_in.
Qed.
Lemma len_panic f v : v3_len (f_float f) (i64 true) (f_of_int f) v = Panic <-> (2 ^ 63 <= dotZ v v)%Z.
Proof.
  split; intros H.
  - destruct (Z_lt_le_dec (dotZ v v) (2 ^ 63)) as [C|C]; [|exact C]. unfold v3_len in H. rewrite len_sq_fits in H by exact C. discriminate.
  - unfold v3_len. replace (v3_len_sq (i64 true) v) with (@Panic Z); [reflexivity|]. symmetry.
    assert (N : in_range (dotZ v v) = false).
    { apply not_true_iff_false. rewrite in_range_lt by (unfold dotZ; nia). lia. }
    unfold v3_len_sq. cbn [i64 e_mul e_add obind lift2]. unfold dotZ in *. unfold arith.
    repeat (match goal with |- context [in_range ?z] => destruct (in_range z) eqn:?; cbn [obind lift2]; try reflexivity end). congruence.
Qed.
Section L.
Context (f : fmt).
Notation u := (half_ulp f).
Notation emin := (SpecFloat.emin (fprec f) (femax f)).
Lemma int_not_small z : (0 < z)%Z -> bpow radix2 (emin + fprec f - 1) <= Rabs (IZR z).
Proof.
  intros H. rewrite Rabs_pos_eq by (apply IZR_le; lia). apply Rle_trans with (bpow radix2 0); [apply bpow_le; destruct f; vm_compute; discriminate|].
  cbn. apply IZR_le. lia.
Qed.
Lemma rel x : bpow radix2 (emin + fprec f - 1) <= Rabs x -> exists d, Rabs d <= u /\ rnd f x = x * (1 + d).
Proof.
  intros H. destruct (relative_error_N_FLT_ex radix2 emin (fprec f) (fprec_gt_0 f) (fun z => negb (Z.even z)) x H) as (d & Hd & E).
  exists d. split; [|exact E]. replace u with (/ 2 * bpow radix2 (- fprec f + 1)); [exact Hd|].
  unfold half_ulp. rewrite bpow_plus. change (bpow radix2 1) with 2. field.
Qed.
(** The length is that of the exact sum of squares, rounded twice. *)
Lemma len_value chk v : (dotZ v v < 2 ^ 63)%Z -> exists l, v3_len (f_float f) (i64 chk) (f_of_int f) v = Done l /\ is_finite l = true /\
  B2R l = nearest f (sqrt (nearest f (IZR (dotZ v v)))).
Proof.
  intros H. unfold v3_len. rewrite len_sq_fits by exact H. cbn [obind lift2].
  assert (Hr : in_range (dotZ v v) = true) by (apply in_range_lt; [unfold dotZ; nia|exact H]).
  destruct (of_int_correct f _ Hr) as [F1 R1]. eexists. split; [reflexivity|].
  destruct (sqrt_correct f (f_of_int f (dotZ v v))) as [F2 R2]; auto.
  - split; [now apply fin_nan|]. rewrite key_finite, R1 by auto. apply (rnd_nonneg f). apply IZR_le. unfold dotZ. nia.
  - split; auto. now rewrite R2, R1.
Qed.
Lemma twice n : (0 <= n)%Z -> Rabs (rnd f (sqrt (rnd f (IZR n))) - sqrt (IZR n)) <= 2 * u * sqrt (IZR n).
Proof.
  intros H. pose proof (u_pos f) as U0. pose proof (u_small f) as U1. destruct (Z.eq_dec n 0) as [->|NZ].
  - rewrite (rnd_id f 0) by apply generic_format_0. rewrite sqrt_0, (rnd_id f 0) by apply generic_format_0. rewrite Rminus_0_r, Rabs_R0. lra.
  - destruct (rel (IZR n)) as (d & Hd & E); [apply int_not_small; lia|]. rewrite E. apply Rabs_le_inv in Hd.
    assert (N : 1 <= IZR n) by (apply IZR_le; lia). set (x := sqrt (IZR n)).
    assert (X : 1 <= x) by (rewrite <- sqrt_1; apply sqrt_le_1_alt; exact N).
    rewrite sqrt_mult_alt by lra. fold x. set (s := sqrt (1 + d)).
    assert (SS : s * s = 1 + d) by (apply sqrt_sqrt; lra). assert (S0 : 0 <= s) by apply sqrt_pos.
    assert (S1 : 1 - u <= s <= 1 + u / 2) by (split; nra).
    destruct (rel (x * s)) as (e & He & E2).
    { rewrite Rabs_pos_eq by nra. apply Rle_trans with (bpow radix2 (-1)); [apply bpow_le; destruct f; vm_compute; discriminate|].
      change (bpow radix2 (-1)) with (/ 2). nra. }
    rewrite E2. apply Rabs_le_inv in He.
    assert (P : (1 - u) * (1 - u) <= s * (1 + e) <= (1 + u / 2) * (1 + u)) by (split; apply Rmult_le_compat; lra).
    replace (x * s * (1 + e) - x) with (x * (s * (1 + e) - 1)) by ring. rewrite Rabs_mult, (Rabs_pos_eq x) by lra.
    rewrite (Rmult_comm (2 * u)). apply Rmult_le_compat_l; [lra|]. apply Rabs_le. nra.
Qed.
Lemma len_near chk v : (dotZ v v < 2 ^ 63)%Z -> exists l, v3_len (f_float f) (i64 chk) (f_of_int f) v = Done l /\ is_finite l = true /\
  Rabs (B2R l - sqrt (IZR (dotZ v v))) <= 2 * u * sqrt (IZR (dotZ v v)).
Proof.
  intros H. destruct (len_value chk v H) as (l & E & F & R). exists l. split; [exact E|]. split; [exact F|]. rewrite R. apply twice. unfold dotZ. nia.
Qed.
(** A whole length is exact, even if its square is not a float. *)
Lemma len_whole chk v k : (0 <= k)%Z -> dotZ v v = (k * k)%Z -> (k * k < 2 ^ 63)%Z -> (k <= 2 ^ fprec f)%Z ->
  exists l, v3_len (f_float f) (i64 chk) (f_of_int f) v = Done l /\ is_finite l = true /\ B2R l = IZR k.
Proof.
  intros K E H P. destruct (len_value chk v ltac:(lia)) as (l & El & F & R). exists l. split; [exact El|]. split; [exact F|]. rewrite R, E, mult_IZR.
  assert (G : fmt_real f (IZR k)).
  { destruct (Z.eq_dec k (2 ^ fprec f)) as [->|NK].
    - replace (IZR (2 ^ fprec f)) with (bpow radix2 (fprec f)) by (destruct f; reflexivity). apply generic_format_bpow. destruct f; vm_compute; discriminate.
    - apply generic_format_FLT. exists (Float radix2 k 0); [unfold F2R; cbn; lra| |destruct f; vm_compute; discriminate].
      cbn. rewrite Z.abs_eq by exact K. destruct f; cbn in *; lia. }
  destruct (Z.eq_dec k 0) as [->|NZ].
  - rewrite Rmult_0_l. change (nearest f) with (rnd f). rewrite (rnd_id f 0) by apply generic_format_0. rewrite sqrt_0. apply rnd_id. exact G.
  - apply (sqrt_sq_pos f); [exact G|]. apply Rle_trans with (bpow radix2 0); [apply bpow_le; destruct f; vm_compute; discriminate|]. cbn. apply IZR_le. lia.
Qed.
Lemma len_order chk v w : (dotZ v v <= dotZ w w < 2 ^ 63)%Z -> exists l m, v3_len (f_float f) (i64 chk) (f_of_int f) v = Done l /\
  v3_len (f_float f) (i64 chk) (f_of_int f) w = Done m /\ Bleb l m = true.
Proof.
  intros H. destruct (len_value chk v ltac:(lia)) as (l & El & Fl & Rl). destruct (len_value chk w ltac:(lia)) as (m & Em & Fm & Rm).
  exists l, m. split; [exact El|]. split; [exact Em|]. rewrite Bleb_correct by assumption. apply Rle_bool_true. rewrite Rl, Rm.
  apply (rnd_le f), sqrt_le_1_alt, (rnd_le f), IZR_le. lia.
Qed.
(** Without overflow checks the square is taken modulo 2^64. *)
Lemma len_wrapped v : vec_range v -> exists l, v3_len (f_float f) (i64 false) (f_of_int f) v = Done l /\
  if (wrap (dotZ v v) <? 0)%Z then is_nan l = true
  else is_finite l = true /\ B2R l = nearest f (sqrt (nearest f (IZR (wrap (dotZ v v))))).
Proof.
  intros Hv. unfold v3_len. pose proof (len_sq_exact false v Hv) as E. cbn [exactly] in E. rewrite E. cbn [obind].
  eexists. split; [reflexivity|]. set (z := wrap (dotZ v v)).
  assert (Hr : in_range z = true) by apply wrap_range.
  destruct (of_int_correct f _ Hr) as [F1 R1].
  destruct (Z.ltb_spec z 0) as [C|C].
  - cbn [fl_sqrt f_float]. 
    assert (N : B2R (f_of_int f z) < 0).
    { rewrite R1. change (nearest f) with (rnd f). destruct (rel (IZR z)) as (d & Hd & ->).
      { rewrite <- Rabs_Ropp, <- opp_IZR. apply int_not_small. lia. }
      apply Rabs_le_inv in Hd. pose proof (u_small f). assert (IZR z < 0) by (apply IZR_lt; exact C). nra. }
    destruct (f_of_int f z) as [s|s| |s m e Hb]; cbn in N, F1; try lra; try discriminate.
    destruct s; [reflexivity|]. exfalso. assert (0 < F2R (Float radix2 (Zpos m) e)) by (apply F2R_gt_0; reflexivity). cbn in *; lra.
  - destruct (sqrt_correct f (f_of_int f z)) as [F2 R2]; auto.
    + split; [now apply fin_nan|]. rewrite key_finite, R1 by auto. apply (rnd_nonneg f). apply IZR_le. exact C.
    + split; auto. now rewrite R2, R1.
Qed.
End L.
(** (4097, 1, 1): the square is rounded up to 4097^2 + 3 before the root is taken; 4097 would be nearer. *)
Lemma len_inexact : exists v (l y : flt F32), vec_range v /\ (dotZ v v < 2 ^ 63)%Z /\
  v3_len (f_float F32) (i64 true) (f_of_int F32) v = Done l /\ is_finite l = true /\ is_finite y = true /\
  Rabs (B2R y - sqrt (IZR (dotZ v v))) < Rabs (B2R l - sqrt (IZR (dotZ v v))).
Proof.
  exists (V3 4097 1 1)%Z. eexists. exists (f_of_int F32 4097). split; [intros []; reflexivity|]. split; [reflexivity|]. split; [reflexivity|].
  match goal with |- is_finite ?l = _ /\ _ => assert (E : B2SF l = SpecFloat.S754_finite false 8390657 (-11)) by (vm_compute; reflexivity); set (x := l) in * end.
  split; [rewrite <- is_finite_SF_B2SF, E; reflexivity|]. split; [reflexivity|].
  rewrite <- (SF2R_B2SF _ _ x), E. replace (B2R (f_of_int F32 4097)) with 4097.
  2: { assert (E' : B2SF (f_of_int F32 4097) = SpecFloat.S754_finite false 8390656 (-11)) by (vm_compute; reflexivity).
       rewrite <- (SF2R_B2SF _ _ (f_of_int F32 4097)), E'. cbn [SF2R cond_Zopp]. unfold F2R. cbn [Fnum Fexp]. change (bpow radix2 (-11)) with (/ 2048). lra. }
  cbn [SF2R cond_Zopp]. unfold F2R. cbn [Fnum Fexp]. change (bpow radix2 (-11)) with (/ 2048). change (dotZ (V3 4097 1 1) (V3 4097 1 1))%Z with 16785411%Z.
  set (s := sqrt 16785411). assert (S0 : 0 <= s) by apply sqrt_pos. assert (SS : s * s = 16785411) by (apply sqrt_sqrt; lra).
  assert (S1 : 4097 < s) by nra. assert (S2 : s < 4097 + / 4096) by nra.
  rewrite Rabs_left, Rabs_pos_eq by lra. lra.
Qed.
Lemma n_len f chk n : n3_len (f_float f) (i64 chk) (f_of_int f) n = v3_len (f_float f) (i64 chk) (f_of_int f) (V3 (nx n) (ny n) (nz n)).
Proof. reflexivity. Qed.
