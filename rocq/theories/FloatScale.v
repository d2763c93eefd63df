(** Proofs about C87: has_scale in floats. *)
From Coq Require Import ZArith Reals Lia Lra.
From Flocq Require Import Core.Core IEEE754.BinarySingleNaN.
From Verif Require Import Base Elem FloatInst ExactInst GeoModel MatModel GeoSpec ArithSpec MatSpec OpsSpec FloatErrSpec OrderProofs MatThms FloatCore FloatThms FloatErr FloatErrThms.
Local Open Scope mon_scope.
Local Open Scope R_scope.

Section S.
Context (f : fmt).
Notation one := (f_of_int f 1).
Notation zero := (f_of_int f 0).
Notation u := (half_ulp f).
Notation eta := (half_tiny f).
(** Not negative and not a NaN. *)
Definition nn (x : flt f) : Prop := x = B754_infinity false \/ (is_finite x = true /\ 0 <= B2R x).
Lemma nn_add x y : nn x -> nn y -> nn (f_add x y).
Proof.
  intros [->|[Fx Hx]] [->|[Fy Hy]].
  - left. reflexivity.
  - left. destruct y; try discriminate; reflexivity.
  - left. destruct x; try discriminate; reflexivity.
  - destruct (add_key f x y Fx Fy) as (N & K & Q).
    pose proof (rnd_nonneg f (B2R x + B2R y) ltac:(lra)) as P.
    destruct (Rlt_bool_spec (Rabs (rnd f (B2R x + B2R y))) (big f)) as [L|L].
    + right. split; [exact Q|]. rewrite key_finite, sat_in in K by assumption. now rewrite K.
    + left. rewrite Rabs_pos_eq in L by exact P. rewrite sat_hi in K by exact L. pose proof (big_pos f).
      destruct (f_add x y) as [|[]| |]; try discriminate; cbn in K; try reflexivity. exfalso. lra.
Qed.
Lemma nn_sq x : is_finite x = true -> nn (f_mult x x).
Proof.
  intros Fx. destruct (mult_key f x x Fx Fx) as (N & K & Q).
  pose proof (rnd_nonneg f (B2R x * B2R x) ltac:(apply Rle_0_sqr)) as P.
  destruct (Rlt_bool_spec (Rabs (rnd f (B2R x * B2R x))) (big f)) as [L|L].
  - right. split; [exact Q|]. rewrite key_finite, sat_in in K by assumption. now rewrite K.
  - left. rewrite Rabs_pos_eq in L by exact P. rewrite sat_hi in K by exact L. pose proof (big_pos f).
    destruct (f_mult x x) as [|[]| |]; try discriminate; cbn in K; try reflexivity. exfalso. lra.
Qed.
(** Small sums of squares do not overflow. *)
Definition upto (n : Z) (x : flt f) : Prop := is_finite x = true /\ 0 <= B2R x <= bpow radix2 n.
Lemma rnd_upto n r : (0 <= n < 10)%Z -> 0 <= r <= bpow radix2 n -> 0 <= rnd f r <= bpow radix2 n /\ Rabs (rnd f r) < big f.
Proof.
  intros Hn [H0 H1]. pose proof (rnd_nonneg f r H0) as P. assert (U : rnd f r <= bpow radix2 n).
  { rewrite <- (rnd_id f (bpow radix2 n)); [now apply rnd_le|]. apply generic_format_bpow. unfold SpecFloat.fexp, SpecFloat.emin.
    destruct f; cbn [fprec femax] in *; lia. }
  split; [now split|]. rewrite Rabs_pos_eq by exact P. apply Rle_lt_trans with (1 := U). unfold big. apply bpow_lt. destruct f; cbn [femax]; lia.
Qed.
Lemma upto_add n x y : (0 <= n < 9)%Z -> upto n x -> upto n y -> upto (n + 1) (f_add x y).
Proof.
  intros Hn [Fx Hx] [Fy Hy]. destruct (add_key f x y Fx Fy) as (_ & K & Q).
  destruct (rnd_upto (n + 1) (B2R x + B2R y)) as [U1 U2]; [lia|rewrite bpow_plus_1; cbn [radix_val radix2]; lra|].
  rewrite Rlt_bool_true in Q by exact U2. split; [exact Q|]. now rewrite key_finite, sat_in in K by assumption; rewrite K.
Qed.
Lemma upto_sq n x : (0 <= n < 9)%Z -> is_finite x = true -> B2R x * B2R x <= bpow radix2 n -> upto n (f_mult x x).
Proof.
  intros Hn Fx Hx. destruct (mult_key f x x Fx Fx) as (_ & K & Q).
  destruct (rnd_upto n (B2R x * B2R x)) as [U1 U2]; [lia|split; [apply Rle_0_sqr|exact Hx]|].
  rewrite Rlt_bool_true in Q by exact U2. split; [exact Q|]. now rewrite key_finite, sat_in in K by assumption; rewrite K.
Qed.
(** The two bounds of [not_one]. *)
Lemma of_int_val n : (0 <= n <= 2 ^ 20)%Z -> isv f (f_of_int f n) (IZR n).
Proof.
  intros Hn. destruct (int_correct f n) as [V F].
  { apply Z.le_trans with (2 ^ 20)%Z; [lia|]. apply Z.pow_le_mono_r; destruct f; cbn; lia. }
  now split.
Qed.
Lemma eta_tiny : eta <= 1 / 1000000000000.
Proof.
  unfold half_tiny. assert (bpow radix2 (3 - femax f - fprec f) <= bpow radix2 (-40)) by (apply bpow_le; destruct f; cbn; lia).
  change (bpow radix2 (-40)) with (/ IZR 1099511627776) in H. lra.
Qed.
Lemma bound_val n : (999 <= n <= 1001)%Z -> is_finite (f_div (f_of_int f n) (f_of_int f 1000)) = true /\
  Rabs (B2R (f_div (f_of_int f n) (f_of_int f 1000)) - IZR n / 1000) <= 1 / 10000000.
Proof.
  intros Hn. destruct (of_int_val n ltac:(lia)) as [Fn Vn]. destruct (of_int_val 1000 ltac:(lia)) as [Fk Vk].
  assert (Hr : 999 <= IZR n <= 1001) by (split; apply IZR_le; lia).
  destruct (div_key f _ _ Fn Fk ltac:(lra)) as (_ & K & Q). rewrite Vn, Vk in K, Q.
  destruct (rnd_upto 1 (IZR n / 1000)) as [U1 U2]; [lia|change (bpow radix2 1) with 2; lra|].
  rewrite Rlt_bool_true in Q by exact U2. split; [exact Q|]. rewrite key_finite, sat_in in K by assumption. rewrite K.
  destruct (rnd_any f (IZR n / 1000)) as (d & e & Hd & He & ->). pose proof (u_small f) as Us. pose proof (eta_tiny) as Es.
  apply Rabs_le_inv in Hd, He. apply Rabs_le. nra.
Qed.
Lemma lo_val : is_finite (fl_0999 (f_float f)) = true /\ Rabs (B2R (fl_0999 (f_float f)) - 999 / 1000) <= 1 / 10000000.
Proof. apply (bound_val 999). lia. Qed.
Lemma hi_val : is_finite (fl_1001 (f_float f)) = true /\ Rabs (B2R (fl_1001 (f_float f)) - 1001 / 1000) <= 1 / 10000000.
Proof. apply (bound_val 1001). lia. Qed.
Lemma len_sq_dec (v : Vector3 (flt f)) : vfinite v -> exists d, v3_len_sq (f_elem f) v = Done d /\
  (Rabs (dotR (v_real v) (v_real v) - 1) <= 999 / 1000000 -> not_one (f_float f) d = false) /\
  (1001 / 1000000 < Rabs (dotR (v_real v) (v_real v) - 1) -> not_one (f_float f) d = true).
Proof.
  intros Fv. pose proof (Fv AX) as Fx. pose proof (Fv AY) as Fy. pose proof (Fv AZ) as Fz. cbn [vcoord] in *.
  eexists. split; [reflexivity|].
  match goal with |- context [not_one _ ?d] => set (D := d) end.
  assert (ND : nn D) by (apply nn_add; [apply nn_add|]; now apply nn_sq).
  set (X := dotR (v_real v) (v_real v)). assert (PX : 0 <= X) by (unfold X, dotR; nra).
  destruct lo_val as [Fl Vl], hi_val as [Fh Vh]. apply Rabs_le_inv in Vl, Vh.
  assert (FX : X <= 2 -> is_finite D = true).
  { intros LX. assert (S : forall a, a = vx v \/ a = vy v \/ a = vz v -> is_finite a = true -> upto 1 (f_mult a a)).
    { intros a Ha Fa. apply upto_sq; [lia|exact Fa|]. change (bpow radix2 1) with 2. unfold X, dotR, v_real in LX. cbn [vx vy vz] in LX.
      pose proof (Rle_0_sqr (B2R (vx v))). pose proof (Rle_0_sqr (B2R (vy v))). pose proof (Rle_0_sqr (B2R (vz v))). unfold Rsqr in *.
      destruct Ha as [->|[->| ->]]; lra. }
    assert (upto 2 (f_mult (vz v) (vz v))).
    { destruct (S (vz v) ltac:(auto) Fz) as [Fs Vs]. split; [exact Fs|]. change (bpow radix2 1) with 2 in Vs. change (bpow radix2 2) with 4. lra. }
    apply (upto_add 2); [lia| |assumption]. apply (upto_add 1); [lia|apply S; auto|apply S; auto]. }
  unfold not_one. cbn [e_lt f_float fl_elem f_elem]. change (fl_elem (f_float f)) with (f_elem f) in *.
  destruct ND as [Di|[FD PD]].
  - split; intros HX.
    + exfalso. apply Rabs_le_inv in HX. rewrite Di in FX. specialize (FX ltac:(lra)). discriminate.
    + rewrite Di. apply Bool.orb_true_iff. right. destruct (fl_1001 (f_float f)) as [| | |[]]; try discriminate; reflexivity.
  - pose proof (len_sq_err f v D eq_refl FD) as W. unfold within in W. fold X in W.
    pose proof (small_power f 3 ltac:(lia)) as P3. pose proof (u_small f) as Us. pose proof (u_pos f) as Up. pose proof (eta_tiny) as Es. pose proof (eta_pos f) as Ep.
    replace (INR 3 + 1) with 4 in P3 by (cbn; lra).
    assert (W' : Rabs (B2R D - X) <= X / 4000000 + 1 / 100000000).
    { apply Rle_trans with (1 := W). apply Rplus_le_compat.
      - unfold Rdiv. rewrite Rmult_comm. apply Rmult_le_compat_l; [exact PX|]. lra.
      - assert (Q : (1 + u) ^ 3 * (3 * eta) <= 2 * (3 * eta)) by (apply Rmult_le_compat_r; lra). lra. }
    rewrite !Bltb_correct by assumption.
    apply Rabs_le_inv in W'. split; intros HX.
    + apply Rabs_le_inv in HX. rewrite !Rlt_bool_false by lra. reflexivity.
    + apply Bool.orb_true_iff. destruct (Rle_or_lt X 1) as [L|L].
      * left. apply Rlt_bool_true. rewrite Rabs_left1 in HX by lra. lra.
      * right. apply Rlt_bool_true. rewrite Rabs_pos_eq in HX by lra. lra.
Qed.
(** The columns. *)
Definition column (m : Matrix4 (flt f)) (j : ix) : Vector3 (flt f) := V3 (mget m I0 j) (mget m I1 j) (mget m I2 j).
Definition unit_f (j : ix) : Vector3 (flt f) :=
  V3 (f_of_int f (if ix_eqb I0 j then 1 else 0)) (f_of_int f (if ix_eqb I1 j then 1 else 0)) (f_of_int f (if ix_eqb I2 j then 1 else 0)).
Lemma column_of t j : j <> I3 -> (forall r c, r <> I3 -> c <> I3 -> is_finite (mget (t_m t) r c) = true) ->
  exists w, v3_transform (f_float f) (fun x => x) (unit_f j) t = Done w /\ vfinite w /\ v_real w = v_real (column (t_m t) j).
Proof.
  intros Hj Fm. eexists. split; [reflexivity|].
  assert (A : forall x y s, isv f x s -> isv f y 0 -> isv f (f_add x y) s).
  { intros x y s X Y. replace s with (s + 0) by ring. destruct X as [FX <-]. apply isv_add; [now split|assumption|rewrite Rplus_0_r; apply fmt_B|rewrite Rplus_0_r; apply B2R_big]. }
  assert (A' : forall x y s, isv f x 0 -> isv f y s -> isv f (f_add x y) s).
  { intros x y s X Y. replace s with (0 + s) by ring. destruct Y as [FY <-]. apply isv_add; [assumption|now split|rewrite Rplus_0_l; apply fmt_B|rewrite Rplus_0_l; apply B2R_big]. }
  assert (R : forall r, r <> I3 -> isv f
     (f_add (f_add (f_mult (mget (t_m t) r I0) (f_of_int f (if ix_eqb I0 j then 1 else 0)))
                   (f_mult (mget (t_m t) r I1) (f_of_int f (if ix_eqb I1 j then 1 else 0))))
            (f_mult (mget (t_m t) r I2) (f_of_int f (if ix_eqb I2 j then 1 else 0)))) (B2R (mget (t_m t) r j))).
  { intros r Hr. assert (V : forall c, c <> I3 -> isv f (mget (t_m t) r c) (B2R (mget (t_m t) r c))) by (intros c Hc; split; auto).
    pose proof (isv_times f _ _ (ix_eqb I0 j) (V I0 ltac:(discriminate))) as T0.
    pose proof (isv_times f _ _ (ix_eqb I1 j) (V I1 ltac:(discriminate))) as T1.
    pose proof (isv_times f _ _ (ix_eqb I2 j) (V I2 ltac:(discriminate))) as T2.
    destruct j; try congruence; cbn [ix_eqb] in *; auto. }
  pose proof (R I0 ltac:(discriminate)) as [F0 V0]. pose proof (R I1 ltac:(discriminate)) as [F1 V1]. pose proof (R I2 ltac:(discriminate)) as [F2 V2].
  split; [intros []; assumption|]. unfold v_real, column. cbn [vx vy vz]. f_equal; assumption.
Qed.
Definition real_t (t : Transform (flt f)) : Transform R := mkT (m_real (t_m t)) (m_real (t_inv t)).
Lemma column_sq t j : dotR (v_real (column (t_m t) j)) (v_real (column (t_m t) j)) = col_sq (real_t t) j.
Proof. unfold dotR, col_sq, column, v_real, real_t, m_real. cbn [vx vy vz t_m]. rewrite !mget_mkm. ring. Qed.
Lemma column_dec t j : j <> I3 -> (forall r c, r <> I3 -> c <> I3 -> is_finite (mget (t_m t) r c) = true) ->
  exists w d, v3_transform (f_float f) (fun x => x) (unit_f j) t = Done w /\ v3_len_sq (f_elem f) w = Done d /\
  (Rabs (col_sq (real_t t) j - 1) <= 999 / 1000000 -> not_one (f_float f) d = false) /\
  (1001 / 1000000 < Rabs (col_sq (real_t t) j - 1) -> not_one (f_float f) d = true).
Proof.
  intros Hj Fm. destruct (column_of t j Hj Fm) as (w & Ew & Fw & Vw). destruct (len_sq_dec w Fw) as (d & Ed & H).
  rewrite Vw, column_sq in H. exists w, d. auto.
Qed.
Lemma has_scale_f t : (forall r c, r <> I3 -> c <> I3 -> is_finite (mget (t_m t) r c) = true) ->
  exists b, t_has_scale (f_float f) t = Done b /\
  ((forall j, j <> I3 -> Rabs (col_sq (real_t t) j - 1) <= 999 / 1000000) -> b = false) /\
  ((exists j, j <> I3 /\ 1001 / 1000000 < Rabs (col_sq (real_t t) j - 1)) -> b = true).
Proof.
  intros Fm.
  destruct (column_dec t I0 ltac:(discriminate) Fm) as (w0 & d0 & W0 & D0 & N0 & P0).
  destruct (column_dec t I1 ltac:(discriminate) Fm) as (w1 & d1 & W1 & D1 & N1 & P1).
  destruct (column_dec t I2 ltac:(discriminate) Fm) as (w2 & d2 & W2 & D2 & N2 & P2).
  exists (not_one (f_float f) d0 || not_one (f_float f) d1 || not_one (f_float f) d2)%bool. split.
  - unfold t_has_scale. change (V3 (e_from_int (f_float f) 1) (e_from_int (f_float f) 0) (e_from_int (f_float f) 0)) with (unit_f I0).
    change (V3 (e_from_int (f_float f) 0) (e_from_int (f_float f) 1) (e_from_int (f_float f) 0)) with (unit_f I1).
    change (V3 (e_from_int (f_float f) 0) (e_from_int (f_float f) 0) (e_from_int (f_float f) 1)) with (unit_f I2).
    change (fl_elem (f_float f)) with (f_elem f). rewrite W0. cbn [obind]. rewrite D0. cbn [obind]. rewrite W1. cbn [obind].
    rewrite D1. cbn [obind]. rewrite W2. cbn [obind]. rewrite D2. reflexivity.
  - split.
    + intros H. rewrite N0, N1, N2 by (apply H; discriminate). reflexivity.
    + intros (j & Hj & H). destruct j; try congruence; [rewrite P0 by exact H|rewrite P1 by exact H|rewrite P2 by exact H];
        now rewrite ?Bool.orb_true_r.
Qed.
Lemma has_scale_trans (d : Vector3 (flt f)) : exists t, t_translate (f_float f) d = Done t /\ t_has_scale (f_float f) t = Done false.
Proof. eexists. split; [reflexivity|]. destruct f; vm_compute; reflexivity. Qed.
End S.
