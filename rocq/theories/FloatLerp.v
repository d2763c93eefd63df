(** Proofs about C103 and C104: lerp in floats. *)
From Coq Require Import ZArith Reals Lia Lra.
From Flocq Require Import Core.Core IEEE754.BinarySingleNaN.
From Verif Require Import Base Elem FloatInst GeoModel MatModel GeoSpec ArithSpec MatSpec OpsSpec FloatErrSpec OrderProofs MatThms.
From Verif Require Import FloatCore FloatThms FloatErr FloatErrThms InvFloatEx.
Local Open Scope mon_scope.
Local Open Scope R_scope.

Section L.
Context (f : fmt).
Notation B := (flt f).
Notation fexp := (SpecFloat.fexp (fprec f) (femax f)).
Notation rnd := (FloatCore.rnd f).
Notation u := (half_ulp f).
Notation E := (femax f).
Notation one := (f_of_int f 1).
(** The largest finite float. *)
Definition top : R := bpow radix2 E - bpow radix2 (E - fprec f).
Lemma top_u : top = (1 - u) * bpow radix2 E.
Proof. unfold top, half_ulp. unfold Zminus. rewrite bpow_plus. ring. Qed.
Lemma top_pos : 0 < top.
Proof. rewrite top_u. pose proof (u_small f). pose proof (bpow_gt_0 radix2 E). nra. Qed.
Lemma top_ge (x : B) : Rabs (B2R x) <= top.
Proof. unfold top. apply abs_B2R_le_emax_minus_prec. apply fprec_gt_0. Qed.
Lemma fexp_normal e : (4 - E <= e)%Z -> fexp e = (e - fprec f)%Z.
Proof. intros H. unfold SpecFloat.fexp, SpecFloat.emin. lia. Qed.

(** ** A float times the largest float is not rounded up *)
Lemma scaled_fmt (x : B) : fmt_real f (B2R x * bpow radix2 E).
Proof.
  pose proof (fmt_B f x) as H. apply FLT_format_generic in H; [|apply fprec_gt_0]. destruct H as [[m e] Hx Hm He]. cbn in Hx, Hm, He.
  apply generic_format_FLT. exists (Float radix2 m (e + E)).
  - rewrite Hx. unfold F2R. cbn [Fnum Fexp]. rewrite bpow_plus. ring.
  - exact Hm.
  - cbn [Fexp]. assert (0 < E)%Z by (destruct f; cbn; lia). lia.
Qed.
Lemma times_top (x : B) : 0 <= B2R x -> is_finite x = true -> rnd (B2R x * top) <= B2R x * top.
Proof.
  intros Hx Fx. destruct (Req_dec (B2R x) 0) as [Zx|Zx]; [rewrite Zx, Rmult_0_l, rnd_0; lra|].
  set (X := B2R x * bpow radix2 E). assert (FX : fmt_real f X) by apply scaled_fmt.
  assert (Y : B2R x * top = X * (1 - u)) by (rewrite top_u; unfold X; ring). rewrite Y.
  assert (PX : 0 < X) by (apply Rmult_lt_0_compat; [lra|apply bpow_gt_0]).
  assert (Lo : bpow radix2 (3 - fprec f) <= X).
  { assert (S : is_finite_strict x = true) by (destruct x; try discriminate; [now contradiction Zx|reflexivity]).
    pose proof (abs_B2R_ge_emin _ _ x S) as G. rewrite Rabs_pos_eq in G by assumption. unfold X.
    replace (3 - fprec f)%Z with (SpecFloat.emin (fprec f) E + E)%Z by (unfold SpecFloat.emin; lia). rewrite bpow_plus.
    apply Rmult_le_compat_r; [apply bpow_ge_0|exact G]. }
  set (e := (mag radix2 X : Z)). assert (Em : bpow radix2 (e - 1) <= X < bpow radix2 e).
  { pose proof (bpow_mag_le radix2 X ltac:(lra)) as H1. pose proof (bpow_mag_gt radix2 X) as H2. rewrite Rabs_pos_eq in H1, H2 by lra. now split. }
  assert (Ge : (3 - fprec f < e)%Z) by (apply (lt_bpow radix2); lra).
  assert (Pm : (fprec f < E)%Z) by (destruct f; cbn; lia).
  assert (Pr : Ulp.pred radix2 fexp X = Ulp.pred_pos radix2 fexp X) by (apply pred_eq_pos; lra).
  assert (Fp : fmt_real f (Ulp.pred radix2 fexp X)) by (apply generic_format_pred; [apply fexp_valid|exact FX]).
  assert (Ub : u * bpow radix2 e = bpow radix2 (e - fprec f)) by (unfold half_ulp; rewrite <- bpow_plus; f_equal; lia).
  assert (Ub' : u * bpow radix2 (e - 1) = bpow radix2 (e - 1 - fprec f)) by (unfold half_ulp; rewrite <- bpow_plus; f_equal; lia).
  unfold Ulp.pred_pos in Pr. fold e in Pr. destruct (Req_bool_spec X (bpow radix2 (e - 1))) as [P|P].
  - rewrite fexp_normal in Pr by lia. rewrite rnd_id; [lra|]. replace (X * (1 - u)) with (Ulp.pred radix2 fexp X); [exact Fp|].
    rewrite Pr, <- Ub', <- P. ring.
  - assert (Us : ulp radix2 fexp X = bpow radix2 (e - fprec f)).
    { rewrite ulp_neq_0 by lra. unfold cexp. fold e. now rewrite fexp_normal by lia. }
    rewrite Us in Pr. assert (Hu : 0 < u) by apply u_pos.
    assert (Hlt : bpow radix2 (e - 1) < X) by lra.
    assert (Hb2 : bpow radix2 e = 2 * bpow radix2 (e - 1)).
    { replace e with (e - 1 + 1)%Z at 1 by lia. rewrite bpow_plus_1. cbn. lra. }
    assert (Hle : Ulp.pred radix2 fexp X <= X * (1 - u)).
    { rewrite Pr, <- Ub. nra. }
    eapply Rle_trans; [|exact Hle]. apply round_N_le_midp; [apply fexp_valid|exact Fp|].
    rewrite succ_pred by (apply fexp_valid || exact FX). rewrite Pr, <- Ub. nra.
Qed.

(** ** One minus a float between 0 and 1 *)
Lemma comp_val (t : B) : is_finite t = true -> 0 <= B2R t <= 1 ->
  is_finite (f_sub one t) = true /\ B2R (f_sub one t) = rnd (1 - B2R t) /\ 0 <= rnd (1 - B2R t) <= 1 /\ rnd (1 - B2R t) + B2R t <= 1 + u / 2.
Proof.
  intros Ft Ht. destruct (one_val f) as [V1 F1]. assert (R0 : 0 <= rnd (1 - B2R t) <= 1).
  { split; [apply rnd_nonneg; lra|]. apply Rle_trans with (rnd 1); [apply rnd_le; lra|]. rewrite (rnd_id f 1) by apply fmt_1. lra. }
  destruct (sub_key f one t F1 Ft) as (_ & K & Fin). rewrite V1 in K, Fin.
  assert (L : Rabs (rnd (1 - B2R t)) < big f).
  { rewrite Rabs_pos_eq by lra. apply Rle_lt_trans with (bpow radix2 0); [cbn; lra|]. unfold big. apply bpow_lt. destruct f; cbn; lia. }
  rewrite Rlt_bool_true in Fin by assumption. split; [assumption|]. split; [now apply finite_of_key|]. split; [assumption|].
  pose proof (u_pos f) as Hu.
  destruct (Req_dec (B2R t) 0) as [Z0|Z0]; [rewrite Z0, Rminus_0_r, (rnd_id f 1) by apply fmt_1; lra|].
  destruct (Req_dec (B2R t) 1) as [Z1|Z1]; [rewrite Z1; replace (1 - 1) with 0 by ring; rewrite rnd_0; lra|].
  assert (Hh : Rabs (rnd (1 - B2R t) - (1 - B2R t)) <= / 2 * ulp radix2 fexp (1 - B2R t)) by (apply error_le_half_ulp; apply fexp_valid).
  assert (Hu1 : ulp radix2 fexp (1 - B2R t) <= u).
  { rewrite ulp_neq_0 by lra. unfold cexp, half_ulp. apply bpow_le.
    assert (M : (mag radix2 (1 - B2R t) <= 0)%Z) by (apply mag_le_bpow; [lra|]; rewrite Rabs_pos_eq by lra; cbn; lra).
    revert M. generalize (mag radix2 (1 - B2R t) : Z). intros z Hz. unfold SpecFloat.fexp, SpecFloat.emin. assert (0 < fprec f < E)%Z by (destruct f; cbn; lia). assert (3 < E)%Z by (destruct f; cbn; lia). lia. }
  apply Rabs_le_inv in Hh. lra.
Qed.

(** ** The value of lerp *)
Lemma prod_val (x a : B) : is_finite x = true -> is_finite a = true -> 0 <= B2R x <= 1 ->
  is_finite (f_mult x a) = true /\ B2R (f_mult x a) = rnd (B2R x * B2R a) /\ Rabs (rnd (B2R x * B2R a)) <= B2R x * top.
Proof.
  intros Fx Fa Hx. assert (L : Rabs (rnd (B2R x * B2R a)) <= B2R x * top).
  { eapply Rle_trans; [|apply times_top; [apply Hx|exact Fx]]. pose proof (top_ge a) as G. apply Rabs_le_inv in G. apply Rabs_le. split.
    - rewrite <- rnd_opp. apply rnd_le. rewrite <- Ropp_mult_distr_r_reverse. apply Rmult_le_compat_l; lra.
    - apply rnd_le. apply Rmult_le_compat_l; lra. }
  destruct (mult_key f x a Fx Fa) as (_ & K & Fin).
  assert (L' : Rabs (rnd (B2R x * B2R a)) < big f).
  { eapply Rle_lt_trans; [exact L|]. pose proof top_pos. apply Rle_lt_trans with (1 * top); [apply Rmult_le_compat_r; lra|].
    rewrite Rmult_1_l. unfold top, big. pose proof (bpow_gt_0 radix2 (E - fprec f)). lra. }
  rewrite Rlt_bool_true in Fin by assumption. split; [assumption|]. split; [now apply finite_of_key|assumption].
Qed.
Lemma top_fmt : fmt_real f top /\ Ulp.succ radix2 fexp top = bpow radix2 E.
Proof.
  assert (Pm : (0 < fprec f < E)%Z) by (destruct f; cbn; lia).
  assert (M : (mag radix2 top : Z) = E).
  { apply mag_unique_pos. unfold top. split; [|pose proof (bpow_gt_0 radix2 (E - fprec f)); lra].
    assert (bpow radix2 (E - fprec f) <= bpow radix2 (E - 1)) by (apply bpow_le; lia).
    assert (Hb2 : bpow radix2 E = 2 * bpow radix2 (E - 1)).
    { replace E with (E - 1 + 1)%Z at 1 by lia. rewrite bpow_plus_1. cbn. lra. } lra. }
  assert (Us : ulp radix2 fexp top = bpow radix2 (E - fprec f)).
  { rewrite ulp_neq_0 by (pose proof top_pos; lra). unfold cexp. rewrite M. now rewrite fexp_normal by lia. }
  split.
  - apply generic_format_FLT. exists (Float radix2 (2 ^ fprec f - 1) (E - fprec f)).
    + unfold F2R, top. cbn [Fnum Fexp]. rewrite minus_IZR. change 2%Z with (radix_val radix2) at 1. rewrite IZR_Zpower by lia.
      rewrite Rmult_minus_distr_r, Rmult_1_l, <- bpow_plus. f_equal. f_equal. lia.
    + cbn [Fnum]. change (radix_val radix2) with 2%Z. pose proof (Z.pow_pos_nonneg 2 (fprec f) ltac:(lia) ltac:(lia)). lia.
    + cbn [Fexp]. unfold SpecFloat.emin. assert (2 < E)%Z by (destruct f; cbn; lia). lia.
  - rewrite succ_eq_pos by (pose proof top_pos; lra). rewrite Us. unfold top. ring.
Qed.
Lemma below_mid s : s < (1 - u / 2) * bpow radix2 E -> rnd s <= top.
Proof.
  intros H. destruct top_fmt as [Ft St]. apply round_N_le_midp; [apply fexp_valid|exact Ft|]. rewrite St, top_u. lra.
Qed.
Definition weight (t : B) : R := rnd (1 - B2R t).
Definition mix (t a b : B) : R := rnd (rnd (weight t * B2R a) + rnd (B2R t * B2R b)).
Lemma mix_top t a b : is_finite t = true -> is_finite a = true -> is_finite b = true -> 0 <= B2R t <= 1 -> Rabs (mix t a b) <= top.
Proof.
  intros Ft Fa Fb Ht. destruct (comp_val t Ft Ht) as (Fx & Vx & Hx & Hs).
  destruct (prod_val (f_sub one t) a Fx Fa ltac:(rewrite Vx; exact Hx)) as (F1 & V1 & L1). rewrite Vx in V1, L1.
  destruct (prod_val t b Ft Fb Ht) as (F2 & V2 & L2). fold (weight t) in *.
  apply Rabs_le_inv in L1, L2. pose proof (u_pos f) as Hu. pose proof (u_small f) as Hu'. pose proof (bpow_gt_0 radix2 E) as Hb.
  assert (S : (weight t + B2R t) * top < (1 - u / 2) * bpow radix2 E).
  { apply Rle_lt_trans with ((1 + u / 2) * top); [apply Rmult_le_compat_r; [pose proof top_pos; lra|exact Hs]|]. rewrite top_u.
    rewrite <- Rmult_assoc. apply Rmult_lt_compat_r; [assumption|]. nra. }
  unfold mix. apply Rabs_le. split.
  - assert (rnd (- (rnd (weight t * B2R a) + rnd (B2R t * B2R b))) <= top) by (apply below_mid; lra). rewrite rnd_opp in H. lra.
  - apply below_mid. lra.
Qed.
Lemma lerp_val t a b : is_finite t = true -> is_finite a = true -> is_finite b = true -> 0 <= B2R t <= 1 ->
  exists d, lerp (f_float f) t a b = Done d /\ is_finite d = true /\ B2R d = mix t a b.
Proof.
  intros Ft Fa Fb Ht. pose proof (mix_top t a b Ft Fa Fb Ht) as M. destruct (comp_val t Ft Ht) as (Fx & Vx & Hx & Hs).
  destruct (prod_val (f_sub one t) a Fx Fa ltac:(rewrite Vx; exact Hx)) as (F1 & V1 & L1). rewrite Vx in V1, L1.
  destruct (prod_val t b Ft Fb Ht) as (F2 & V2 & L2). fold (weight t) in *.
  exists (f_add (f_mult (f_sub one t) a) (f_mult t b)). split; [reflexivity|].
  destruct (add_key f _ _ F1 F2) as (_ & K & Fin). rewrite V1, V2 in K, Fin. fold (mix t a b) in K, Fin.
  assert (L : Rabs (mix t a b) < big f) by (eapply Rle_lt_trans; [exact M|]; unfold top, big; pose proof (bpow_gt_0 radix2 (E - fprec f)); lra).
  rewrite Rlt_bool_true in Fin by assumption. split; [assumption|]. now apply finite_of_key.
Qed.
Lemma weight_01 t : is_finite t = true -> 0 <= B2R t <= 1 -> 0 <= weight t <= 1.
Proof. intros Ft Ht. now destruct (comp_val t Ft Ht) as (_ & _ & H & _). Qed.
Lemma mix_0 t a b : B2R t = 0 -> mix t a b = B2R a.
Proof.
  intros H. unfold mix, weight. rewrite H, Rminus_0_r, (rnd_id f 1) by apply fmt_1. rewrite Rmult_1_l, Rmult_0_l, rnd_0, Rplus_0_r.
  now rewrite !rnd_B.
Qed.
Lemma mix_1 t a b : B2R t = 1 -> mix t a b = B2R b.
Proof.
  intros H. unfold mix, weight. rewrite H. replace (1 - 1) with 0 by ring. rewrite rnd_0, Rmult_1_l, Rmult_0_l, rnd_0, Rplus_0_l.
  now rewrite !rnd_B.
Qed.
Lemma mix_mono t a b a' b' : is_finite t = true -> 0 <= B2R t <= 1 -> B2R a <= B2R a' -> B2R b <= B2R b' -> mix t a b <= mix t a' b'.
Proof.
  intros Ft Ht Ha Hb. pose proof (weight_01 t Ft Ht). unfold mix. apply rnd_le. apply Rplus_le_compat; apply rnd_le; apply Rmult_le_compat_l; lra.
Qed.
Lemma mix_opp t a b : mix t (Bopp a) (Bopp b) = - mix t a b.
Proof.
  unfold mix. rewrite !B2R_Bopp, !Ropp_mult_distr_r_reverse, !rnd_opp.
  rewrite <- (rnd_opp f (rnd (weight t * B2R a) + rnd (B2R t * B2R b))). f_equal. ring.
Qed.
Lemma mix_zero t a b : is_finite t = true -> 0 <= B2R t <= 1 -> B2R a = 0 -> B2R b = 0 -> mix t a b = 0.
Proof. intros Ft Ht Ha Hb. unfold mix. rewrite Ha, Hb, !Rmult_0_r, rnd_0, Rplus_0_r. apply rnd_0. Qed.

(** ** Theorems *)
Theorem lerp_ends t a b : is_finite t = true -> is_finite a = true -> is_finite b = true -> exists d, lerp (f_float f) t a b = Done d /\
  (B2R t = 0 -> is_finite d = true /\ B2R d = B2R a) /\ (B2R t = 1 -> is_finite d = true /\ B2R d = B2R b).
Proof.
  intros Ft Fa Fb. destruct (lerp (f_float f) t a b) as [d0| |] eqn:L; [|discriminate L|discriminate L]. exists d0. split; [reflexivity|].
  split; intros H; destruct (lerp_val t a b Ft Fa Fb ltac:(lra)) as (d & Hd & Fd & V); rewrite L in Hd; injection Hd as ->; (split; [assumption|]);
    rewrite V; [now apply mix_0|now apply mix_1].
Qed.
Theorem lerp_finite t a b : is_finite t = true -> is_finite a = true -> is_finite b = true -> 0 <= B2R t <= 1 ->
  exists d, lerp (f_float f) t a b = Done d /\ is_finite d = true.
Proof. intros Ft Fa Fb Ht. destruct (lerp_val t a b Ft Fa Fb Ht) as (d & H & Fd & _). eauto. Qed.
Theorem lerp_mono t a b a' b' d d' : is_finite t = true -> is_finite a = true -> is_finite b = true -> is_finite a' = true -> is_finite b' = true ->
  0 <= B2R t <= 1 -> B2R a <= B2R a' -> B2R b <= B2R b' -> lerp (f_float f) t a b = Done d -> lerp (f_float f) t a' b' = Done d' -> B2R d <= B2R d'.
Proof.
  intros Ft Fa Fb Fa' Fb' Ht Ha Hb H H'. destruct (lerp_val t a b Ft Fa Fb Ht) as (x & Hx & _ & V).
  destruct (lerp_val t a' b' Ft Fa' Fb' Ht) as (x' & Hx' & _ & V'). rewrite H in Hx. injection Hx as <-. rewrite H' in Hx'. injection Hx' as <-.
  rewrite V, V'. now apply mix_mono.
Qed.
Theorem lerp_neg t a b d : is_finite t = true -> is_finite a = true -> is_finite b = true -> 0 <= B2R t <= 1 ->
  lerp (f_float f) t a b = Done d -> exists d', lerp (f_float f) t (Bopp a) (Bopp b) = Done d' /\ B2R d' = - B2R d.
Proof.
  intros Ft Fa Fb Ht H. destruct (lerp_val t a b Ft Fa Fb Ht) as (x & Hx & _ & V). rewrite H in Hx. injection Hx as <-.
  destruct (lerp_val t (Bopp a) (Bopp b) Ft ltac:(now rewrite is_finite_Bopp) ltac:(now rewrite is_finite_Bopp) Ht) as (x' & Hx' & _ & V').
  exists x'. split; [assumption|]. rewrite V', V. apply mix_opp.
Qed.
Theorem lerp_sign t a b d : is_finite t = true -> is_finite a = true -> is_finite b = true -> 0 <= B2R t <= 1 ->
  lerp (f_float f) t a b = Done d -> (0 <= B2R a -> 0 <= B2R b -> 0 <= B2R d) /\ (B2R a <= 0 -> B2R b <= 0 -> B2R d <= 0).
Proof.
  intros Ft Fa Fb Ht H. destruct (lerp_val t a b Ft Fa Fb Ht) as (x & Hx & _ & V). rewrite H in Hx. injection Hx as <-.
  set (z := B754_zero false : B). rewrite V. pose proof (mix_zero t z z Ft Ht eq_refl eq_refl) as Z0.
  split; intros; rewrite <- Z0; apply mix_mono; assumption.
Qed.
Lemma lerp_dist t a b d : is_finite t = true -> is_finite a = true -> is_finite b = true -> 0 <= B2R t <= 1 ->
  lerp (f_float f) t a b = Done d -> is_finite d = true /\
  Rabs (B2R d - ((1 - B2R t) * B2R a + B2R t * B2R b)) <= 4 * u * Rmax (Rabs (B2R a)) (Rabs (B2R b)) + 3 * half_tiny f.
Proof.
  intros Ft Fa Fb Ht H. destruct (lerp_val t a b Ft Fa Fb Ht) as (x & Hx & Fd & V). rewrite H in Hx. injection Hx as <-. split; [assumption|].
  pose proof (lerp_err f t a b d H Fd) as W. unfold within in W.
  pose proof (small_power f 3 ltac:(lia)) as P. cbn [INR] in P. set (m := Rmax (Rabs (B2R a)) (Rabs (B2R b))) in *.
  assert (A1 : Rabs ((1 - B2R t) * B2R a) <= (1 - B2R t) * m).
  { rewrite Rabs_mult, (Rabs_pos_eq (1 - B2R t)) by lra. apply Rmult_le_compat_l; [lra|apply Rmax_l]. }
  assert (A2 : Rabs (B2R t * B2R b) <= B2R t * m).
  { rewrite Rabs_mult, (Rabs_pos_eq (B2R t)) by lra. apply Rmult_le_compat_l; [lra|apply Rmax_r]. }
  assert (M : Rabs ((1 - B2R t) * B2R a) + Rabs (B2R t * B2R b) <= m) by lra.
  pose proof (u_small f) as Us. pose proof (u_pos f) as Up. pose proof (eta_pos f) as Ep.
  assert (M0 : 0 <= Rabs ((1 - B2R t) * B2R a) + Rabs (B2R t * B2R b)).
  { pose proof (Rabs_pos ((1 - B2R t) * B2R a)). pose proof (Rabs_pos (B2R t * B2R b)). lra. }
  eapply Rle_trans; [exact W|]. apply Rplus_le_compat.
  - apply Rle_trans with (4 * u * (Rabs ((1 - B2R t) * B2R a) + Rabs (B2R t * B2R b))); [apply Rmult_le_compat_r; lra|apply Rmult_le_compat_l; lra].
  - replace ((1 + u) ^ 3 * (2 * half_tiny f)) with (2 * (1 + u) ^ 3 * half_tiny f) by ring. apply Rmult_le_compat_r; [lra|]. lra.
Qed.
Theorem lerp_near t a b d : is_finite t = true -> is_finite a = true -> is_finite b = true -> 0 <= B2R t <= 1 ->
  lerp (f_float f) t a b = Done d ->
  let slack := 4 * u * Rmax (Rabs (B2R a)) (Rabs (B2R b)) + 3 * half_tiny f in
  Rmin (B2R a) (B2R b) - slack <= B2R d <= Rmax (B2R a) (B2R b) + slack.
Proof.
  intros Ft Fa Fb Ht H slack. destruct (lerp_dist t a b d Ft Fa Fb Ht H) as [_ S]. fold slack in S.
  assert (Lo : Rmin (B2R a) (B2R b) <= (1 - B2R t) * B2R a + B2R t * B2R b).
  { pose proof (Rmin_l (B2R a) (B2R b)). pose proof (Rmin_r (B2R a) (B2R b)). nra. }
  assert (Hi : (1 - B2R t) * B2R a + B2R t * B2R b <= Rmax (B2R a) (B2R b)).
  { pose proof (Rmax_l (B2R a) (B2R b)). pose proof (Rmax_r (B2R a) (B2R b)). nra. }
  apply Rabs_le_inv in S. lra.
Qed.
(** Points and boxes. *)
Lemma p_lerp_coord t (p q : Point3 B) : exists w, p3_lerp (f_float f) t p q = Done w /\ forall i, lerp (f_float f) t (coord i p) (coord i q) = Done (coord i w).
Proof. eexists. split; [reflexivity|]. intros []; reflexivity. Qed.
Lemma b_lerp_coord (b : Bounds3 B) t : exists w, b3_lerp (f_float f) b t = Done w /\
  forall i, lerp (f_float f) (coord i t) (coord i (b_min b)) (coord i (b_max b)) = Done (coord i w).
Proof. eexists. split; [reflexivity|]. intros []; reflexivity. Qed.
End L.

(** ** Cases in which lerp leaves its end points, or goes back *)
Definition ratio f (a b : Z) : flt f := f_div (f_of_int f a) (f_of_int f b).
Definition some_t f : flt f := match f with F32 => ratio F32 1 5 | F64 => ratio F64 1 3 end.
Definition some_a f : flt f := f_of_int f (match f with F32 => 13 | F64 => 15 end).
Definition next_t f : flt f := f_add (some_t f) (f_div (some_t f) (f_of_int f (2 ^ (fprec f - 1)))).
Definition low_b f : flt f := f_of_int f (match f with F32 => 6 | F64 => 2 end).
Definition high_b f : flt f := f_of_int f (match f with F32 => 7 | F64 => 3 end).
Definition lerped f (t a b : flt f) : flt f := get_done (lerp (f_float f) t a b) B754_nan.
Lemma bltb_R f (x y : flt f) : is_finite x = true -> is_finite y = true -> Bltb x y = true -> B2R x < B2R y.
Proof. intros Fx Fy H. rewrite Bltb_correct in H by assumption. now destruct (Rlt_bool_spec (B2R x) (B2R y)). Qed.
Lemma lerp_same f : exists t a d : flt f, is_finite t = true /\ is_finite a = true /\ 0 < B2R t < 1 /\ lerp (f_float f) t a a = Done d /\ B2R a < B2R d.
Proof.
  exists (some_t f), (some_a f), (lerped f (some_t f) (some_a f) (some_a f)).
  split; [destruct f; vm_compute; reflexivity|]. split; [destruct f; vm_compute; reflexivity|]. split; [|split; [reflexivity|]].
  - rewrite <- (proj1 (zero_val f)) at 1. rewrite <- (proj1 (one_val f)). split; apply bltb_R; destruct f; vm_compute; reflexivity.
  - apply bltb_R; destruct f; vm_compute; reflexivity.
Qed.
Lemma lerp_back f : exists t t' a b d d' : flt f, 0 < B2R t /\ B2R t < B2R t' /\ B2R t' < 1 /\ B2R a < B2R b /\
  lerp (f_float f) t a b = Done d /\ lerp (f_float f) t' a b = Done d' /\ B2R d' < B2R d.
Proof.
  exists (some_t f), (next_t f), (low_b f), (high_b f), (lerped f (some_t f) (low_b f) (high_b f)), (lerped f (next_t f) (low_b f) (high_b f)).
  split; [rewrite <- (proj1 (zero_val f)); apply bltb_R; destruct f; vm_compute; reflexivity|].
  split; [apply bltb_R; destruct f; vm_compute; reflexivity|].
  split; [rewrite <- (proj1 (one_val f)); apply bltb_R; destruct f; vm_compute; reflexivity|].
  split; [apply bltb_R; destruct f; vm_compute; reflexivity|]. split; [reflexivity|]. split; [reflexivity|].
  apply bltb_R; destruct f; vm_compute; reflexivity.
Qed.
Lemma box_left f : exists (b : Bounds3 (flt f)) t w, bfinite b /\ normalised (tle (TFloat f)) b /\ (forall i, 0 < B2R (coord i t) < 1) /\
  b3_lerp (f_float f) b t = Done w /\ b3_inside (f_elem f) b w = false.
Proof.
  set (p := P3 (some_a f) (some_a f) (some_a f)). exists (B3 p p), (P3 (some_t f) (some_t f) (some_t f)).
  set (d := lerped f (some_t f) (some_a f) (some_a f)). exists (P3 d d d).
  split; [split; intros []; destruct f; vm_compute; reflexivity|].
  split; [intros []; destruct f; vm_compute; reflexivity|].
  split; [|split; [reflexivity|destruct f; vm_compute; reflexivity]].
  intros i. rewrite <- (proj1 (zero_val f)) at 1. rewrite <- (proj1 (one_val f)). destruct i; split; apply bltb_R; destruct f; vm_compute; reflexivity.
Qed.
