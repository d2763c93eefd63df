(** Proofs about C109: the accuracy of Matrix4::inverse in floats. *)
From Coq Require Import ZArith Reals Lia Lra.
From Flocq Require Import Core.Core IEEE754.BinarySingleNaN.
From Verif Require Import Base Elem FloatInst GeoModel MatModel GeoSpec ArithSpec MatSpec OpsSpec FloatErrSpec OrderProofs MatThms InvThms.
From Verif Require Import FloatCore FloatErr FloatThms OpsThms FloatInv FloatNan GaussReal.
Local Open Scope mon_scope.
Local Open Scope R_scope.

Section G.
Context (f : fmt).
Notation E := (f_elem f).
Notation B := (flt f).
Notation one := (f_of_int f 1).
Notation zero := (f_of_int f 0).
Notation mat := (Matrix4 (flt f)).
Notation u := (half_ulp f).
Notation eta := (half_tiny f).
Notation big := (big f).
Notation val x := (@B2R (fprec f) (femax f) x).

(** ** Single operations that cannot overflow *)
Definition lim : R := bpow radix2 (67 + fprec f).
Lemma lim_pos : 0 < lim. Proof. apply bpow_gt_0. Qed.
Lemma lim_1 : 1 <= lim. Proof. change 1 with (bpow radix2 0). apply bpow_le. destruct f; cbn; lia. Qed.
Lemma rnd_fin x : Rabs x <= 4 * lim -> Rabs (rnd f x) < big.
Proof.
  intros H. unfold rnd. apply Rle_lt_trans with (bpow radix2 (69 + fprec f)).
  - apply abs_round_le_generic; [apply fexp_valid|apply valid_rnd_N| |].
    + apply generic_format_bpow. unfold SpecFloat.fexp, SpecFloat.emin. destruct f; cbn; lia.
    + replace (69 + fprec f)%Z with (2 + (67 + fprec f))%Z by lia. rewrite bpow_plus. exact H.
  - apply bpow_lt. destruct f; cbn; lia.
Qed.
Lemma eta_u : eta <= u * (1 / 1000000000000000000000000000000).
Proof.
  unfold half_tiny, half_ulp. apply Rle_trans with (bpow radix2 (- fprec f) * bpow radix2 (-100)).
  - rewrite <- bpow_plus. assert (bpow radix2 (3 - femax f - fprec f) <= bpow radix2 (- fprec f + -100)) by (apply bpow_le; destruct f; cbn; lia).
    pose proof (bpow_gt_0 radix2 (3 - femax f - fprec f)). lra.
  - apply Rmult_le_compat_l; [apply bpow_ge_0|]. cbn [bpow]. 
    match goal with |- / IZR ?z <= _ => let k := eval vm_compute in z in change z with k end. lra.
Qed.
Lemma op_mult (x y : B) : is_finite x = true -> is_finite y = true -> Rabs (val x * val y) <= 4 * lim ->
  is_finite (f_mult x y) = true /\ exists d t, Rabs d <= u /\ Rabs t <= eta /\ val (f_mult x y) = val x * val y * (1 + d) + t.
Proof.
  intros Fx Fy H. destruct (mult_key f x y Fx Fy) as (_ & K & F). rewrite Rlt_bool_true in F by (now apply rnd_fin). split; [assumption|].
  rewrite (finite_of_key f _ _ K F (rnd_fin _ H)). destruct (rnd_any f (val x * val y)) as (d & t & Hd & Ht & Er). exists d, t. auto.
Qed.
Lemma op_div (x y : B) : is_finite x = true -> is_finite y = true -> val y <> 0 -> Rabs (val x / val y) <= 4 * lim ->
  is_finite (f_div x y) = true /\ exists d t, Rabs d <= u /\ Rabs t <= eta /\ val (f_div x y) = val x / val y * (1 + d) + t.
Proof.
  intros Fx Fy Ny H. destruct (div_key f x y Fx Fy Ny) as (_ & K & F). rewrite Rlt_bool_true in F by (now apply rnd_fin). split; [assumption|].
  rewrite (finite_of_key f _ _ K F (rnd_fin _ H)). destruct (rnd_any f (val x / val y)) as (d & t & Hd & Ht & Er). exists d, t. auto.
Qed.
Lemma op_sub (x y : B) : is_finite x = true -> is_finite y = true -> Rabs (val x - val y) <= 4 * lim ->
  is_finite (f_sub x y) = true /\ exists d, Rabs d <= u /\ val (f_sub x y) = (val x - val y) * (1 + d).
Proof.
  intros Fx Fy H. destruct (sub_key f x y Fx Fy) as (_ & K & F). rewrite Rlt_bool_true in F by (now apply rnd_fin). split; [assumption|].
  rewrite (finite_of_key f _ _ K F (rnd_fin _ H)). destruct (rnd_plus f (val x) (- val y) (fmt_B f x)) as (d & Hd & Er).
  { apply generic_format_opp, fmt_B. }
  exists d. split; [assumption|exact Er].
Qed.
Lemma abs3 a b c : Rabs (a + b + c) <= Rabs a + Rabs b + Rabs c.
Proof. eapply Rle_trans; [apply Rabs_triang|]. apply Rplus_le_compat_r, Rabs_triang. Qed.
Lemma mulb x y b d : Rabs x <= b -> Rabs y <= d -> Rabs (x * y) <= b * d.
Proof. intros. rewrite Rabs_mult. apply Rmult_le_compat; auto using Rabs_pos. Qed.
Lemma up1 d : Rabs d <= u -> Rabs (1 + d) <= 1 + u.
Proof. intros H. eapply Rle_trans; [apply Rabs_triang|]. rewrite Rabs_R1. lra. Qed.

(** An entry of the pivot row. *)
Lemma raw_row (b P : B) : is_finite b = true -> is_finite P = true -> val P <> 0 -> Rabs (1 / val P) <= lim -> Rabs (val b / val P) <= lim ->
  Rabs (val b) <= lim ->
  is_finite (f_mult b (f_div one P)) = true /\
  Rabs (val (f_mult b (f_div one P)) - val b / val P) <= 21 / 10 * u * Rabs (val b / val P) + eta * (11 / 10 * Rabs (val b) + 1).
Proof.
  intros Fb FP NP H1 H2 H3. pose proof (u_pos f). pose proof (u_small f). pose proof (eta_pos f). pose proof eta_u. pose proof lim_pos.
  destruct (one_val f) as [V1 F1].
  destruct (op_div one P F1 FP NP) as (Fd & d1 & t1 & Hd1 & Ht1 & E1); [rewrite V1; lra|]. rewrite V1 in E1.
  assert (X : val b * val (f_div one P) = val b / val P * (1 + d1) + val b * t1) by (rewrite E1; field; exact NP).
  assert (Y1 : Rabs (val b / val P * (1 + d1)) <= lim * (1 + u)) by (apply mulb; [assumption|now apply up1]).
  assert (Y2 : Rabs (val b * t1) <= Rabs (val b) * eta) by (apply mulb; [lra|assumption]).
  assert (Y3 : Rabs (val b) * eta <= lim * eta) by (apply Rmult_le_compat_r; lra).
  destruct (op_mult b (f_div one P) Fb Fd) as (Fm & d2 & t2 & Hd2 & Ht2 & E2).
  { rewrite X. eapply Rle_trans; [apply Rabs_triang|]. nra. }
  split; [assumption|]. rewrite E2, X.
  replace ((val b / val P * (1 + d1) + val b * t1) * (1 + d2) + t2 - val b / val P)
    with (val b / val P * (d1 + d2 + d1 * d2) + val b * t1 * (1 + d2) + t2) by ring.
  eapply Rle_trans; [apply abs3|].
  assert (Z1 : Rabs (d1 + d2 + d1 * d2) <= 21 / 10 * u).
  { eapply Rle_trans; [apply abs3|]. pose proof (mulb d1 d2 _ _ Hd1 Hd2). nra. }
  assert (Z2 : Rabs (val b / val P * (d1 + d2 + d1 * d2)) <= Rabs (val b / val P) * (21 / 10 * u)) by (apply mulb; [lra|assumption]).
  assert (Z3 : Rabs (val b * t1 * (1 + d2)) <= Rabs (val b) * eta * (1 + u)) by (apply mulb; [assumption|now apply up1]).
  assert (Z4 : Rabs (val b) * eta * (1 + u) <= Rabs (val b) * eta * (11 / 10)).
  { apply Rmult_le_compat_l; [|lra]. apply Rmult_le_pos; [apply Rabs_pos|lra]. }
  lra.
Qed.
(** An entry of another row. *)
Lemma raw_rest (a w v : B) Z t : is_finite a = true -> is_finite w = true -> is_finite v = true ->
  Rabs (val w - Z) <= 21 / 10 * u * Rabs Z + t -> 0 <= t -> Rabs (Z * val v) <= lim -> Rabs (val v) * t <= lim -> Rabs (val a) <= lim ->
  is_finite (f_sub a (f_mult w v)) = true /\
  Rabs (val (f_sub a (f_mult w v)) - (val a - Z * val v)) <= u * (Rabs (val a) + 42 / 10 * Rabs (Z * val v)) + 11 / 10 * (Rabs (val v) * t) + 11 / 10 * eta.
Proof.
  intros Fa Fw Fv Hw Ht HZ Hv Ha. pose proof (u_pos f). pose proof (u_small f). pose proof (eta_pos f). pose proof eta_u. pose proof lim_pos. pose proof lim_1.
  assert (D : Rabs (val w * val v - Z * val v) <= 21 / 10 * u * Rabs (Z * val v) + Rabs (val v) * t).
  { replace (val w * val v - Z * val v) with ((val w - Z) * val v) by ring. rewrite !Rabs_mult.
    assert (Rabs (val w - Z) * Rabs (val v) <= (21 / 10 * u * Rabs Z + t) * Rabs (val v)) by (apply Rmult_le_compat_r; [apply Rabs_pos|assumption]). lra. }
  set (dl := val w * val v - Z * val v) in *. assert (Wv : val w * val v = Z * val v + dl) by (unfold dl; ring).
  pose proof (Rabs_pos (Z * val v)). pose proof (Rabs_pos (val v)). assert (0 <= Rabs (val v) * t) by (now apply Rmult_le_pos).
  assert (D2 : Rabs (val w * val v) <= 5 / 2 * lim).
  { rewrite Wv. eapply Rle_trans; [apply Rabs_triang|]. nra. }
  destruct (op_mult w v Fw Fv) as (Fm & d1 & t1 & Hd1 & Ht1 & E1); [lra|].
  assert (M : Rabs (val (f_mult w v)) <= 3 * lim).
  { rewrite E1. eapply Rle_trans; [apply Rabs_triang|].
    assert (Rabs (val w * val v * (1 + d1)) <= 5 / 2 * lim * (1 + u)) by (apply mulb; [assumption|now apply up1]). nra. }
  destruct (op_sub a (f_mult w v) Fa Fm) as (Fs & d2 & Hd2 & E2).
  { unfold Rminus. eapply Rle_trans; [apply Rabs_triang|]. rewrite Rabs_Ropp. lra. }
  split; [assumption|]. rewrite E2, E1, Wv.
  replace ((val a - ((Z * val v + dl) * (1 + d1) + t1)) * (1 + d2) - (val a - Z * val v))
    with (val a * d2 + - (Z * val v * (d1 + d2 + d1 * d2)) + - (dl * ((1 + d1) * (1 + d2)) + t1 * (1 + d2))) by ring.
  eapply Rle_trans; [apply abs3|]. rewrite !Rabs_Ropp.
  assert (Z1 : Rabs (d1 + d2 + d1 * d2) <= 2 * u + u * u).
  { eapply Rle_trans; [apply abs3|]. pose proof (mulb d1 d2 _ _ Hd1 Hd2). lra. }
  assert (Y1 : Rabs (val a * d2) <= Rabs (val a) * u) by (apply mulb; [lra|assumption]).
  assert (Y2 : Rabs (Z * val v * (d1 + d2 + d1 * d2)) <= Rabs (Z * val v) * (2 * u + u * u)) by (apply mulb; [lra|assumption]).
  assert (Y3 : Rabs (dl * ((1 + d1) * (1 + d2))) <= (21 / 10 * u * Rabs (Z * val v) + Rabs (val v) * t) * ((1 + u) * (1 + u))).
  { apply mulb; [assumption|]. apply mulb; now apply up1. }
  assert (Y4 : Rabs (t1 * (1 + d2)) <= eta * (1 + u)) by (apply mulb; [assumption|now apply up1]).
  assert (Y5 : Rabs (dl * ((1 + d1) * (1 + d2)) + t1 * (1 + d2)) <= Rabs (dl * ((1 + d1) * (1 + d2))) + Rabs (t1 * (1 + d2))) by apply Rabs_triang.
  set (s := Rabs (Z * val v)) in *. set (g := Rabs (val v) * t) in *.
  assert (Q : (1 + u) * (1 + u) <= 1 + 1 / 1000000) by nra.
  assert (Q1 : (21 / 10 * u * s + g) * ((1 + u) * (1 + u)) <= (21 / 10 * u * s + g) * (1 + 1 / 1000000)).
  { apply Rmult_le_compat_l; [|assumption]. assert (0 <= u * s) by (apply Rmult_le_pos; lra). lra. }
  assert (Q2 : s * (2 * u + u * u) <= s * (u * (2 + 1 / 1000000))) by (apply Rmult_le_compat_l; [assumption|nra]).
  assert (0 <= s * u) by (apply Rmult_le_pos; lra). nra.
Qed.

Lemma raw_rest' (a w v : B) Z t Av : val a = Av -> is_finite a = true -> is_finite w = true -> is_finite v = true ->
  Rabs (val w - Z) <= 21 / 10 * u * Rabs Z + t -> 0 <= t -> Rabs (Z * val v) <= lim -> Rabs (val v) * t <= lim -> Rabs Av <= lim ->
  is_finite (f_sub a (f_mult w v)) = true /\
  Rabs (val (f_sub a (f_mult w v)) - (Av - Z * val v)) <= u * (Rabs Av + 42 / 10 * Rabs (Z * val v)) + 11 / 10 * (Rabs (val v) * t) + 11 / 10 * eta.
Proof. intros <-. apply raw_rest. Qed.

(** ** One round *)
Lemma step_done i s b p q : choose_pivot E (@Panic) (is_minv s) (is_ipiv s) = Done (b, p, q) -> Beqb (mget (is_minv s) p q) zero = false ->
  exists s', inverse_step E (@Panic) (@Panic) i s = Done s' /\ round_ f (is_minv s) p q (is_minv s') /\
    is_ipiv s' = vset (is_ipiv s) q (vget (is_ipiv s) q + 1)%N /\
    is_indxr s' = vset (is_indxr s) i p /\ is_indxc s' = vset (is_indxc s) i q.
Proof.
  intros Ec Z. unfold inverse_step. rewrite Ec. cbn [obind].
  rewrite swap_rows_thm. cbn [obind]. set (W := is_minv s) in *. set (W1 := mkm _).
  assert (V1 : forall r k, mget W1 r k = mget W (sw p q r) k) by (intros r k; unfold W1; now rewrite mget_mkm).
  change (e_eq E (mget W1 q q) (e_from_int E 0)) with (Beqb (mget W1 q q) zero).
  rewrite V1, sw_r, Z. rewrite scale_row_float. cbn [obind].
  match goal with |- context [clear_column E ?M q] => set (W2 := M) end. rewrite clear_column_float. cbn [obind].
  match goal with |- context [Done (IS ?M _ _ _)] => set (W3 := M) end. eexists. split; [reflexivity|]. cbn [is_minv is_ipiv is_indxr is_indxc].
  split; [|auto].
  assert (V2 : forall k, mget W3 q k = mget W2 q k) by (intros k; unfold W3; now rewrite mget_mkm, ix_eqb_refl).
  assert (V3 : forall k, mget W2 q k = f_mult (if ix_eqb k q then one else mget W p k) (f_div one (mget W p q))).
  { intros k. unfold W2. rewrite mget_mkm, ix_eqb_refl, !V1, sw_r. reflexivity. }
  assert (V4 : forall r k, r <> q -> mget W2 r k = mget W (sw p q r) k).
  { intros r k N. unfold W2. rewrite mget_mkm. apply ix_eqb_neq in N. now rewrite N, V1. }
  split.
  - intros k. now rewrite V2.
  - intros r k N. rewrite V2. unfold W3. rewrite mget_mkm. pose proof N as N'. apply ix_eqb_neq in N'. now rewrite N', (V4 r k N), (V4 r q N).
  - exact Z.
Qed.

Section Scaled.
Variables (S K : R) (A : mat) (C : Matrix4 R).
Hypothesis (HS1 : bpow radix2 (-60) <= S) (HS2 : S <= bpow radix2 60).
Hypothesis (FA : finm f A) (HA : forall r c, Rabs (val (mget A r c)) <= S).
Hypothesis (HAC : prodR (m_real A) C = identR) (HC : forall r c, Rabs (mget C r c) <= K) (HKu : S * K * u <= 1 / 8192).
Definition two60 : R := 1152921504606846976.
Lemma b60 : bpow radix2 60 = two60. Proof. reflexivity. Qed.
Lemma b60n : bpow radix2 (-60) = / two60. Proof. reflexivity. Qed.
Lemma S_pos : 0 < S. Proof. pose proof (bpow_gt_0 radix2 (-60)). lra. Qed.
Lemma S_lo : / two60 <= S. Proof. rewrite <- b60n. exact HS1. Qed.
Lemma S_hi : S <= two60. Proof. rewrite <- b60. exact HS2. Qed.
Lemma iS_hi : / S <= two60.
Proof. rewrite <- (Rinv_inv two60). apply Rinv_le; [|apply S_lo]. apply Rinv_0_lt_compat. unfold two60. lra. Qed.
Lemma iS_pos : 0 < / S. Proof. apply Rinv_0_lt_compat, S_pos. Qed.
Lemma SiS : S * / S = 1. Proof. apply Rinv_r. pose proof S_pos. lra. Qed.
(** Matrices with the unknowns measured in units of 1/S. *)
Definition rowf (ip : vec4 N) r : R := if act ip r then 1 else S.
Definition colf (ip : vec4 N) c : R := if act ip c then / S else 1.
Definition sc ip (W : mat) r c : R := val (mget W r c) * (rowf ip r * colf ip c).
Definition As r c : R := val (mget A r c) * / S.
Definition Cs r c : R := S * mget C r c.
Definition Ks : R := S * K.
Definition modest (h m a b c : R) : Prop :=
  m <= 20 /\ a <= 20 /\ b <= 20 /\ c <= 100 /\ h <= 100 /\ h * a <= 100 /\ b * h <= 100 /\ b * h * a <= 100.
Lemma AC r c : sumr (fun i => val (mget A r i) * mget C i c) = if ix_eqb r c then 1 else 0.
Proof.
  assert (H : mget (prodR (m_real A) C) r c = mget identR r c) by (now rewrite HAC).
  unfold prodR, prod_of, identR, ident_of, m_real in H. rewrite !mget_mkm in H. unfold sum4 in *. rewrite !mget_mkm in H. exact H.
Qed.
Lemma Cs_img k i : img As (fun c => Cs c k) i = if ix_eqb i k then 1 else 0.
Proof.
  rewrite <- AC. unfold img, As, Cs, sum4.
  assert (X : forall a b, a * / S * (S * b) = a * b) by (intros a b; transitivity (a * b * (S * / S)); [ring|rewrite SiS; ring]).
  now rewrite !X.
Qed.
Lemma Cs_le i k : Rabs (Cs i k) <= Ks.
Proof. unfold Cs, Ks. pose proof S_pos. rewrite Rabs_mult, (Rabs_pos_eq S) by lra. apply Rmult_le_compat_l; [lra|apply HC]. Qed.
Lemma As_le r c : Rabs (As r c) <= 1.
Proof. unfold As. rewrite <- SiS, Rabs_mult. pose proof iS_pos. rewrite (Rabs_pos_eq (/ S)) by lra. apply Rmult_le_compat_r; [lra|apply HA]. Qed.
Lemma Ks_lo : 1 / 4 <= Ks.
Proof.
  pose proof (Cs_img I0 I0) as H. cbn [ix_eqb] in H.
  assert (X : Rabs (img As (fun c => Cs c I0) I0) <= 4 * Ks).
  { unfold img. eapply Rle_trans; [apply sum_abs|]. unfold sum4.
    pose proof (mulb _ _ _ _ (As_le I0 I0) (Cs_le I0 I0)). pose proof (mulb _ _ _ _ (As_le I0 I1) (Cs_le I1 I0)).
    pose proof (mulb _ _ _ _ (As_le I0 I2) (Cs_le I2 I0)). pose proof (mulb _ _ _ _ (As_le I0 I3) (Cs_le I3 I0)). lra. }
  rewrite H, Rabs_R1 in X. lra.
Qed.
Lemma u_ok : 0 < u <= 1 / 16777216. Proof. split; [apply u_pos|apply u_small]. Qed.
Lemma Ks_u : Ks * u <= 1 / 8192. Proof. exact HKu. Qed.
Lemma lim_u : lim * u = 128 * two60.
Proof.
  unfold lim, half_ulp. rewrite <- bpow_plus. replace (67 + fprec f + - fprec f)%Z with (7 + 60)%Z by lia. rewrite bpow_plus, b60. reflexivity.
Qed.
(** Whatever is at most 100 times Ks or 1 after scaling is far from overflow. *)
Lemma lim_of x g t : 0 <= t -> t <= two60 -> Rabs g <= 100 * Ks -> Rabs x <= Rabs g * t -> Rabs x <= lim.
Proof.
  intros Ht1 Ht2 Hg Hx. pose proof u_ok. pose proof Ks_lo. pose proof Ks_u. pose proof (Rabs_pos g).
  apply (Rmult_le_reg_r u); [lra|]. rewrite lim_u.
  assert (Rabs x * u <= Rabs g * t * u) by (apply Rmult_le_compat_r; lra).
  assert (Rabs g * t <= 100 * Ks * two60) by (apply Rmult_le_compat; lra).
  assert (Rabs g * t * u <= 100 * Ks * two60 * u) by (apply Rmult_le_compat_r; lra).
  assert (100 * Ks * two60 * u = 100 * two60 * (Ks * u)) by ring.
  assert (100 * two60 * (Ks * u) <= 100 * two60 * (1 / 8192)) by (apply Rmult_le_compat_l; unfold two60; lra).
  unfold two60 in *. lra.
Qed.
Lemma rowf_pos ip r : 0 < rowf ip r. Proof. unfold rowf. pose proof S_pos. destruct (act ip r); lra. Qed.
Lemma colf_pos ip c : 0 < colf ip c. Proof. unfold colf. pose proof iS_pos. destruct (act ip c); lra. Qed.
Lemma f_pos ip r c : 0 < rowf ip r * colf ip c. Proof. apply Rmult_lt_0_compat; [apply rowf_pos|apply colf_pos]. Qed.
Lemma f_hi ip r c : rowf ip r * colf ip c <= two60.
Proof.
  unfold rowf, colf. pose proof S_hi. pose proof iS_hi. pose proof SiS. assert (1 <= two60) by (unfold two60; lra).
  destruct (act ip r), (act ip c); lra.
Qed.
Lemma f_lo ip r c : / (rowf ip r * colf ip c) <= two60.
Proof.
  unfold rowf, colf. pose proof S_hi. pose proof iS_hi. pose proof SiS. pose proof S_pos. assert (1 <= two60) by (unfold two60; lra).
  destruct (act ip r), (act ip c); rewrite ?Rmult_1_l, ?Rmult_1_r, ?SiS, ?Rinv_inv, ?Rinv_1; lra.
Qed.
Lemma unscale x g d : 0 < d -> x * d = g -> Rabs x <= Rabs g * / d.
Proof. intros Hd H. rewrite <- H, Rabs_mult, (Rabs_pos_eq d) by lra. rewrite Rmult_assoc, Rinv_r by lra. lra. Qed.

Lemma float_errs n h m a b c r s m' a' b' c' r' s' M1 M2 M3 W ip pi p q W' :
  grows n h m a b c r s m' a' b' c' r' s' M1 M2 M3 -> modest h m a b c -> goodw u Ks As n m a b c r s (sc ip W) ip pi -> finm f W ->
  vget ip p = 0%N -> vget ip q = 0%N -> (forall j k, vget ip j = 0%N -> vget ip k = 0%N -> Rabs (sc ip W j k) <= Rabs (sc ip W p q)) ->
  1 <= h * Ks * Rabs (sc ip W p q) -> round_ f W p q W' ->
  finm f W' /\ errs u (sc ip W) p q (sc (vset ip q 1%N) W').
Proof.
  intros (((Z1 & Z2 & Z3 & Z4 & Z5 & Z6 & Z7) & Hn) & _) (Q1 & Q2 & Q3 & Q4 & Q5 & Q6 & Q7 & Q8) [Hb Ht Hi Haa Hpa Hap Hpp Hres] FW Hp Hq Hm Hh [Rq Rj Rn].
  pose proof u_ok as Hu. pose proof Ks_lo as HK. pose proof S_pos as SP. pose proof iS_pos as ISP. pose proof SiS as SIS. pose proof eta_u as EU. pose proof (eta_pos f) as EP.
  pose proof S_hi as SH. pose proof iS_hi as ISH.
  assert (Hpm : Rabs (sc ip W p q) <= m) by (now apply Haa).
  set (ip' := vset ip q 1%N). set (w := sc ip W) in *.
  assert (AN : forall k, act ip' k = if ix_eqb k q then false else act ip k).
  { intros k. unfold ip'. rewrite vget_vset. now destruct (ix_eqb k q). }
  assert (Ws : forall j, vget ip (sw p q j) = vget ip j) by (intros j; now apply act_sw).
  set (P := val (mget W p q)). assert (wP : w p q = P * / S) by (unfold w, sc, rowf, colf; rewrite Hp, Hq; cbn [N.eqb]; unfold P; ring).
  assert (PN : P <> 0). { intros X. rewrite wP, X, Rmult_0_l, Rabs_R0 in Hh. lra. }
  set (be := fun k => if ix_eqb k q then 1 else val (mget W p k)).
  set (Zr := fun k => be k / P). set (sk := fun k => if act ip' k then 1 else S).
  set (z := fun k => (if ix_eqb k q then 1 else w p k) / w p q).
  assert (zZ : forall k, z k = Zr k * sk k).
  { intros k. unfold z, Zr, sk, be. rewrite AN, wP. destruct (ix_eqb k q) eqn:Q.
    - field. split; lra.
    - unfold w, sc, rowf, colf. rewrite Hp. cbn [N.eqb]. destruct (act ip k); field; lra. }
  set (V := fun j => val (mget W (sw p q j) q)). set (v := fun j => w (sw p q j) q).
  assert (vV : forall j, v j = V j * (rowf ip j * / S)).
  { intros j. unfold v, w, sc, colf. rewrite Hq. cbn [N.eqb]. unfold V, rowf. now rewrite Ws. }
  set (Ar := fun j k => if ix_eqb k q then 0 else val (mget W (sw p q j) k)). set (al := fun j k => if ix_eqb k q then 0 else w (sw p q j) k).
  assert (scn : forall j, j <> q -> rowf ip' j = rowf ip j).
  { intros j N. unfold rowf. rewrite AN. apply ix_eqb_neq in N. now rewrite N. }
  assert (aA : forall j k, j <> q -> al j k = Ar j k * (rowf ip' j * colf ip' k)).
  { intros j k N. rewrite (scn j N). unfold al, Ar. destruct (ix_eqb k q) eqn:Q; [ring|]. unfold w, sc, rowf, colf. rewrite Ws, AN, Q. reflexivity. }
  assert (skc : forall k, S * colf ip' k = sk k).
  { intros k. unfold colf, sk. destruct (act ip' k); lra. }
  assert (zv : forall j k, j <> q -> z k * v j = Zr k * V j * (rowf ip' j * colf ip' k)).
  { intros j k N. rewrite (scn j N), zZ, vV, <- skc. transitivity (Zr k * V j * (rowf ip j * colf ip' k) * (S * / S)); [ring|rewrite SIS; ring]. }
  (* sizes of the scaled quantities *)
  assert (hKs : 0 <= h * Ks) by (apply Rmult_le_pos; lra).
  assert (s1 : forall k, Rabs (z k) <= 100 * Ks).
  { intros k. eapply Rle_trans; [exact (z_le w ip p q Hb Hp Hq Ks b h Hm Hap Z3 Hh k)|]. unfold zmax. destruct (ix_eqb k q); [|destruct (act ip k)]; [|lra|];
      apply Rmult_le_compat_r; lra. }
  assert (s2 : forall j k, Rabs (z k * v j) <= 100 * Ks).
  { intros j k. eapply Rle_trans; [exact (taken_le w ip p q Hb Hp Hq Ks m a b h Hm Hpm Hpa Hap Z3 Hh j k)|]. unfold taken.
    destruct (act ip j), (ix_eqb k q), (act ip k); try lra.
    - replace (h * Ks * a) with (h * a * Ks) by ring. apply Rmult_le_compat_r; lra.
    - replace (h * Ks * a) with (h * a * Ks) by ring. apply Rmult_le_compat_r; lra.
    - replace (b * h * Ks * a) with (b * h * a * Ks) by ring. apply Rmult_le_compat_r; lra. }
  assert (s3 : forall j k, Rabs (al j k) <= 100 * Ks).
  { intros j k. eapply Rle_trans; [exact (kept_le w ip p q Hb Hp Hq Ks m a b c Hm Hpm Hpa Hap Hpp j k)|]. unfold kept.
    destruct (ix_eqb k q), (act ip j), (act ip k); try lra. apply Rmult_le_compat_r; lra. }
  assert (s4 : forall j, Rabs (v j) <= 20).
  { intros j. eapply Rle_trans; [exact (v_le w ip p q Hb Hp Hq m a Hm Hpm Hpa j)|]. unfold vmax. destruct (act ip j); lra. }
  set (tk := fun k => eta * (11 / 10 * Rabs (be k) + 1)).
  assert (be1 : forall k, Rabs (be k) <= 20 * two60 /\ (11 / 10 * Rabs (be k) + 1) * sk k <= 24 * two60).
  { assert (T60 : two60 = 1152921504606846976) by reflexivity.
    intros k. unfold be, sk. rewrite AN. destruct (ix_eqb k q) eqn:Q; [rewrite Rabs_R1; lra|].
    destruct (act_cases ip k Hb) as [[-> Xk]|[-> Xk]].
    - pose proof (Haa p k Hp Xk) as Y. unfold w, sc, rowf, colf in Y. rewrite Hp, Xk in Y. cbn [N.eqb] in Y. rewrite Rmult_1_l, Rabs_mult, (Rabs_pos_eq (/ S)) in Y by lra.
      assert (Y2 : Rabs (val (mget W p k)) <= 20 * S).
      { apply (Rmult_le_reg_r (/ S)); [assumption|]. rewrite Rmult_assoc, SIS. lra. }
      lra.
    - pose proof (Hap p k Hp Xk) as Y. unfold w, sc, rowf, colf in Y. rewrite Hp, Xk in Y. cbn [N.eqb] in Y. rewrite !Rmult_1_r in Y.
      split; [lra|]. assert ((11 / 10 * Rabs (val (mget W p k)) + 1) * S <= 23 * S) by (apply Rmult_le_compat_r; lra). lra. }
  assert (skp : forall k, 0 < sk k) by (intros k; unfold sk; destruct (act ip' k); lra).
  assert (ski : forall k, / sk k <= two60) by (intros k; unfold sk; destruct (act ip' k); [rewrite Rinv_1; unfold two60; lra|assumption]).
  assert (tk0 : forall k, 0 <= tk k) by (intros k; unfold tk; apply Rmult_le_pos; [lra|pose proof (Rabs_pos (be k)); lra]).
  assert (tks : forall k, tk k * sk k <= u * (e6 / 10)).
  { intros k. destruct (be1 k) as [_ Y]. unfold tk. rewrite Rmult_assoc. eapply Rle_trans; [apply (Rmult_le_compat_l eta); [lra|exact Y]|].
    assert (eta * (24 * two60) <= u * (1 / 1000000000000000000000000000000) * (24 * two60)) by (apply Rmult_le_compat_r; [unfold two60; lra|assumption]).
    unfold two60 in *. lra. }
  assert (L0 : 128 * two60 <= lim).
  { pose proof lim_u. assert (lim * u <= lim * 1) by (apply Rmult_le_compat_l; [pose proof lim_pos; lra|lra]). lra. }
  assert (beb : forall k, val (if ix_eqb k q then one else mget W p k) = be k) by (intros k; unfold be; destruct (ix_eqb k q); [apply one_val|reflexivity]).
  assert (zL : forall k, Rabs (Zr k) <= lim).
  { intros k. apply (lim_of (Zr k) (z k) (/ sk k)); [left; apply Rinv_0_lt_compat, skp|apply ski|apply s1|]. apply unscale; [apply skp|now rewrite zZ]. }
  assert (iL : Rabs (1 / P) <= lim). { pose proof (zL q) as Y. unfold Zr, be in Y. now rewrite ix_eqb_refl in Y. }
  assert (row : forall k, is_finite (mget W' q k) = true /\ Rabs (val (mget W' q k) - Zr k) <= 21 / 10 * u * Rabs (Zr k) + tk k).
  { intros k. rewrite Rq. pose proof (raw_row (if ix_eqb k q then one else mget W p k) (mget W p q)) as Y. rewrite beb in Y. apply Y.
    - destruct (ix_eqb k q); [apply one_val|apply FW].
    - apply FW.
    - exact PN.
    - exact iL.
    - apply zL.
    - destruct (be1 k) as [Y1 _]. unfold two60 in *. lra. }
  assert (rest : forall j k, j <> q -> is_finite (mget W' j k) = true /\
    Rabs (val (mget W' j k) - (Ar j k - Zr k * V j)) <= u * (Rabs (Ar j k) + 42 / 10 * Rabs (Zr k * V j)) + 11 / 10 * (Rabs (V j) * tk k) + 11 / 10 * eta).
  { intros j k N. rewrite (Rj j k N). destruct (row k) as [Fq Eq].
    assert (Aa : val (if ix_eqb k q then zero else mget W (sw p q j) k) = Ar j k).
    { unfold Ar. destruct (ix_eqb k q); [apply zero_val|reflexivity]. }
    apply (raw_rest' (if ix_eqb k q then zero else mget W (sw p q j) k) (mget W' q k) (mget W (sw p q j) q) (Zr k) (tk k) (Ar j k)); auto.
    - destruct (ix_eqb k q); [apply zero_val|apply FW].
    - apply (lim_of _ (z k * v j) (/ (rowf ip' j * colf ip' k))); [left; apply Rinv_0_lt_compat, f_pos|apply f_lo|apply s2|].
      apply unscale; [apply f_pos|]. now rewrite zv.
    - assert (Y1 : Rabs (V j) <= 20 * two60).
      { eapply Rle_trans; [apply (unscale (V j) (v j) (rowf ip j * / S))|]; [apply Rmult_lt_0_compat; [apply rowf_pos|assumption]|now rewrite vV|].
        apply Rmult_le_compat; [apply Rabs_pos|left; apply Rinv_0_lt_compat, Rmult_lt_0_compat; [apply rowf_pos|assumption]|apply s4|].
        unfold rowf. destruct (act ip j); rewrite ?Rmult_1_l, ?SIS, ?Rinv_inv, ?Rinv_1; [assumption|unfold two60; lra]. }
      assert (Y2 : tk k <= 1 / 1000000000000000000000000000000 * (23 * two60)).
      { unfold tk. destruct (be1 k) as [Y2 _]. pose proof (Rabs_pos (be k)). apply Rmult_le_compat; try lra. unfold two60 in *. lra. }
      assert (Y3 : Rabs (V j) * tk k <= 20 * two60 * (1 / 1000000000000000000000000000000 * (23 * two60))) by (apply Rmult_le_compat; auto using Rabs_pos).
      unfold V in Y3. unfold two60 in *. lra.
    - apply (lim_of _ (al j k) (/ (rowf ip' j * colf ip' k))); [left; apply Rinv_0_lt_compat, f_pos|apply f_lo|apply s3|].
      apply unscale; [apply f_pos|]. now rewrite aA. }
  split.
  { intros j k. destruct (ix_dec j q) as [->|N]; [apply row|now apply rest]. }
  split.
  - intros k. fold (z k). cbn zeta. destruct (row k) as [_ Y]. unfold sc. fold ip'.
    assert (F : rowf ip' q * colf ip' k = sk k) by (rewrite <- (skc k); f_equal; unfold rowf; rewrite (AN q), ix_eqb_refl; reflexivity). rewrite F.
    replace (val (mget W' q k) * sk k - z k) with ((val (mget W' q k) - Zr k) * sk k) by (rewrite zZ; ring).
    rewrite Rabs_mult, (Rabs_pos_eq (sk k)) by (left; apply skp).
    assert (Rabs (val (mget W' q k) - Zr k) * sk k <= (21 / 10 * u * Rabs (Zr k) + tk k) * sk k) by (apply Rmult_le_compat_r; [left; apply skp|assumption]).
    assert (Rabs (z k) = Rabs (Zr k) * sk k) by (rewrite zZ, Rabs_mult, (Rabs_pos_eq (sk k)); [reflexivity|left; apply skp]).
    pose proof (tks k). nra.
  - intros j k N. fold (z k) (al j k) (v j). cbn zeta. destruct (rest j k N) as [_ Y]. unfold sc. fold ip'. set (F := rowf ip' j * colf ip' k) in *.
    assert (FP : 0 < F) by apply f_pos. assert (FH : F <= two60) by apply f_hi.
    rewrite (aA j k N), (zv j k N). fold F.
    replace (val (mget W' j k) * F - (Ar j k * F - Zr k * V j * F)) with ((val (mget W' j k) - (Ar j k - Zr k * V j)) * F) by ring.
    rewrite Rabs_mult, (Rabs_mult (Ar j k)), (Rabs_mult (Zr k * V j)), (Rabs_pos_eq F) by lra.
    assert (VF : Rabs (V j) * F = Rabs (v j) * sk k).
    { rewrite vV, <- skc. unfold F. rewrite (scn j N). rewrite Rabs_mult, (Rabs_pos_eq (rowf ip j * / S)) by (left; apply Rmult_lt_0_compat; [apply rowf_pos|assumption]).
      transitivity (Rabs (V j) * (rowf ip j * colf ip' k) * (S * / S)); [rewrite SIS; ring|ring]. }
    assert (H1 : Rabs (val (mget W' j k) - (Ar j k - Zr k * V j)) * F <=
      (u * (Rabs (Ar j k) + 42 / 10 * Rabs (Zr k * V j)) + 11 / 10 * (Rabs (V j) * tk k) + 11 / 10 * eta) * F) by (apply Rmult_le_compat_r; lra).
    assert (H2 : Rabs (V j) * tk k * F = Rabs (v j) * (tk k * sk k)) by (transitivity (Rabs (V j) * F * tk k); [ring|rewrite VF; ring]).
    assert (H3 : Rabs (v j) * (tk k * sk k) <= Rabs (v j) * (u * (e6 / 10))) by (apply Rmult_le_compat_l; [apply Rabs_pos|apply tks]).
    assert (H4 : eta * F <= u * (1 / 1000000000000000000000000000000) * two60) by (apply Rmult_le_compat; lra).
    pose proof (Rabs_pos (v j)) as VP. assert (0 <= u * Rabs (v j)) by (apply Rmult_le_pos; lra).
    eapply Rle_trans; [exact H1|]. unfold two60 in *.
    replace ((u * (Rabs (Ar j k) + 42 / 10 * Rabs (Zr k * V j)) + 11 / 10 * (Rabs (V j) * tk k) + 11 / 10 * eta) * F)
      with (u * (Rabs (Ar j k) * F + 42 / 10 * (Rabs (Zr k * V j) * F)) + 11 / 10 * (Rabs (V j) * tk k * F) + 11 / 10 * (eta * F)) by ring.
    rewrite H2. lra.
Qed.

Lemma fstep i st n h m a b c r s m' a' b' c' r' s' M1 M2 M3 pi :
  grows n h m a b c r s m' a' b' c' r' s' M1 M2 M3 -> modest h m a b c ->
  goodw u Ks As n m a b c r s (sc (is_ipiv st) (is_minv st)) (is_ipiv st) pi -> finm f (is_minv st) ->
  exists st' p q, inverse_step E (@Panic) (@Panic) i st = Done st' /\
    is_indxr st' = vset (is_indxr st) i p /\ is_indxc st' = vset (is_indxc st) i q /\
    goodw u Ks As (n + 1) m' a' b' c' r' s' (sc (is_ipiv st') (is_minv st')) (is_ipiv st') (fun k => pi (sw p q k)) /\ finm f (is_minv st').
Proof.
  intros G M H Fm. pose proof (gw_bin _ _ _ _ _ _ _ _ _ _ _ _ _ H) as Hb. pose proof (gw_tot _ _ _ _ _ _ _ _ _ _ _ _ _ H) as Ht.
  assert (Hn : (n < 4)%N) by apply G.
  assert (Ex : exists c, vget (is_ipiv st) c = 0%N).
  { unfold total in Ht. destruct (Hb I0) as [?|H0]; [eauto|]. destruct (Hb I1) as [?|H1]; [eauto|].
    destruct (Hb I2) as [?|H2]; [eauto|]. destruct (Hb I3) as [?|H3]; [eauto|]. lia. }
  destruct (choose_float f (is_minv st) (is_ipiv st) Fm Hb Ex) as (p & q & Ec & [Cp Cq] & Hmax).
  set (W := is_minv st) in *. set (ip := is_ipiv st) in *. pose proof iS_pos as ISP.
  assert (Sa : forall j k, vget ip j = 0%N -> vget ip k = 0%N -> Rabs (sc ip W j k) = Rabs (val (mget W j k)) * / S).
  { intros j k Hj Hk. unfold sc, rowf, colf. rewrite Hj, Hk. cbn [N.eqb]. rewrite Rmult_1_l, Rabs_mult, (Rabs_pos_eq (/ S)) by lra. reflexivity. }
  assert (Pm : forall j k, vget ip j = 0%N -> vget ip k = 0%N -> Rabs (sc ip W j k) <= Rabs (sc ip W p q)).
  { intros j k Hj Hk. rewrite !Sa by assumption. apply Rmult_le_compat_r; [lra|]. apply Hmax. now split. }
  pose proof (pivot_low u Ks As u_ok Ks_lo Cs Cs_img Cs_le Ks_u n h m a b c r s m' a' b' c' r' s' M1 M2 M3 _ _ _ _ G H Ex Pm) as Low.
  assert (NZ : val (mget W p q) <> 0).
  { intros Z. rewrite Sa, Z, Rabs_R0 in Low by assumption. lra. }
  assert (Nz : Beqb (mget W p q) zero = false).
  { rewrite Beqb_correct; [|apply Fm|apply zero_val]. rewrite (proj1 (zero_val f)). now apply Req_bool_false. }
  destruct (step_done i st _ p q Ec Nz) as (st' & E' & Ro & Pi & Ir & Ic). exists st', p, q.
  split; [assumption|]. split; [assumption|]. split; [assumption|]. fold ip in Pi. rewrite Cq in Pi. change (0 + 1)%N with 1%N in Pi.
  destruct (float_errs n h m a b c r s m' a' b' c' r' s' M1 M2 M3 W ip pi p q (is_minv st') G M H Fm Cp Cq Pm Low Ro) as [F' Er].
  rewrite Pi. split; [|assumption]. exact (good_next u Ks As u_ok Ks_lo n h m a b c r s m' a' b' c' r' s' M1 M2 M3 _ ip pi p q _ G H Cp Cq Pm Low Er).
Qed.
Lemma sumr_ext F H : (forall c, F c = H c) -> sumr F = sumr H.
Proof. intros X. unfold sum4. now rewrite !X. Qed.
Lemma sumr_sw F p q : sumr (fun i => F (sw p q i)) = sumr F.
Proof. unfold sum4. destruct p, q; cbn [sw ix_eqb]; ring. Qed.
Lemma inverse_bounds : exists B, m4_inverse E A = Done B /\ forall r c, is_finite (mget B r c) = true /\
  Rabs (mget (prodR (m_real B) (m_real A)) r c - mget identR r c) <= 2800 * (S * K) * u /\
  Rabs (val (mget B r c) - mget C r c) <= 1400 * K * (S * K + 1) * u.
Proof.
  pose proof u_ok as Hu. pose proof Ks_lo as HK. pose proof S_pos as SP. pose proof iS_pos as ISP. pose proof SiS as SIS.
  set (s0 := IS A (vconst 0%N) (vconst I0) (vconst I0)).
  assert (G0 : goodw u Ks As 0 1 0 0 0 0 0 (sc (is_ipiv s0) (is_minv s0)) (is_ipiv s0) (fun c => c)).
  { assert (Z : forall c, vget (is_ipiv s0) c = 0%N) by (intros []; reflexivity).
    assert (Sc : forall r c, sc (is_ipiv s0) (is_minv s0) r c = As r c).
    { intros r c. unfold sc, rowf, colf. rewrite !Z. cbn [N.eqb]. unfold As. rewrite Rmult_1_l. reflexivity. }
    split; auto.
    - intros c. left. apply Z.
    - intros j k _ _. rewrite Sc. apply As_le.
    - intros j k X. rewrite Z in X. discriminate.
    - intros j k _ X. rewrite Z in X. discriminate.
    - intros j k X. rewrite Z in X. discriminate.
    - intros x X Y Bx By. assert (X0 : 0 <= X) by (eapply Rle_trans; [apply Rabs_pos|apply (Bx I0)]).
      assert (Y0 : 0 <= Y) by (eapply Rle_trans; [apply Rabs_pos|apply (By I0)]). split; intros i Hi.
      + replace (res _ _ _ _ _) with 0; [rewrite Rabs_R0; nra|]. unfold res, tt, ss, sum4. rewrite !Z, !Sc. cbn [N.eqb]. unfold img, sum4. ring.
      + rewrite Z in Hi. discriminate. }
  destruct (fstep I0 s0 _ _ _ _ _ _ _ _ _ _ _ _ _ _ _ _ _ _ grows0 ltac:(unfold modest; lra) G0 FA) as (s1 & p0 & q0 & E1 & R1 & C1 & G1 & F1).
  destruct (fstep I1 s1 _ _ _ _ _ _ _ _ _ _ _ _ _ _ _ _ _ _ grows1 ltac:(unfold modest; lra) G1 F1) as (s2 & p1 & q1 & E2 & R2 & C2 & G2 & F2).
  destruct (fstep I2 s2 _ _ _ _ _ _ _ _ _ _ _ _ _ _ _ _ _ _ grows2 ltac:(unfold modest; lra) G2 F2) as (s3 & p2 & q2 & E3 & R3 & C3 & G3 & F3).
  destruct (fstep I3 s3 _ _ _ _ _ _ _ _ _ _ _ _ _ _ _ _ _ _ grows3 ltac:(unfold modest; lra) G3 F3) as (s4 & p3 & q3 & E4 & R4 & C4 & G4 & F4).
  clear G0 G1 G2 G3. set (pi := fun k => sw p0 q0 (sw p1 q1 (sw p2 q2 (sw p3 q3 k)))).
  change (3 + 1)%N with 4%N in G4. destruct G4 as [Hb Ht _ _ _ _ _ Hres]. set (W := is_minv s4) in *. set (ip := is_ipiv s4) in *.
  assert (O : forall c, vget ip c = 1%N).
  { intros c. unfold total in Ht. destruct (Hb I0), (Hb I1), (Hb I2), (Hb I3); destruct c; lia. }
  set (g := fun k => sw p3 q3 (sw p2 q2 (sw p1 q1 (sw p0 q0 k)))).
  assert (Pg : forall k, pi (g k) = k) by (intros k; unfold pi, g; now rewrite !sw_invol).
  assert (Gp : forall k, g (pi k) = k) by (intros k; unfold pi, g; now rewrite !sw_invol).
  exists (mkm (fun i k => mget W i (g k))). split.
  { unfold m4_inverse, inverse_with. unfold for4 at 1. fold s0. rewrite E1. cbn [obind]. rewrite E2. cbn [obind]. rewrite E3. cbn [obind].
    rewrite E4. cbn [obind]. unfold swap_columns, for4_rev. rewrite R4, C4, R3, C3, R2, C2, R1, C1. cbn [vget vset MatModel.w0 MatModel.w1 MatModel.w2 MatModel.w3].
    rewrite swap_cols_thm. cbn [obind]. rewrite swap_cols_thm. cbn [obind]. rewrite swap_cols_thm. cbn [obind]. rewrite swap_cols_thm.
    f_equal. apply mkm_ext. intros r c. now rewrite !mget_mkm. }
  assert (Rs : forall x i, res (sc ip W) ip x (fun j => img As x (pi j)) i = x i - S * sumr (fun c => val (mget W i c) * img As x (pi c))).
  { intros x i. unfold res, tt, ss, sc, rowf, colf, sum4. rewrite !O. cbn [N.eqb]. ring. }
  assert (Bd : forall x X Y, (forall i, Rabs (x i) <= X) -> (forall i, Rabs (img As x i) <= Y) -> forall i,
    Rabs (x i - S * sumr (fun c => val (mget W i c) * img As x (pi c))) <= 1400 * u * Ks * (X + Y)).
  { intros x X Y Bx By i. destruct (Hres x X Y Bx By) as [_ Y1]. specialize (Y1 i (O i)). change (fun k => sw p0 q0 (sw p1 q1 (sw p2 q2 (sw p3 q3 k)))) with pi in Y1.
    change (fun j => img As x (sw p0 q0 (sw p1 q1 (sw p2 q2 (sw p3 q3 j))))) with (fun j => img As x (pi j)) in Y1. rewrite Rs in Y1. eapply Rle_trans; [exact Y1|].
    assert (X0 : 0 <= X) by (eapply Rle_trans; [apply Rabs_pos|apply (Bx I0)]).
    assert (Y0 : 0 <= Y) by (eapply Rle_trans; [apply Rabs_pos|apply (By I0)]).
    apply Rmult_le_compat_r; [lra|]. apply Rmult_le_compat_r; [lra|]. lra. }
  clear Rs Hres.
  intros r c. rewrite mget_mkm. split; [apply F4|]. split.
  - assert (Im : forall i, img As (fun k => if ix_eqb k c then 1 else 0) i = As i c).
    { intros i. unfold img, sum4. destruct c; cbn [ix_eqb]; ring. }
    pose proof (Bd (fun k => if ix_eqb k c then 1 else 0) 1 1) as Y. specialize (fun H1 H2 => Y H1 H2 r).
    assert (Pr : mget (prodR (m_real (mkm (fun i k => mget W i (g k)))) (m_real A)) r c =
      S * sumr (fun k => val (mget W r k) * img As (fun k => if ix_eqb k c then 1 else 0) (pi k))).
    { unfold prodR, prod_of, m_real. rewrite mget_mkm.
      rewrite (sumr_ext _ (fun i => val (mget W r (g i)) * val (mget A i c))) by (intros i; now rewrite !mget_mkm).
      rewrite (sumr_ext (fun k => val (mget W r k) * _) (fun k => (fun i => val (mget W r (g i)) * As i c) (pi k))) by (intros k; now rewrite Im, Gp).
      unfold pi. rewrite (sumr_sw (fun k => (fun i => val (mget W r (g i)) * As i c) (sw p0 q0 (sw p1 q1 (sw p2 q2 k)))) p3 q3).
      rewrite (sumr_sw (fun k => (fun i => val (mget W r (g i)) * As i c) (sw p0 q0 (sw p1 q1 k))) p2 q2).
      rewrite (sumr_sw (fun k => (fun i => val (mget W r (g i)) * As i c) (sw p0 q0 k)) p1 q1).
      rewrite (sumr_sw (fun i => val (mget W r (g i)) * As i c) p0 q0).
      unfold As, sum4.
      assert (Q : forall a b, S * (a * (b * / S)) = a * b) by (intros a b; transitivity (a * b * (S * / S)); [ring|rewrite SIS; ring]).
      rewrite !Rmult_plus_distr_l, !Q. reflexivity. }
    rewrite Pr. unfold identR, ident_of. rewrite mget_mkm. rewrite Rabs_minus_sym. eapply Rle_trans; [apply Y|unfold Ks; lra].
    + intros i. destruct (ix_eqb i c); [rewrite Rabs_R1|rewrite Rabs_R0]; lra.
    + intros i. rewrite Im. apply As_le.
  - pose proof (Bd (fun k => Cs k c) Ks 1) as Y. specialize (fun H1 H2 => Y H1 H2 r).
    rewrite (sumr_ext _ (fun k => val (mget W r k) * if ix_eqb k (g c) then 1 else 0)) in Y.
    2: { intros k. rewrite Cs_img. f_equal. destruct (ix_eqb k (g c)) eqn:Q.
         - apply ix_eqb_eq in Q. subst k. now rewrite Pg, ix_eqb_refl.
         - apply ix_eqb_neq in Q. replace (ix_eqb (pi k) c) with false; [reflexivity|]. symmetry. apply ix_eqb_neq. intros X. apply Q. rewrite <- X. now rewrite Gp. }
    replace (sumr (fun k => val (mget W r k) * if ix_eqb k (g c) then 1 else 0)) with (val (mget W r (g c))) in Y.
    2: { unfold sum4. destruct (g c); cbn [ix_eqb]; ring. }
    assert (Y1 : Rabs (Cs r c - S * val (mget W r (g c))) <= 1400 * u * Ks * (Ks + 1)).
    { apply Y; [intros i; apply Cs_le|]. intros i. rewrite Cs_img. destruct (ix_eqb i c); [rewrite Rabs_R1|rewrite Rabs_R0]; lra. }
    replace (Cs r c - S * val (mget W r (g c))) with (S * - (val (mget W r (g c)) - mget C r c)) in Y1 by (unfold Cs; ring).
    rewrite Rabs_mult, Rabs_Ropp, (Rabs_pos_eq S) in Y1 by lra. unfold Ks in Y1.
    apply (Rmult_le_reg_l S); [assumption|]. eapply Rle_trans; [exact Y1|]. lra.
Qed.
End Scaled.

(** ** Consequences *)
Lemma some_or_all (g : ix -> R) b : (exists i, b < g i) \/ forall i, g i <= b.
Proof.
  destruct (Rlt_or_le b (g I0)) as [|H0]; [eauto|]. destruct (Rlt_or_le b (g I1)) as [|H1]; [eauto|].
  destruct (Rlt_or_le b (g I2)) as [|H2]; [eauto|]. destruct (Rlt_or_le b (g I3)) as [|H3]; [eauto|]. right. now intros [].
Qed.
Lemma some_or_all2 (g : ix -> ix -> R) b : (exists i j, b < g i j) \/ forall i j, g i j <= b.
Proof.
  destruct (some_or_all (g I0) b) as [[i H]|H0]; [eauto|]. destruct (some_or_all (g I1) b) as [[i H]|H1]; [eauto|].
  destruct (some_or_all (g I2) b) as [[i H]|H2]; [eauto|]. destruct (some_or_all (g I3) b) as [[i H]|H3]; [eauto|]. right. now intros [].
Qed.
Lemma panic_near_singular (S : R) (A : mat) (C : Matrix4 R) : bpow radix2 (-60) <= S -> S <= bpow radix2 60 ->
  (forall r c, is_finite (mget A r c) = true) -> (forall r c, Rabs (val (mget A r c)) <= S) ->
  prodR (m_real A) C = identR -> m4_inverse E A = Panic -> exists r c, 1 / 8192 < S * Rabs (mget C r c) * u.
Proof.
  intros S1 S2 FA HA HC HP. destruct (some_or_all2 (fun r c => S * Rabs (mget C r c) * u) (1 / 8192)) as [H|H]; [exact H|exfalso].
  assert (SP : 0 < S) by (pose proof (bpow_gt_0 radix2 (-60)); lra). pose proof (u_pos f) as UP. assert (SU : 0 < S * u) by (now apply Rmult_lt_0_compat).
  destruct (inverse_bounds S (1 / 8192 / (S * u)) A C S1 S2 FA HA HC) as (B & E1 & _).
  - intros r c. specialize (H r c). apply (Rmult_le_reg_r (S * u)); [assumption|]. unfold Rdiv at 1. rewrite Rmult_assoc, Rinv_l by lra. lra.
  - right. field. split; lra.
  - rewrite E1 in HP. discriminate.
Qed.
Lemma transform_bounds (S K : R) (A : mat) (C : Matrix4 R) : bpow radix2 (-60) <= S -> S <= bpow radix2 60 ->
  (forall r c, is_finite (mget A r c) = true) -> (forall r c, Rabs (val (mget A r c)) <= S) ->
  prodR (m_real A) C = identR -> (forall r c, Rabs (mget C r c) <= K) -> S * K * u <= 1 / 8192 ->
  exists t, t_new_ (f_float f) A = Done t /\ t_m t = A /\ forall r c, is_finite (mget (t_inv t) r c) = true /\
    Rabs (val (mget (t_inv t) r c) - mget C r c) <= 1400 * K * (S * K + 1) * u.
Proof.
  intros S1 S2 FA HA HC HK HU. destruct (inverse_bounds S K A C S1 S2 FA HA HC HK HU) as (B & E1 & H). exists (mkT A B).
  split; [|split; [reflexivity|]].
  - unfold t_new_. change (m4_inverse (f_float f) A) with (m4_inverse E A). rewrite E1. reflexivity.
  - intros r c. split; apply H.
Qed.
End G.
