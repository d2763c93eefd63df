(** Proofs about C118: both vectors of a coordinate system are finite unless the squares vanish. *)
From Coq Require Import ZArith Reals Lia Lra Psatz Bool.
From Flocq Require Import Core.Core IEEE754.BinarySingleNaN.
From Verif Require Import Base Elem FloatInst GeoModel MatModel GeoSpec ArithSpec MatSpec OpsSpec NanSpec.
From Verif Require Import FloatUnit OrderProofs FloatErrSpec FloatCore FloatErr OpsThms TransVec FloatNanOps.
Local Open Scope mon_scope.
Local Open Scope R_scope.

Lemma done_inj {A C} (a c : A) (b d : C) : Done (a, b) = Done (c, d) -> c = a /\ d = b.
Proof. intros H. injection H as -> ->. auto. Qed.
Section F.
Context (f : fmt).
Notation E := (f_elem f).
Notation B := (flt f).
Notation zero := (f_of_int f 0).
Notation u := (half_ulp f).
Notation eta := (half_tiny f).
Notation lim := (bpow radix2 (femax f / 2 + 3)).

Lemma least (x : B) : 0 < B2R x -> 2 * eta <= B2R x.
Proof.
  intros H. unfold half_tiny. replace (2 * (/ 2 * bpow radix2 (3 - femax f - fprec f))) with (bpow radix2 (3 - femax f - fprec f)) by field.
  destruct x as [s|s| |[] m e Hb]; try (cbn in H; lra).
  - exfalso. assert (F2R (Float radix2 (Z.neg m) e) < 0) by (apply F2R_lt_0; reflexivity). cbn in *. lra.
  - cbn. apply Rle_trans with (bpow radix2 e).
    + apply bpow_le. pose proof Hb as Hc. unfold SpecFloat.bounded, SpecFloat.canonical_mantissa in Hc. apply andb_true_iff in Hc as [Hc _]. apply Zeq_bool_eq in Hc.
      unfold SpecFloat.fexp, SpecFloat.emin in Hc. lia.
    + unfold F2R. cbn. rewrite <- (Rmult_1_l (bpow radix2 e)) at 1. apply Rmult_le_compat_r; [apply bpow_ge_0|]. apply IZR_le. lia.
Qed.
Lemma square_below (x z : B) : is_finite (f_add (f_mult x x) (f_mult z z)) = true -> 0 < B2R (f_add (f_mult x x) (f_mult z z)) ->
  B2R x * B2R x <= 2 * B2R (f_add (f_mult x x) (f_mult z z)) /\ B2R z * B2R z <= 2 * B2R (f_add (f_mult x x) (f_mult z z)).
Proof.
  intros F P. pose proof (least _ P) as L. pose proof (eta_pos f). pose proof (u_pos f). pose proof (u_small f).
  destruct (fin_add f _ _ F) as (F1 & F2 & V). destruct (fin_mult f _ _ F1) as (_ & _ & V1). destruct (fin_mult f _ _ F2) as (_ & _ & V2).
  set (s := B2R (f_add _ _)) in *. set (X := B2R (f_mult x x)) in *. set (Z := B2R (f_mult z z)) in *.
  assert (X0 : 0 <= X) by (rewrite V1; apply rnd_nonneg; nra). assert (Z0 : 0 <= Z) by (rewrite V2; apply rnd_nonneg; nra).
  assert (XS : X <= s) by (pose proof (rnd_B f (f_mult x x)) as R; fold X in R; rewrite <- R, V; apply rnd_le; lra).
  assert (ZS : Z <= s) by (pose proof (rnd_B f (f_mult z z)) as R; fold Z in R; rewrite <- R, V; apply rnd_le; lra).
  assert (G : forall t T, 0 <= t -> T = rnd f t -> T <= s -> t <= 2 * s).
  { intros t T Ht HT HS. destruct (rnd_any f t) as (d & e & Hd & He & Ed). rewrite <- HT in Ed. apply Rabs_le_inv in Hd. apply Rabs_le_inv in He.
    assert (t * (1 - u) <= t * (1 + d)) by (apply Rmult_le_compat_l; lra). assert (t * u <= t * (1 / 16777216)) by (apply Rmult_le_compat_l; lra). lra. }
  split; [apply (G _ X)|apply (G _ Z)]; auto; nra.
Qed.
Lemma lim_fmt : fmt_real f lim.
Proof. apply generic_format_bpow. destruct f; vm_compute; discriminate. Qed.
Lemma lim_big : lim < big f.
Proof. apply bpow_lt. destruct f; reflexivity. Qed.
Lemma keeps r : Rabs r <= lim -> Rabs (rnd f r) <= lim.
Proof.
  intros H. apply Rabs_le_inv in H. apply Rabs_le. rewrite <- (rnd_id f lim lim_fmt), <- rnd_opp. split; apply rnd_le; lra.
Qed.
Lemma keeps' c r : fmt_real f c -> Rabs r <= c -> Rabs (rnd f r) <= c.
Proof.
  intros G H. apply Rabs_le_inv in H. apply Rabs_le. rewrite <- (rnd_id f c G), <- rnd_opp. split; apply rnd_le; lra.
Qed.
Lemma quotient (s a : B) : is_finite s = true -> 0 < B2R s -> is_finite a = true -> B2R a * B2R a <= 2 * B2R s ->
  is_finite (f_div a (Bsqrt mode_NE s)) = true /\ Rabs (B2R (f_div a (Bsqrt mode_NE s))) <= 2.
Proof.
  intros Fs P Fa H. pose proof (u_pos f). pose proof (u_small f).
  destruct (Bsqrt_correct _ _ (fprec_gt_0 f) (fprec_lt_emax f) mode_NE s) as (V & Q & _).
  change (round radix2 _ _ (sqrt (B2R s))) with (rnd f (sqrt (B2R s))) in V.
  assert (Fn : is_finite (Bsqrt mode_NE s) = true).
  { rewrite Q. destruct s as [sg|sg| |sg m e Hs]; try discriminate; auto. destruct sg; auto. exfalso.
    assert (F2R (Float radix2 (Z.neg m) e) < 0) by (apply F2R_lt_0; reflexivity). cbn in *. lra. }
  set (n := Bsqrt mode_NE s) in *. destruct (rnd_sqrt f (B2R s) (fmt_B f s)) as (d & Hd & Ed). rewrite Ed in V. apply Rabs_le_inv in Hd.
  pose proof (sqrt_lt_R0 _ P) as P0. pose proof (sqrt_sqrt _ (Rlt_le _ _ P)) as SS. set (r := sqrt (B2R s)) in *.
  assert (N1 : 15 / 16 * r <= B2R n) by (rewrite V; assert (r * (15 / 16) <= r * (1 + d)) by (apply Rmult_le_compat_l; lra); lra).
  assert (A : Rabs (B2R a) <= 2 * B2R n).
  { apply Rabs_le. assert (B2R a * B2R a <= 2 * (r * r)) by lra. split; nra. }
  assert (Np : 0 < B2R n) by lra.
  assert (D : Rabs (B2R a / B2R n) <= 2).
  { unfold Rdiv. rewrite Rabs_mult, (Rabs_pos_eq (/ B2R n)) by (left; now apply Rinv_0_lt_compat).
    apply (Rmult_le_reg_r (B2R n)); [assumption|]. rewrite Rmult_assoc, Rinv_l by lra. lra. }
  assert (F2 : fmt_real f 2) by (change 2 with (bpow radix2 1); apply generic_format_bpow; destruct f; vm_compute; discriminate).
  pose proof (keeps' 2 _ F2 D) as K. destruct (div_key f a n Fa Fn ltac:(lra)) as (_ & K2 & Q2).
  assert (B2 : 2 < big f) by (change 2 with (bpow radix2 1); apply bpow_lt; destruct f; reflexivity).
  rewrite Rlt_bool_true in Q2 by lra. split; [assumption|]. rewrite (finite_of_key f _ _ K2 Q2) by lra. assumption.
Qed.
Definition lesser := bpow radix2 (femax f / 2 + 2).
Lemma times (s b w : B) : B2R b * B2R b <= 2 * B2R s -> is_finite b = true -> is_finite w = true -> Rabs (B2R w) <= 2 ->
  is_finite (f_mult b w) = true /\ Rabs (B2R (f_mult b w)) <= lesser.
Proof.
  intros H Fb Fw L. pose proof (B2R_big f s) as S. apply Rabs_lt_inv in S. change (OrderProofs.big f) with (big f) in S || idtac.
  set (h := bpow radix2 (femax f / 2 + 1)).
  assert (Hh : h * h = 4 * big f) by (unfold h, big; rewrite <- bpow_plus; change 4 with (bpow radix2 2); rewrite <- bpow_plus; f_equal; destruct f; reflexivity).
  assert (Ph : 0 < h) by apply bpow_gt_0.
  assert (A : Rabs (B2R b) <= h) by (apply Rabs_le; pose proof (big_pos f); split; nra).
  assert (M : Rabs (B2R b * B2R w) <= lesser).
  { rewrite Rabs_mult. replace lesser with (h * 2) by (unfold h, lesser; replace (femax f / 2 + 2)%Z with (femax f / 2 + 1 + 1)%Z by lia; rewrite (bpow_plus _ (femax f / 2 + 1)); reflexivity).
    apply Rmult_le_compat; auto using Rabs_pos. }
  assert (G : fmt_real f lesser) by (apply generic_format_bpow; destruct f; vm_compute; discriminate).
  assert (LB : lesser < big f) by (apply bpow_lt; destruct f; reflexivity).
  pose proof (keeps' _ _ G M) as K. destruct (mult_key f b w Fb Fw) as (_ & K2 & Q2). rewrite Rlt_bool_true in Q2 by lra.
  split; [assumption|]. rewrite (finite_of_key f _ _ K2 Q2) by lra. assumption.
Qed.
Lemma minus (a b : B) : is_finite a = true -> is_finite b = true -> Rabs (B2R a) <= lesser -> Rabs (B2R b) <= lesser -> is_finite (f_sub a b) = true.
Proof.
  intros Fa Fb La Lb. destruct (sub_key f a b Fa Fb) as (_ & _ & Q). rewrite Q. apply Rlt_bool_true.
  apply Rle_lt_trans with (2 := lim_big), keeps. replace lim with (lesser + lesser).
  - apply Rabs_le_inv in La. apply Rabs_le_inv in Lb. apply Rabs_le. lra.
  - unfold lesser. replace (femax f / 2 + 3)%Z with (femax f / 2 + 2 + 1)%Z by lia. rewrite (bpow_plus _ (femax f / 2 + 2) 1). change (bpow radix2 1) with 2. ring.
Qed.
(** A component of the cross product: all its terms are below. *)
Definition tame (a : B) := is_finite a = true /\ Rabs (B2R a) <= lesser.
Lemma tame_minus (a b : B) : tame a -> tame b -> is_finite (f_sub a b) = true.
Proof. intros [F1 L1] [F2 L2]. now apply minus. Qed.
Lemma parts (x z : B) : is_finite x = true -> is_finite z = true -> ~ null (f_add (f_mult x x) (f_mult z z)) ->
  let n := Bsqrt mode_NE (f_add (f_mult x x) (f_mult z z)) in
  (forall a, is_finite a = true -> Rabs (B2R a) <= Rmax (Rabs (B2R x)) (Rabs (B2R z)) -> is_finite (f_div a n) = true) /\
  (forall a b, is_finite a = true -> is_finite b = true -> Rabs (B2R a) <= Rmax (Rabs (B2R x)) (Rabs (B2R z)) -> Rabs (B2R b) <= Rmax (Rabs (B2R x)) (Rabs (B2R z)) ->
    tame (f_mult b (f_div a n))).
Proof.
  intros Fx Fz N. cbv zeta. set (s := f_add _ _) in *.
  assert (Q : fnn f s) by (apply fnn_add; apply fnn_sq, fin_nan; assumption).
  destruct (is_finite s) eqn:Fs.
  - assert (P : 0 < B2R s).
    { pose proof (nonzero_val f s Fs N). destruct Q as [_ K]. rewrite key_finite in K by assumption. lra. }
    destruct (square_below x z Fs P) as [SX SZ]. fold s in SX, SZ.
    assert (G : forall a : B, Rabs (B2R a) <= Rmax (Rabs (B2R x)) (Rabs (B2R z)) -> B2R a * B2R a <= 2 * B2R s).
    { intros a. rewrite <- (Rabs_pos_eq (B2R a * B2R a)), <- (Rabs_pos_eq (B2R x * B2R x)) in * by nra. rewrite <- (Rabs_pos_eq (B2R z * B2R z)) in SZ by nra.
      rewrite Rabs_mult in *. pose proof (Rabs_pos (B2R a)). unfold Rmax. destruct (Rle_dec _ _); intros; nra. }
    split.
    + intros a Fa La. apply (quotient s a); auto.
    + intros a b Fa Fb La Lb. destruct (quotient s a Fs P Fa (G a La)). apply (times s); auto.
  - rewrite (fnn_inf f s Q Fs). cbn [Bsqrt].
    assert (Z : forall a : B, is_finite a = true -> null (f_div a (B754_infinity false))) by (intros [| | |]; try discriminate; intros _; exact I).
    assert (M : forall b c : B, is_finite b = true -> null c -> tame (f_mult b c)).
    { intros b c Fb Hc. unfold tame. assert (0 < lesser) by apply bpow_gt_0. destruct c; try contradiction. destruct b; try discriminate; cbn; rewrite Rabs_R0; split; auto; lra. }
    split.
    + intros a Fa _. specialize (Z a Fa). change (is_finite (f_div a (B754_infinity false)) = true). now destruct (f_div a (B754_infinity false)).
    + intros a b Fa Fb _ _. apply (M b _ Fb (Z a Fa)).
Qed.
Lemma frame_finite (v : Vector3 B) : vfinite v -> exists u w, coordinate_system (f_float f) v = Done (u, w) /\
  let s := if Bltb (Babs (vy v)) (Babs (vx v)) then f_add (f_mult (vx v) (vx v)) (f_mult (vz v) (vz v)) else f_add (f_mult (vy v) (vy v)) (f_mult (vz v) (vz v)) in
  (null s -> (exists i, nan (vcoord i u)) /\ exists i, nan (vcoord i w)) /\ (~ null s -> vfinite u /\ vfinite w).
Proof.
  intros Hv. pose proof (Hv AX) as FX. pose proof (Hv AY) as FY. pose proof (Hv AZ) as FZ. cbn [vcoord] in FX, FY, FZ.
  destruct (frame_nan f v Hv) as (u & w & C & N). exists u, w. split; [exact C|]. cbv zeta in *. rewrite frame_is in C. unfold FloatUnit.frame in C.
  rewrite Bltb_correct in * by (rewrite is_finite_Babs; assumption). rewrite !B2R_Babs in *.
  destruct (zero_val f) as [V0 F0].
  assert (Mx : forall p q : R, Rabs p <= Rmax (Rabs p) (Rabs q) /\ Rabs q <= Rmax (Rabs p) (Rabs q) /\ 0 <= Rmax (Rabs p) (Rabs q)).
  { intros p q. pose proof (Rmax_l (Rabs p) (Rabs q)). pose proof (Rmax_r (Rabs p) (Rabs q)). pose proof (Rabs_pos p). lra. }
  assert (NA : forall i, nan (vcoord i u) -> exists j, nan (vcoord j w)).
  { intros i Hi. assert (Cr : v3_cross E v u = Done w).
    { destruct (Rlt_bool _ _); cbn [v3_cross obind mk3] in C; injection C as <- <-; reflexivity. }
    cbn in Cr. injection Cr as <-. destruct i; [exists AY|exists AX|exists AX]; cbn [vcoord vx vy vz] in *; apply sub_nan.
    - left. apply mult_nan. right; now left.
    - right; left. apply mult_nan. right; now left.
    - left. apply mult_nan. right; now left. }
  split.
  - intros Z. destruct (proj2 N Z) as (i & Hi). split; [now exists i|]. exact (NA i Hi).
  - intros Z. clear N NA. destruct (Rlt_bool_spec (Rabs (B2R (vy v))) (Rabs (B2R (vx v)))) as [L|L].
    + destruct (parts _ _ FX FZ Z) as [D M]. destruct (Mx (B2R (vx v)) (B2R (vz v))) as (M1 & M2 & M3).
      assert (M4 : Rabs (B2R (vy v)) <= Rmax (Rabs (B2R (vx v))) (Rabs (B2R (vz v)))) by lra.
      assert (M5 : Rabs (B2R zero) <= Rmax (Rabs (B2R (vx v))) (Rabs (B2R (vz v)))) by (rewrite V0, Rabs_R0; lra).
      assert (M6 : Rabs (B2R (Bopp (vz v))) <= Rmax (Rabs (B2R (vx v))) (Rabs (B2R (vz v)))) by (rewrite B2R_Bopp, Rabs_Ropp; lra).
      assert (F6 : is_finite (Bopp (vz v)) = true) by now rewrite is_finite_Bopp.
      unfold v3_cross, mk3, norm2 in C. cbn [obind lift2 e_mul e_sub f_elem vx vy vz] in C. apply done_inj in C as [-> ->].
      split; intros []; cbn [vcoord vx vy vz]; try (apply D; assumption); apply tame_minus; apply M; assumption.
    + destruct (parts _ _ FY FZ Z) as [D M]. destruct (Mx (B2R (vy v)) (B2R (vz v))) as (M1 & M2 & M3).
      assert (M4 : Rabs (B2R (vx v)) <= Rmax (Rabs (B2R (vy v))) (Rabs (B2R (vz v)))) by lra.
      assert (M5 : Rabs (B2R zero) <= Rmax (Rabs (B2R (vy v))) (Rabs (B2R (vz v)))) by (rewrite V0, Rabs_R0; lra).
      assert (M6 : Rabs (B2R (Bopp (vy v))) <= Rmax (Rabs (B2R (vy v))) (Rabs (B2R (vz v)))) by (rewrite B2R_Bopp, Rabs_Ropp; lra).
      assert (F6 : is_finite (Bopp (vy v)) = true) by now rewrite is_finite_Bopp.
      unfold v3_cross, mk3, norm2 in C. cbn [obind lift2 e_mul e_sub f_elem vx vy vz] in C. apply done_inj in C as [-> ->].
      split; intros []; cbn [vcoord vx vy vz]; try (apply D; assumption); apply tame_minus; apply M; assumption.
Qed.
End F.
