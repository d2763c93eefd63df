(** Rounding facts about the float instance. *)
From Coq Require Import ZArith Reals Lia Lra.
From Flocq Require Import Core.Core IEEE754.BinarySingleNaN Plus_error.
From Verif Require Import Base Elem GeoModel FloatInst MatModel MatSpec GeoSpec ArithSpec OrderProofs.
Local Open Scope R_scope.

Section Core.
  Variable f : fmt.
  Notation B := (flt f).
  Notation fexp := (SpecFloat.fexp (fprec f) (femax f)).
  Notation big := (big f).
  Notation key := (key f).
  Definition rnd (x : R) : R := round radix2 fexp ZnearestE x.
  Definition fmt_real (x : R) : Prop := generic_format radix2 fexp x.
  Global Instance fexp_valid : Valid_exp fexp. Proof. apply fexp_correct, fprec_gt_0. Qed.
  Global Instance fexp_mono : Monotone_exp fexp. Proof. apply fexp_monotone. Qed.
  Lemma rnd_le x y : x <= y -> rnd x <= rnd y. Proof. apply round_le; [apply fexp_valid|apply valid_rnd_N]. Qed.
  Lemma rnd_id x : fmt_real x -> rnd x = x. Proof. apply round_generic, valid_rnd_N. Qed.
  Lemma rnd_fmt x : fmt_real (rnd x). Proof. apply generic_format_round; [apply fexp_valid|apply valid_rnd_N]. Qed.
  Lemma rnd_0 : rnd 0 = 0. Proof. apply round_0, valid_rnd_N. Qed.
  Lemma rnd_opp x : rnd (- x) = - rnd x. Proof. apply round_NE_opp. Qed.
  Lemma fmt_B (x : B) : fmt_real (B2R x). Proof. apply generic_format_B2R. Qed.
  Lemma fmt_0 : fmt_real 0. Proof. apply generic_format_0. Qed.
  Lemma rnd_B (x : B) : rnd (B2R x) = B2R x. Proof. apply rnd_id, fmt_B. Qed.
  Lemma rnd_nonneg x : 0 <= x -> 0 <= rnd x. Proof. intros H. rewrite <- rnd_0. now apply rnd_le. Qed.
  Lemma rnd_nonpos x : x <= 0 -> rnd x <= 0. Proof. intros H. rewrite <- rnd_0. now apply rnd_le. Qed.

  (** Rounding with overflow to the infinities, as keys. *)
  Definition sat (r : R) : R := Rmax (- big) (Rmin big r).
  Lemma sat_le x y : x <= y -> sat x <= sat y.
  Proof. intros H. unfold sat. apply Rle_max_compat_l, Rle_min_compat_l, H. Qed.
  Lemma sat_in x : Rabs x < big -> sat x = x.
  Proof. intros H. apply Rabs_def2 in H. unfold sat. rewrite Rmin_right by lra. apply Rmax_right. lra. Qed.
  Lemma sat_hi x : big <= x -> sat x = big.
  Proof. intros H. pose proof (big_pos f). unfold sat. rewrite Rmin_left by lra. apply Rmax_right. lra. Qed.
  Lemma sat_lo x : x <= - big -> sat x = - big.
  Proof. intros H. pose proof (big_pos f). unfold sat. rewrite Rmin_right by lra. apply Rmax_left. lra. Qed.
  Lemma sat_opp x : sat (- x) = - sat x.
  Proof.
    destruct (Rle_or_lt big x) as [H|H]; [rewrite (sat_hi x H), sat_lo by lra; lra|].
    destruct (Rle_or_lt x (- big)) as [H'|H']; [rewrite (sat_lo x H'), sat_hi by lra; lra|].
    rewrite !sat_in; auto; [apply Rabs_def1; lra| rewrite Rabs_Ropp; apply Rabs_def1; lra].
  Qed.
  Lemma sign_pos (x : B) : is_finite x = true -> Bsign x = false -> 0 <= B2R x.
  Proof.
    destruct x as [s|s| |s m e H]; try discriminate; cbn; intros _ Hs; try lra. subst. cbn. apply F2R_ge_0. cbn. lia.
  Qed.
  Lemma sign_neg (x : B) : is_finite x = true -> Bsign x = true -> B2R x <= 0.
  Proof.
    destruct x as [s|s| |s m e H]; try discriminate; cbn; intros _ Hs; try lra. subst. cbn. apply F2R_le_0. cbn. lia.
  Qed.
  Lemma sign_of_pos (x : B) : 0 < B2R x -> Bsign x = false.
  Proof.
    destruct x as [s|s| |s m e H]; cbn; intros Hx; try lra. destruct s; auto. exfalso.
    assert (F2R (Float radix2 (Z.neg m) e) <= 0) by (apply F2R_le_0; cbn; lia). cbn in *. lra.
  Qed.
  Lemma sign_of_neg (x : B) : B2R x < 0 -> Bsign x = true.
  Proof.
    destruct x as [s|s| |s m e H]; cbn; intros Hx; try lra. destruct s; auto. exfalso.
    assert (0 <= F2R (Float radix2 (Z.pos m) e)) by (apply F2R_ge_0; cbn; lia). cbn in *. lra.
  Qed.
  Lemma inf_of_sf (z : B) s : B2SF z = SpecFloat.S754_infinity s -> z = B754_infinity s.
  Proof. intros H. destruct z; cbn in H; try discriminate. injection H as ->. reflexivity. Qed.

  Lemma overflow_key (z : B) s r : B2SF z = binary_overflow (fprec f) (femax f) mode_NE s -> big <= Rabs r ->
    (s = false -> 0 <= r) -> (s = true -> r <= 0) -> is_nan z = false /\ key z = sat r /\ is_finite z = false.
  Proof.
    intros H Hr H0 H1. apply inf_of_sf in H. subst z. split; [reflexivity|]. split; [|reflexivity]. destruct s; cbn.
    - rewrite sat_lo; auto. rewrite Rabs_left1 in Hr by auto. lra.
    - rewrite sat_hi; auto. rewrite Rabs_pos_eq in Hr by auto. lra.
  Qed.
  Lemma result_key (z : B) r : B2R z = r -> is_finite z = true -> Rabs r < big -> is_nan z = false /\ key z = sat r /\ is_finite z = true.
  Proof. intros H Fz Hr. split; [destruct z; auto; discriminate|]. split; auto. rewrite key_finite, sat_in; auto. Qed.

  Lemma add_key (x y : B) : is_finite x = true -> is_finite y = true ->
    is_nan (f_add x y) = false /\ key (f_add x y) = sat (rnd (B2R x + B2R y)) /\
    is_finite (f_add x y) = Rlt_bool (Rabs (rnd (B2R x + B2R y))) big.
  Proof.
    intros Fx Fy. pose proof (Bplus_correct _ _ (fprec_gt_0 f) (fprec_lt_emax f) mode_NE x y Fx Fy) as H.
    change (round radix2 _ (round_mode mode_NE) (B2R x + B2R y)) with (rnd (B2R x + B2R y)) in H.
    change (bpow radix2 (femax f)) with big in H.
    destruct (Rlt_bool_spec (Rabs (rnd (B2R x + B2R y))) big) as [L|L].
    - destruct H as (H1 & H2 & _). apply result_key; auto.
    - destruct H as (H1 & H2). apply (overflow_key _ (Bsign x)); auto; intros S.
      + apply rnd_nonneg. pose proof (sign_pos x Fx S). pose proof (sign_pos y Fy (eq_trans (eq_sym H2) S)). lra.
      + apply rnd_nonpos. pose proof (sign_neg x Fx S). pose proof (sign_neg y Fy (eq_trans (eq_sym H2) S)). lra.
  Qed.
  Lemma sub_add (x y : B) : is_nan y = false -> f_sub x y = f_add x (Bopp y).
  Proof.
    unfold f_sub, f_add. intros N. destruct y as [s|s| |s m e H]; try discriminate; destruct x as [s'|s'| |s' m' e' H']; cbn; auto.
    all: try (destruct s, s'; reflexivity).
    all: destruct s; reflexivity.
  Qed.
  Lemma sub_key (x y : B) : is_finite x = true -> is_finite y = true ->
    is_nan (f_sub x y) = false /\ key (f_sub x y) = sat (rnd (B2R x - B2R y)) /\
    is_finite (f_sub x y) = Rlt_bool (Rabs (rnd (B2R x - B2R y))) big.
  Proof.
    intros Fx Fy. rewrite sub_add by (destruct y; auto; discriminate).
    pose proof (add_key x (Bopp y) Fx). rewrite is_finite_Bopp, B2R_Bopp in H. apply H. auto.
  Qed.
  Lemma mult_key (x y : B) : is_finite x = true -> is_finite y = true ->
    is_nan (f_mult x y) = false /\ key (f_mult x y) = sat (rnd (B2R x * B2R y)) /\
    is_finite (f_mult x y) = Rlt_bool (Rabs (rnd (B2R x * B2R y))) big.
  Proof.
    intros Fx Fy. pose proof (Bmult_correct _ _ (fprec_gt_0 f) (fprec_lt_emax f) mode_NE x y) as H.
    change (round radix2 _ (round_mode mode_NE) (B2R x * B2R y)) with (rnd (B2R x * B2R y)) in H.
    change (bpow radix2 (femax f)) with big in H.
    destruct (Rlt_bool_spec (Rabs (rnd (B2R x * B2R y))) big) as [L|L].
    - destruct H as (H1 & H2 & _). apply result_key; auto. unfold f_mult. now rewrite H2, Fx, Fy.
    - apply (overflow_key _ (xorb (Bsign x) (Bsign y))); auto; intros S.
      + apply rnd_nonneg. destruct (Bsign x) eqn:Sx, (Bsign y) eqn:Sy; try discriminate.
        * pose proof (sign_neg x Fx Sx). pose proof (sign_neg y Fy Sy). nra.
        * pose proof (sign_pos x Fx Sx). pose proof (sign_pos y Fy Sy). nra.
      + apply rnd_nonpos. destruct (Bsign x) eqn:Sx, (Bsign y) eqn:Sy; try discriminate.
        * pose proof (sign_neg x Fx Sx). pose proof (sign_pos y Fy Sy). nra.
        * pose proof (sign_pos x Fx Sx). pose proof (sign_neg y Fy Sy). nra.
  Qed.
  Lemma div_key (x y : B) : is_finite x = true -> is_finite y = true -> B2R y <> 0 ->
    is_nan (f_div x y) = false /\ key (f_div x y) = sat (rnd (B2R x / B2R y)) /\
    is_finite (f_div x y) = Rlt_bool (Rabs (rnd (B2R x / B2R y))) big.
  Proof.
    intros Fx Fy Ny. pose proof (Bdiv_correct _ _ (fprec_gt_0 f) (fprec_lt_emax f) mode_NE x y Ny) as H.
    change (round radix2 _ (round_mode mode_NE) (B2R x / B2R y)) with (rnd (B2R x / B2R y)) in H.
    change (bpow radix2 (femax f)) with big in H.
    destruct (Rlt_bool_spec (Rabs (rnd (B2R x / B2R y))) big) as [L|L].
    - destruct H as (H1 & H2 & _). apply result_key; auto. unfold f_div. now rewrite H2.
    - assert (P : forall a b, 0 <= a -> 0 < b -> 0 <= a / b).
      { intros a b Ha Hb. apply Rmult_le_pos; auto. apply Rlt_le, Rinv_0_lt_compat, Hb. }
      apply (overflow_key _ (xorb (Bsign x) (Bsign y))); auto; intros S.
      + apply rnd_nonneg. destruct (Bsign x) eqn:Sx, (Bsign y) eqn:Sy; try discriminate.
        * pose proof (sign_neg x Fx Sx). pose proof (sign_neg y Fy Sy).
          replace (B2R x / B2R y) with ((- B2R x) / (- B2R y)) by (field; auto). apply P; lra.
        * pose proof (sign_pos x Fx Sx). pose proof (sign_pos y Fy Sy). apply P; lra.
      + apply rnd_nonpos. destruct (Bsign x) eqn:Sx, (Bsign y) eqn:Sy; try discriminate.
        * pose proof (sign_neg x Fx Sx). pose proof (sign_pos y Fy Sy).
          pose proof (P (- B2R x) (B2R y) ltac:(lra) ltac:(lra)). replace (B2R x / B2R y) with (- (- B2R x / B2R y)) by (field; auto). lra.
        * pose proof (sign_pos x Fx Sx). pose proof (sign_neg y Fy Sy).
          pose proof (P (B2R x) (- B2R y) ltac:(lra) ltac:(lra)). replace (B2R x / B2R y) with (- (B2R x / - B2R y)) by (field; auto). lra.
  Qed.

  Notation veq := (veq f).
  Lemma eqb_key (a b : B) : Beqb a b = true <-> is_nan a = false /\ is_nan b = false /\ key a = key b.
  Proof.
    rewrite eqb_cmp. destruct (is_nan a) eqn:Ha; [|destruct (is_nan b) eqn:Hb].
    - rewrite (proj2 (cmp_none f a b)) by auto. split; [discriminate|intros (Q & _); discriminate].
    - rewrite (proj2 (cmp_none f a b)) by auto. split; [discriminate|intros (_ & Q & _); discriminate].
    - rewrite cmp_key by auto. destruct (Rcompare_spec (key a) (key b)); split; intros Q; try discriminate; repeat split; try lra; auto.
  Qed.
  Lemma veq_key (a b : B) : veq a b <-> is_nan a = is_nan b /\ (is_nan a = false -> key a = key b).
  Proof.
    unfold veq. rewrite eqb_key. destruct (is_nan a), (is_nan b); intuition congruence.
  Qed.
  Lemma veq_refl a : veq a a. Proof. apply veq_key. auto. Qed.
  Lemma veq_sym a b : veq a b -> veq b a.
  Proof. rewrite !veq_key. intros [H1 H2]. split; auto. intros H. symmetry. apply H2. congruence. Qed.
  Lemma veq_trans a b c : veq a b -> veq b c -> veq a c.
  Proof. rewrite !veq_key. intros [H1 H2] [H3 H4]. split; [congruence|]. intros H. rewrite H2, H4 by congruence. reflexivity. Qed.
  Lemma key_inf_big (x : B) : is_nan x = false -> is_finite x = false -> key x = big \/ key x = - big.
  Proof. destruct x as [|[]| |]; cbn; auto; discriminate. Qed.
  Lemma key_lt_big (x : B) : is_finite x = true -> - big < key x < big.
  Proof. intros H. rewrite key_finite by auto. pose proof (B2R_big f x). apply Rabs_def2 in H0. lra. Qed.
  Lemma key_inj (x y : B) : is_nan x = false -> is_nan y = false -> key x = key y -> is_finite x = is_finite y.
  Proof.
    intros Nx Ny K. destruct (is_finite x) eqn:Fx, (is_finite y) eqn:Fy; auto.
    - pose proof (key_lt_big x Fx). destruct (key_inf_big y Ny Fy); lra.
    - pose proof (key_lt_big y Fy). destruct (key_inf_big x Nx Fx); lra.
  Qed.
  (** Equal values: equal floats, or both zero. *)
  Lemma veq_cases (x y : B) : veq x y -> x = y \/ (B2R x = 0 /\ B2R y = 0 /\ is_finite x = true /\ is_finite y = true).
  Proof.
    rewrite veq_key. intros [N K]. destruct (is_nan x) eqn:Nx.
    { left. destruct x, y; try discriminate; reflexivity. }
    specialize (K eq_refl). pose proof (key_inj x y Nx (eq_sym N) K) as Fi. destruct (is_finite x) eqn:Fx.
    - rewrite !key_finite in K by auto. destruct (Req_dec (B2R x) 0) as [Z|Z]; [right; repeat split; auto; congruence|left].
      apply B2R_inj; auto; destruct x, y; try discriminate; cbn in *; try lra; auto.
    - left. destruct x as [|[]| |], y as [|[]| |]; try discriminate; auto; cbn in K; pose proof (big_pos f); lra.
  Qed.
  Lemma zero_of (x : B) : is_finite x = true -> B2R x = 0 -> exists s, x = B754_zero s.
  Proof.
    destruct x as [s|s| |s m e H]; try discriminate; eauto. cbn. intros _ H0. exfalso.
    apply eq_0_F2R in H0. destruct s; discriminate.
  Qed.
  Lemma add_veq (a b c : B) : veq a b -> veq (f_add a c) (f_add b c).
  Proof.
    intros H. destruct (veq_cases a b H) as [-> |(Ha & Hb & Fa & Fb)]; [apply veq_refl|].
    apply zero_of in Ha as [s ->]; auto. apply zero_of in Hb as [s' ->]; auto.
    unfold f_add. destruct c as [t|t| |t m e Hc]; cbn; try apply veq_refl.
    destruct s, s', t; left; reflexivity.
  Qed.
  Lemma key_opp (x : B) : key (Bopp x) = - key x.
  Proof.
    destruct (is_finite x) eqn:Fx.
    - rewrite !key_finite by (rewrite ?is_finite_Bopp; auto). apply B2R_Bopp.
    - destruct x as [|[]| |]; try discriminate; cbn; lra.
  Qed.
  Lemma nan_opp (x : B) : is_nan (Bopp x) = is_nan x. Proof. apply is_nan_Bopp. Qed.
  Lemma opp_veq (a b : B) : veq a b -> veq (Bopp a) (Bopp b).
  Proof. rewrite !veq_key, !nan_opp, !key_opp. intros [H1 H2]. split; auto. intros H. now rewrite H2. Qed.
  Lemma key_veq (x y : B) : is_nan x = false -> is_nan y = false -> key x = key y -> veq x y.
  Proof. intros. apply veq_key. split; auto. congruence. Qed.
  Lemma add_neg (a b : B) : veq (f_add (Bopp a) (Bopp b)) (Bopp (f_add a b)).
  Proof.
    destruct (is_finite a) eqn:Fa; [destruct (is_finite b) eqn:Fb|].
    - destruct (add_key a b Fa Fb) as (N1 & K1 & _).
      destruct (add_key (Bopp a) (Bopp b)) as (N2 & K2 & _); rewrite ?is_finite_Bopp; auto.
      apply key_veq; rewrite ?nan_opp; auto. rewrite key_opp, K1, K2, !B2R_Bopp.
      replace (- B2R a + - B2R b) with (- (B2R a + B2R b)) by lra. now rewrite rnd_opp, sat_opp.
    - destruct b as [t|t| |t m e H]; try discriminate; destruct a as [s|s| |s m e H]; try discriminate; apply veq_refl.
    - destruct a as [s|s| |s m e H]; try discriminate; [|apply veq_refl].
      destruct b as [t|t| |t m e H]; try apply veq_refl. destruct s, t; apply veq_refl.
  Qed.
  Lemma mult_neg (a b : B) : veq (f_mult (Bopp a) b) (Bopp (f_mult a b)).
  Proof.
    destruct (is_finite a) eqn:Fa; [destruct (is_finite b) eqn:Fb|].
    - destruct (mult_key a b Fa Fb) as (N1 & K1 & _).
      destruct (mult_key (Bopp a) b) as (N2 & K2 & _); rewrite ?is_finite_Bopp; auto.
      apply key_veq; rewrite ?nan_opp; auto. rewrite key_opp, K1, K2, !B2R_Bopp.
      replace (- B2R a * B2R b) with (- (B2R a * B2R b)) by lra. now rewrite rnd_opp, sat_opp.
    - destruct b as [t|t| |t m e H]; try discriminate; destruct a as [s|s| |s m e H]; try discriminate;
        try destruct s; try destruct t; apply veq_refl.
    - destruct a as [s|s| |s m e H]; try discriminate; [|apply veq_refl].
      destruct b as [t|t| |t m e H]; try apply veq_refl; destruct s, t; apply veq_refl.
  Qed.
  Lemma sub_anti (a b : B) : veq (f_sub a b) (Bopp (f_sub b a)).
  Proof.
    destruct (is_finite a) eqn:Fa; [destruct (is_finite b) eqn:Fb|].
    - destruct (sub_key a b Fa Fb) as (N1 & K1 & _). destruct (sub_key b a Fb Fa) as (N2 & K2 & _).
      apply key_veq; rewrite ?nan_opp; auto. rewrite key_opp, K1, K2.
      replace (B2R a - B2R b) with (- (B2R b - B2R a)) by lra. now rewrite rnd_opp, sat_opp.
    - destruct b as [t|t| |t m e H]; try discriminate; destruct a as [s|s| |s m e H]; try discriminate;
        try destruct s; try destruct t; apply veq_refl.
    - destruct a as [s|s| |s m e H]; try discriminate; [|destruct b; apply veq_refl].
      destruct b as [t|t| |t m e H]; try apply veq_refl; destruct s; try destruct t; apply veq_refl.
  Qed.
  Lemma add_comm_veq (a b : B) : veq (f_add a b) (f_add b a).
  Proof.
    destruct (is_finite a) eqn:Fa; [destruct (is_finite b) eqn:Fb|].
    - destruct (add_key a b Fa Fb) as (N1 & K1 & _). destruct (add_key b a Fb Fa) as (N2 & K2 & _).
      apply key_veq; auto. now rewrite K1, K2, Rplus_comm.
    - destruct b as [t|t| |t m e H]; try discriminate; destruct a as [s|s| |s m e H]; try discriminate; apply veq_refl.
    - destruct a as [s|s| |s m e H]; try discriminate; destruct b as [t|t| |t m e H]; try apply veq_refl; destruct s, t; apply veq_refl.
  Qed.
  Lemma add_veq2 (a b c d : B) : veq a b -> veq c d -> veq (f_add a c) (f_add b d).
  Proof.
    intros H1 H2. eapply veq_trans; [apply add_veq, H1|]. eapply veq_trans; [apply add_comm_veq|].
    eapply veq_trans; [apply add_veq, H2|apply add_comm_veq].
  Qed.
  (** Small integers are exact. *)
  Lemma prec_emax : (fprec f <= femax f)%Z. Proof. destruct f; cbn; lia. Qed.
  Lemma int_correct z : (Z.abs z <= 2 ^ fprec f)%Z -> B2R (f_of_int f z) = IZR z /\ is_finite (f_of_int f z) = true.
  Proof.
    intros Hz. pose proof (binary_normalize_correct _ _ (fprec_gt_0 f) (fprec_lt_emax f) mode_NE z 0 false) as H.
    assert (FZ : fmt_real (IZR z)).
    { unfold fmt_real. destruct (Z.eq_dec (Z.abs z) (2 ^ fprec f)) as [E|E].
      - assert (P : generic_format radix2 fexp (bpow radix2 (fprec f))).
        { apply generic_format_bpow. unfold SpecFloat.fexp, SpecFloat.emin. destruct f; cbn; lia. }
        rewrite <- (IZR_Zpower radix2) in P by (destruct f; cbn; lia). change (radix2 ^ fprec f)%Z with (2 ^ fprec f)%Z in P. rewrite <- E in P.
        destruct (Z.abs_spec z) as [[_ Q]|[_ Q]]; rewrite Q in P; auto. apply generic_format_opp in P. rewrite <- opp_IZR, Z.opp_involutive in P. exact P.
      - apply generic_format_FLT. exists (Float radix2 z 0); cbn.
        + unfold F2R; cbn. lra.
        + assert (P : (2 ^ fprec f > 0)%Z) by (destruct f; cbn; lia). change (Z.pow_pos 2 _) with (2 ^ fprec f)%Z. lia.
        + unfold SpecFloat.emin. destruct f; cbn; lia. }
    assert (R0 : F2R (Float radix2 z 0) = IZR z) by (unfold F2R; cbn; lra).
    cbv zeta in H. rewrite R0 in H. change (round radix2 _ (round_mode mode_NE) (IZR z)) with (rnd (IZR z)) in H. rewrite (rnd_id _ FZ) in H.
    rewrite Rlt_bool_true in H.
    - split; apply H.
    - apply Rle_lt_trans with (bpow radix2 (fprec f)).
      + rewrite <- abs_IZR, <- IZR_Zpower by (destruct f; cbn; lia). apply IZR_le. exact Hz.
      + apply bpow_lt. destruct f; cbn; lia.
  Qed.
  Lemma zero_val : B2R (f_of_int f 0) = 0 /\ is_finite (f_of_int f 0) = true.
  Proof. apply int_correct. destruct f; cbn; lia. Qed.
  Lemma one_val : B2R (f_of_int f 1) = 1 /\ is_finite (f_of_int f 1) = true.
  Proof. apply int_correct. destruct f; cbn; lia. Qed.
  Lemma two_val : B2R (f_of_int f 2) = 2 /\ is_finite (f_of_int f 2) = true.
  Proof. apply int_correct. destruct f; cbn; lia. Qed.
  Lemma fmt_1 : fmt_real 1. Proof. rewrite <- (proj1 one_val). apply fmt_B. Qed.
  Lemma zero_is : f_of_int f 0 = B754_zero false. Proof. destruct f; reflexivity. Qed.
  Lemma fin_nan (x : B) : is_finite x = true -> is_nan x = false. Proof. destruct x; auto; discriminate. Qed.
  (** Doubling and halving. *)
  Lemma fmt_double x : fmt_real x -> fmt_real (2 * x).
  Proof.
    intros H. apply FLT_format_generic in H; [|apply fprec_gt_0]. destruct H as [[m e] Hx Hm He]. cbn in *.
    apply generic_format_FLT. exists (Float radix2 m (e + 1)); cbn; auto; [|lia].
    rewrite Hx. unfold F2R. cbn. rewrite bpow_plus_1. cbn. lra.
  Qed.
  (** A difference of distinct floats does not round to zero. *)
  Lemma rnd_sub_pos (x y : B) : B2R x < B2R y -> 0 < rnd (B2R y - B2R x).
  Proof.
    intros H. assert (N : rnd (B2R y - B2R x) <> 0).
    { unfold rnd. rewrite <- Rplus_opp_r with (r := B2R x) at 1. intros K.
      pose proof (round_plus_neq_0 radix2 fexp ZnearestE (B2R y) (- B2R x)) as P.
      apply P; [apply fmt_B|apply generic_format_opp, fmt_B|lra|]. unfold Rminus in K. rewrite K. lra. }
    pose proof (rnd_nonneg (B2R y - B2R x)). lra.
  Qed.
End Core.
