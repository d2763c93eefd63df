(** Decimal literals denote the nearest float. *)
From Coq Require Import ZArith Reals Lia Lra.
From Flocq Require Import Core.Core IEEE754.BinarySingleNaN.
From Verif Require Import Base TokModel LexSpec Elem GeoModel FloatInst FloatLit MatModel GeoSpec OpsSpec DecSpec OrderProofs FloatCore OpsThms.
Local Open Scope R_scope.

Lemma pow10_pos k : 0 < 10 ^ k. Proof. apply pow_lt. lra. Qed.
Lemma pow10_Z k : IZR (Zpos (Z.to_pos (10 ^ Z.of_nat k))) = 10 ^ k.
Proof. rewrite Z2Pos.id by (apply Z.pow_pos_nonneg; lia). now rewrite <- pow_IZR. Qed.

Section Dec.
Variable f : fmt.
Notation fexp := (SpecFloat.fexp (fprec f) (femax f)).

Lemma quot_aux neg w (pf : SpecFloat.valid_binary (fprec f) (femax f) w = true) (y : R) :
  (if Rlt_bool (Rabs (rnd f y)) (big f) then SF2R radix2 w = rnd f y /\ is_finite_SF w = true /\ sign_SF w = neg
   else w = SpecFloat.S754_infinity neg) ->
  let z := SF2B w pf : flt f in
  is_finite z = Rlt_bool (Rabs (rnd f y)) (big f) /\ Bsign z = neg /\ is_nan z = false /\
  (if Rlt_bool (Rabs (rnd f y)) (big f) then B2R z = rnd f y else z = B754_infinity neg).
Proof.
  cbv zeta. destruct (Rlt_bool (Rabs (rnd f y)) (big f)).
  - intros (H1 & H2 & H3). rewrite is_finite_SF2B, B2R_SF2B, Bsign_SF2B. repeat split; auto.
    revert pf. destruct w; try discriminate; reflexivity.
  - intros ->. repeat split; reflexivity.
Qed.
Lemma quot_rounds neg p q : rounds_to f (IZR (signed neg (Zpos p)) / IZR (Zpos q)) (f_quot f neg p q) /\
  Bsign (f_quot f neg p q) = neg /\ is_nan (f_quot f neg p q) = false.
Proof.
  pose proof (proj2 (Bdiv_correct_aux (fprec f) (femax f) (fprec_gt_0 f) (fprec_lt_emax f) mode_NE neg p 0 false q 0)) as H.
  change (cond_Zopp false (Z.pos q)) with (Z.pos q) in H. change (cond_Zopp neg (Z.pos p)) with (signed neg (Z.pos p)) in H.
  cbv zeta in H. unfold F2R in H; cbn [Fnum Fexp bpow] in H. rewrite !Rmult_1_r in H. change (round_mode mode_NE) with ZnearestE in H.
  set (x := IZR (signed neg (Z.pos p)) / IZR (Z.pos q)) in *.
  change (round radix2 fexp ZnearestE x) with (rnd f x) in H. change (bpow radix2 (femax f)) with (big f) in H.
  apply (quot_aux _ _ (proj1 (Bdiv_correct_aux (fprec f) (femax f) (fprec_gt_0 f) (fprec_lt_emax f) mode_NE neg p 0 false q 0))) in H.
  cbv zeta in H. fold (f_quot f neg p q) in H. rewrite Bool.xorb_false_r in H. set (z := f_quot f neg p q) in *. rename H into Fz.
  destruct Fz as (F1 & F2 & F3 & F4). split; [|split; assumption].
  assert (Sg : if neg then x < 0 else 0 < x).
  { subst x. assert (0 < IZR (Z.pos q)) by (now apply IZR_lt). assert (0 < IZR (Z.pos p)) by (now apply IZR_lt).
    destruct neg; cbn [signed]; [rewrite opp_IZR; unfold Rdiv; rewrite Ropp_mult_distr_l_reverse;
      apply Ropp_lt_gt_0_contravar|]; apply Rdiv_lt_0_compat; lra. }
  unfold rounds_to. cbv zeta. change (nearest f x) with (rnd f x). change (bpow radix2 (femax f)) with (big f).
  destruct (Rlt_bool_spec (Rabs (rnd f x)) (big f)) as [L|L]; [left; auto|right].
  destruct neg.
  - right. split; auto. assert (rnd f x <= 0) by (apply rnd_nonpos; lra). rewrite Rabs_left1 in L by auto. lra.
  - left. split; auto. assert (0 <= rnd f x) by (apply rnd_nonneg; lra). rewrite Rabs_pos_eq in L by auto. lra.
Qed.

Lemma dec_rounds neg m k : rounds_to f (decimal neg m k) (f_dec_ieee f neg m k) /\
  Bsign (f_dec_ieee f neg m k) = neg /\ is_nan (f_dec_ieee f neg m k) = false.
Proof.
  destruct m as [|p]; cbn [f_dec_ieee].
  - repeat split. unfold decimal. replace (IZR (signed neg (Z.of_N 0))) with 0 by now destruct neg.
    unfold Rdiv. rewrite Rmult_0_l. left. change (nearest f 0) with (rnd f 0). rewrite rnd_0, Rabs_R0. repeat split. apply bpow_gt_0.
  - unfold decimal. rewrite <- pow10_Z. apply quot_rounds.
Qed.

Lemma rounds_finite x (z : flt f) : rounds_to f x z -> is_finite z = true -> B2R z = rnd f x.
Proof. intros [(_ & _ & H)|[[_ ->]|[_ ->]]] Hf; [exact H|discriminate..]. Qed.
Lemma rounds_closest x (z : flt f) : rounds_to f x z -> is_finite z = true ->
  forall y : flt f, is_finite y = true -> Rabs (B2R z - x) <= Rabs (B2R y - x).
Proof.
  intros H Hf y Hy. rewrite (rounds_finite x z H Hf). unfold rnd.
  exact (proj2 (round_N_pt radix2 fexp _ x) (B2R y) (generic_format_B2R _ _ y)).
Qed.
Lemma rounds_det x (z z' : flt f) : rounds_to f x z -> rounds_to f x z' -> Bsign z = Bsign z' -> z = z'.
Proof.
  pose proof (big_pos f) as Bp. unfold rounds_to. cbv zeta. change (bpow radix2 (femax f)) with (big f).
  intros [(L & Hf & E)|[[L ->]|[L ->]]] [(L' & Hf' & E')|[[L' ->]|[L' ->]]] S; try reflexivity;
    try (apply Rabs_def2 in L); try (apply Rabs_def2 in L'); try lra.
  apply B2R_Bsign_inj; congruence.
Qed.
Lemma rounds_self (y z : flt f) : is_finite y = true -> rounds_to f (B2R y) z -> Bsign z = Bsign y -> z = y.
Proof.
  intros Hy Hz S. apply (rounds_det (B2R y)); auto. left. change (nearest f (B2R y)) with (rnd f (B2R y)). rewrite rnd_B.
  repeat split; auto. apply abs_B2R_lt_emax.
Qed.
Lemma rounds_mono x y (a b : flt f) : rounds_to f x a -> rounds_to f y b -> x <= y -> Bleb a b = true.
Proof.
  pose proof (big_pos f) as Bp. unfold rounds_to. cbv zeta. change (bpow radix2 (femax f)) with (big f).
  change (nearest f x) with (rnd f x). change (nearest f y) with (rnd f y). intros Ha Hb L. apply (rnd_le f) in L.
  destruct Ha as [(La & Hfa & Ea)|[[La ->]|[La ->]]], Hb as [(Lb & Hfb & Eb)|[[Lb ->]|[Lb ->]]];
    try (apply Rabs_def2 in La); try (apply Rabs_def2 in Lb); try lra; try reflexivity.
  - rewrite Bleb_correct by auto. apply Rle_bool_true. congruence.
  - destruct a; try discriminate; destruct s; reflexivity.
  - destruct b; try discriminate; destruct s; reflexivity.
Qed.
Lemma int_rounds z : rounds_to f (IZR z) (f_of_int f z) /\ is_nan (f_of_int f z) = false.
Proof.
  unfold f_of_int. pose proof (binary_normalize_correct _ _ (fprec_gt_0 f) (fprec_lt_emax f) mode_NE z 0 false) as H.
  cbv zeta in H. unfold F2R in H; cbn [Fnum Fexp bpow] in H. rewrite Rmult_1_r in H. change (round_mode mode_NE) with ZnearestE in H.
  change (round radix2 fexp ZnearestE (IZR z)) with (rnd f (IZR z)) in H. change (bpow radix2 (femax f)) with (big f) in H.
  unfold rounds_to. cbv zeta. change (bpow radix2 (femax f)) with (big f). change (nearest f (IZR z)) with (rnd f (IZR z)).
  destruct (Rlt_bool_spec (Rabs (rnd f (IZR z))) (big f)) as [L|L].
  - destruct H as (H1 & H2 & H3). split; [left; auto|]. revert H2. now destruct (binary_normalize _ _ _ _ _ _ _ _).
  - cbn in H. destruct (binary_normalize _ _ _ _ _ _ _ _) as [s|s| |s mm e Hb]; try discriminate. cbn in H. injection H as ->.
    split; [right|reflexivity]. destruct (Rlt_bool_spec (IZR z) 0) as [N|N].
    + right. split; auto. assert (rnd f (IZR z) <= 0) by (apply rnd_nonpos; lra). rewrite Rabs_left1 in L by auto. lra.
    + left. split; auto. assert (0 <= rnd f (IZR z)) by (apply rnd_nonneg; lra). rewrite Rabs_pos_eq in L by auto. lra.
Qed.

(** ** Where floats end *)
Lemma fexp_top : fexp (femax f) = (femax f - fprec f)%Z. Proof. now destruct f. Qed.
Lemma below_big : bpow radix2 (femax f) = big f. Proof. reflexivity. Qed.
Lemma step_half : bpow radix2 (femax f - fprec f) = 2 * bpow radix2 (femax f - fprec f - 1).
Proof. replace (femax f - fprec f)%Z with (1 + (femax f - fprec f - 1))%Z at 1 by ring. rewrite bpow_plus. reflexivity. Qed.
Lemma max_fmt : fmt_real f (big f - bpow radix2 (femax f - fprec f)).
Proof.
  unfold fmt_real. replace (big f - bpow radix2 (femax f - fprec f)) with
    (F2R (Float radix2 (2 ^ fprec f - 1) (femax f - fprec f))).
  - apply generic_format_F2R. intros _. unfold cexp.
    assert (mag radix2 (F2R (Float radix2 (2 ^ fprec f - 1) (femax f - fprec f))) <= femax f)%Z as L.
    { apply mag_le_bpow; [apply F2R_neq_0; now destruct f|]. rewrite <- F2R_Zabs. unfold F2R; cbn [Fnum Fexp].
      replace (femax f) with (fprec f + (femax f - fprec f))%Z at 2 by ring. rewrite bpow_plus.
      apply Rmult_lt_compat_r; [apply bpow_gt_0|]. rewrite <- IZR_Zpower by (now destruct f). apply IZR_lt. now destruct f. }
    unfold SpecFloat.fexp. set (mm := mag_val _ _ _) in *. clearbody mm.
    assert (SpecFloat.emin (fprec f) (femax f) <= femax f - fprec f)%Z by (now destruct f). lia.
  - unfold F2R; cbn [Fnum Fexp]. rewrite minus_IZR. change (2 ^ fprec f)%Z with (radix2 ^ fprec f)%Z.
    rewrite IZR_Zpower by (now destruct f). rewrite Rmult_minus_distr_r, <- bpow_plus.
    replace (fprec f + (femax f - fprec f))%Z with (femax f) by ring. rewrite below_big. ring.
Qed.
Lemma limit_bounds : bpow radix2 (femax f - 1) <= overflow_limit f < bpow radix2 (femax f).
Proof.
  unfold overflow_limit. pose proof (bpow_gt_0 radix2 (femax f - fprec f - 1)). split; [|lra].
  replace (femax f) with (1 + (femax f - 1))%Z at 2 by ring. rewrite (bpow_plus radix2 1).
  assert (bpow radix2 (femax f - fprec f - 1) <= bpow radix2 (femax f - 1)) by (apply bpow_le; now destruct f).
  change (bpow radix2 1) with 2. lra.
Qed.
Lemma rnd_limit : rnd f (overflow_limit f) = big f.
Proof.
  pose proof limit_bounds as Lb. pose proof (bpow_gt_0 radix2 (femax f - 1)) as P1.
  assert (C : cexp radix2 fexp (overflow_limit f) = (femax f - fprec f)%Z).
  { unfold cexp. rewrite (mag_unique_pos radix2 _ (femax f)) by assumption. apply fexp_top. }
  unfold rnd, round, scaled_mantissa. rewrite C.
  assert (Sc : overflow_limit f * bpow radix2 (- (femax f - fprec f)) = IZR (2 ^ fprec f) - / 2).
  { unfold overflow_limit. rewrite Rmult_minus_distr_r, <- !bpow_plus.
    replace (femax f + - (femax f - fprec f))%Z with (fprec f) by ring.
    replace (femax f - fprec f - 1 + - (femax f - fprec f))%Z with (-1)%Z by ring.
    change (2 ^ fprec f)%Z with (radix2 ^ fprec f)%Z. rewrite IZR_Zpower by (now destruct f). reflexivity. }
  rewrite Sc. assert (Zn : ZnearestE (IZR (2 ^ fprec f) - / 2) = (2 ^ fprec f)%Z).
  { unfold Znearest. assert (Fl : Zfloor (IZR (2 ^ fprec f) - / 2) = (2 ^ fprec f - 1)%Z).
    { apply Zfloor_imp. rewrite plus_IZR, minus_IZR. lra. }
    rewrite Fl. rewrite Rcompare_Eq by (rewrite minus_IZR; lra).
    replace (negb (Z.even (2 ^ fprec f - 1))) with true by (now destruct f).
    apply Zceil_imp. rewrite minus_IZR. lra. }
  rewrite Zn. unfold F2R; cbn [Fnum Fexp]. change (2 ^ fprec f)%Z with (radix2 ^ fprec f)%Z.
  rewrite IZR_Zpower by (now destruct f). rewrite <- bpow_plus. rewrite <- below_big. f_equal. ring.
Qed.
Lemma below_limit x : 0 <= x -> (rnd f x < big f <-> x < overflow_limit f).
Proof.
  intros Hx. split; intros H.
  - destruct (Rlt_or_le x (overflow_limit f)) as [L|L]; auto. apply (rnd_le f) in L. rewrite rnd_limit in L. lra.
  - destruct (Rlt_or_le (rnd f x) (big f)) as [L|L]; auto. exfalso.
    set (M := big f - bpow radix2 (femax f - fprec f)).
    assert (N : Rabs (rnd f x - x) <= Rabs (M - x)) by exact (proj2 (round_N_pt radix2 fexp _ x) M max_fmt).
    pose proof step_half as S. pose proof (bpow_gt_0 radix2 (femax f - fprec f - 1)) as P.
    unfold overflow_limit in H. rewrite below_big in H.
    destruct (Rle_or_lt x M) as [Le|Gt].
    + apply (rnd_le f) in Le. rewrite (rnd_id f M max_fmt) in Le. unfold M in Le. lra.
    + unfold M in *. rewrite Rabs_pos_eq in N by lra. rewrite Rabs_left in N by lra. lra.
Qed.
Lemma rounds_finite_iff x (z : flt f) : rounds_to f x z -> (is_finite z = true <-> Rabs x < overflow_limit f).
Proof.
  intros H. assert (E : is_finite z = true <-> rnd f (Rabs x) < big f).
  { assert (A : rnd f (Rabs x) = Rabs (rnd f x)).
    { unfold Rabs at 1. destruct (Rcase_abs x) as [N|P].
      - rewrite rnd_opp. rewrite Rabs_left1; [reflexivity|]. apply rnd_nonpos. lra.
      - rewrite Rabs_pos_eq; [reflexivity|]. apply rnd_nonneg. lra. }
    rewrite A. pose proof (big_pos f) as Bp. destruct H as [(L & Hf & _)|[[L ->]|[L ->]]];
      change (nearest f x) with (rnd f x) in L; change (bpow radix2 (femax f)) with (big f) in L.
    - split; auto.
    - split; [discriminate|]. intros K. apply Rabs_def2 in K. lra.
    - split; [discriminate|]. intros K. apply Rabs_def2 in K. lra. }
  rewrite E. apply below_limit, Rabs_pos.
Qed.
End Dec.
