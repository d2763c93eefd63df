(** Literals with an exponent. *)
From Coq Require Import ZArith Reals Lia Lra.
From Flocq Require Import Core.Core Relative IEEE754.BinarySingleNaN.
From Verif Require Import Base TokModel LexSpec FloatInst FloatLit OpsSpec DecSpec OrderProofs FloatCore DecThms
  TokProofs LexProofs LexThms TextThms DecText.
Open Scope list_scope.

Section Text.
Variables (f : fmt) (pw : flt f -> flt f) (cc : CharClass) (Hcc : cc_ok cc).
Notation fo := (fo_ieee f pw).
Lemma dec_mantissa_any body m k : dec_num body m k -> exists dot, mantissa cc body dot /\ (In c_dot body -> dot = true).
Proof.
  intros H. destruct (in_dec N.eq_dec c_dot body) as [Hi|Hi].
  - exists true. split; [eapply dec_mantissa; eauto|auto].
  - exists false. split; [|tauto]. destruct H as [a Hne Ha|a b Hne Ha Hb]; [now apply digits_mantissa|].
    elim Hi. apply in_or_app. right. now left.
Qed.
Lemma exponent_lexeme chk text neg a e : exponent_text text neg a e -> exists m k,
  lexeme fo cc chk text (TFloat (f_mult (f_dec_ieee f neg m k) (pw (f_of_int f e)))) [] /\ a = decimal neg m k /\ ~ In c_cr text.
Proof.
  intros (sg & body & m & k & esg & eneg & ds & -> & Hs & Hd & Hes & Hi & Hc & ->). exists m, k. split; [|split; [reflexivity|]].
  - destruct (dec_mantissa_any body m k Hd) as (dot & Hm & Hdot). apply lx_num.
    apply (nu_dec_exp fo cc chk sg neg body dot m k (esg ++ ds) e []); auto.
    + destruct Hi as (H1 & H2 & H3). eapply nu_int; [exact Hes|now apply digits_mantissa| |exact I]. now split.
    + tauto.
  - intros H. rewrite app_assoc in H. apply in_app_or in H as [H|H]; [now apply (dec_no sg neg body m k _ Hs Hd) in H as [_ H]|].
    destruct H as [H|H]; [discriminate|]. apply in_app_or in H as [H|H].
    + destruct Hes; cbn in H; intuition discriminate.
    + destruct Hi as (_ & Ha & _). apply (proj1 (Forall_forall _ _) Ha) in H. discriminate.
Qed.
Lemma exponent_token chk text neg a e : exponent_text text neg a e -> exists m k, a = decimal neg m k /\
  tokenize fo cc chk text = Done (Ok [mkTok (mkPos 1 1) (TFloat (f_mult (f_dec_ieee f neg m k) (pw (f_of_int f e))))]).
Proof.
  intros H. destruct (exponent_lexeme chk text neg a e H) as (m & k & Hl & Ha & Hc). exists m, k. split; [assumption|].
  apply (only_token fo cc Hcc); [assumption|]. now apply replace_crlf_id.
Qed.
End Text.

Local Open Scope R_scope.
Section Num.
Variable f : fmt.
Notation flt := (flt f).
Notation u := (unit_error f).
Lemma small_int_fmt e : (Z.abs e <= 400)%Z -> fmt_real f (IZR e).
Proof.
  intros H. unfold fmt_real. destruct (Z.eq_dec e 0) as [->|Hne]; [apply generic_format_0|]. replace (IZR e) with (F2R (Float radix2 e 0)) by (unfold F2R; cbn; ring).
  apply generic_format_F2R. intros _. unfold cexp, SpecFloat.fexp, SpecFloat.emin.
  apply Z.max_lub; [|destruct f; cbn; lia].
  assert (mag radix2 (F2R (Float radix2 e 0)) <= 9)%Z.
  { apply mag_le_bpow; [apply F2R_neq_0; exact Hne|].
    change (bpow radix2 9) with (IZR 512). unfold F2R; cbn [Fnum Fexp bpow]. rewrite Rmult_1_r, <- abs_IZR. apply IZR_lt. lia. }
  destruct f; cbn [fprec]; lia.
Qed.
Lemma small_int e : (Z.abs e <= 400)%Z -> is_finite (f_of_int f e) = true /\ B2R (f_of_int f e) = IZR e.
Proof.
  intros H. destruct (int_rounds f e) as [Hr _]. pose proof (small_int_fmt e H) as Hf.
  assert (L : Rabs (IZR e) < big f).
  { rewrite <- abs_IZR. apply Rle_lt_trans with (IZR 400); [now apply IZR_le|]. unfold big.
    apply Rlt_le_trans with (bpow radix2 9); [change (bpow radix2 9) with (IZR 512); apply IZR_lt; lia|].
    apply bpow_le. destruct f; cbn; lia. }
  assert (E : nearest f (IZR e) = IZR e) by (now apply rnd_id).
  unfold rounds_to in Hr. cbv zeta in Hr. rewrite E in Hr. change (bpow radix2 (femax f)) with (big f) in Hr.
  destruct Hr as [(_ & H1 & H2)|[[H1 _]|[H1 _]]]; [auto| |]; exfalso; revert L H1; unfold Rabs; destruct (Rcase_abs (IZR e)); lra.
Qed.
Lemma mult_rounds (x y : flt) : is_finite x = true -> is_finite y = true ->
  rounds_to f (B2R x * B2R y) (f_mult x y) /\ Bsign (f_mult x y) = xorb (Bsign x) (Bsign y).
Proof.
  intros Fx Fy. pose proof (Bmult_correct _ _ (fprec_gt_0 f) (fprec_lt_emax f) mode_NE x y) as H.
  change (round_mode mode_NE) with ZnearestE in H. change (Bmult mode_NE x y) with (f_mult x y) in H.
  unfold rounds_to. cbv zeta. change (nearest f (B2R x * B2R y)) with (rnd f (B2R x * B2R y)).
  change (round radix2 _ ZnearestE (B2R x * B2R y)) with (rnd f (B2R x * B2R y)) in H. change (bpow radix2 (femax f)) with (big f) in H |- *.
  destruct (Rlt_bool_spec (Rabs (rnd f (B2R x * B2R y))) (big f)) as [L|L].
  - destruct H as (H1 & H2 & H3). rewrite Fx, Fy in H2. split; [left; auto|]. apply H3. now destruct (f_mult x y).
  - assert (E : f_mult x y = B754_infinity (xorb (Bsign x) (Bsign y))).
    { apply B2SF_inj. rewrite H. unfold binary_overflow. cbn. now destruct (xorb _ _). }
    rewrite E. split; [|reflexivity]. right.
    assert (Sx : forall z : flt, is_finite z = true -> if Bsign z then B2R z <= 0 else 0 <= B2R z).
    { intros [s| | |s m e Hb] Hz; try discriminate; destruct s; cbn; try lra; unfold F2R; cbn [Fnum Fexp];
        pose proof (bpow_gt_0 radix2 e).
      - assert (IZR (Z.neg m) <= 0) by (apply IZR_le; lia). nra.
      - assert (0 <= IZR (Z.pos m)) by (apply IZR_le; lia). nra. }
    pose proof (Sx x Fx) as S1. pose proof (Sx y Fy) as S2.
    destruct (xorb (Bsign x) (Bsign y)) eqn:S; [right|left]; (split; [|reflexivity]).
    + assert (B2R x * B2R y <= 0) by (destruct (Bsign x), (Bsign y); try discriminate; nra).
      pose proof (rnd_nonpos f _ H0). rewrite Rabs_left1 in L by assumption. lra.
    + assert (0 <= B2R x * B2R y) by (destruct (Bsign x), (Bsign y); try discriminate; nra).
      pose proof (rnd_nonneg f _ H0). rewrite Rabs_pos_eq in L by assumption. lra.
Qed.

(** The relative error of one rounding. *)
Lemma unit_small : 0 < u <= 1 / 16777216.
Proof.
  unfold unit_error. split; [apply bpow_gt_0|]. replace (1 / 16777216) with (bpow radix2 (-24)).
  2: { change (bpow radix2 (-24)) with (/ IZR 16777216). field. }
  apply bpow_le. destruct f; cbn; lia.
Qed.
Lemma rel_error x : least_normal f <= Rabs x -> exists d, Rabs d <= u /\ rnd f x = x * (1 + d).
Proof.
  intros H. unfold rnd.
  change (round radix2 (SpecFloat.fexp (fprec f) (femax f)) ZnearestE x) with
    (round radix2 (FLT_exp (SpecFloat.emin (fprec f) (femax f)) (fprec f)) ZnearestE x).
  destruct (relative_error_N_FLT_ex radix2 (SpecFloat.emin (fprec f) (femax f)) (fprec f) (fprec_gt_0 f) (fun n => negb (Z.even n)) x) as (d & Hd & E).
  - eapply Rle_trans; [|exact H]. unfold least_normal, SpecFloat.emin. apply bpow_le. lia.
  - exists d. split; [|exact E]. replace u with (/ 2 * bpow radix2 (- fprec f + 1)); [exact Hd|].
    unfold unit_error. rewrite bpow_plus. cbn [bpow radix_val radix2 Z.pow_pos Pos.iter]. change (IZR (2 * 1)) with 2. field.
Qed.
Lemma rounds_rel x (z : flt) : rounds_to f x z -> least_normal f <= Rabs x < overflow_limit f ->
  is_finite z = true /\ exists d, Rabs d <= u /\ B2R z = x * (1 + d).
Proof.
  intros H [H1 H2]. assert (Hf : is_finite z = true) by (now apply (rounds_finite_iff f x z H)). split; [assumption|].
  rewrite (rounds_finite f x z H Hf). now apply rel_error.
Qed.
Lemma pow10_gt e : 0 < powerRZ 10 e. Proof. apply powerRZ_lt. lra. Qed.

Lemma product_bound a p (z1 z2 : flt) : rounds_to f a z1 -> rounds_to f p z2 ->
  least_normal f <= Rabs a < overflow_limit f -> least_normal f <= Rabs p < overflow_limit f ->
  2 * least_normal f <= Rabs (a * p) <= bpow radix2 (femax f - 1) ->
  is_finite (f_mult z1 z2) = true /\ Rabs (B2R (f_mult z1 z2) - a * p) <= ((1 + u) ^ 3 - 1) * Rabs (a * p).
Proof.
  intros R1 R2 L1 L2 [M1 M2]. destruct (rounds_rel _ _ R1 L1) as (F1 & d1 & D1 & E1). destruct (rounds_rel _ _ R2 L2) as (F2 & d2 & D2 & E2).
  destruct (mult_rounds z1 z2 F1 F2) as [R _]. pose proof unit_small as U.
  assert (P : B2R z1 * B2R z2 = (a * p) * ((1 + d1) * (1 + d2))) by (rewrite E1, E2; ring).
  rewrite P in R. apply Rabs_le_inv in D1, D2.
  assert (Q : 1 - 2 * u <= (1 + d1) * (1 + d2) <= 1 + 2 * u + u * u) by nra.
  assert (B : least_normal f <= Rabs (a * p * ((1 + d1) * (1 + d2))) < overflow_limit f).
  { rewrite Rabs_mult, (Rabs_pos_eq ((1 + d1) * (1 + d2))) by nra. pose proof (Rabs_pos (a * p)).
    pose proof (bpow_gt_0 radix2 (2 - femax f)) as G. unfold least_normal in *. split; [nra|].
    assert (overflow_limit f >= 3 / 2 * bpow radix2 (femax f - 1)).
    { unfold overflow_limit. replace (femax f) with (femax f - 1 + 1)%Z at 1 by ring. rewrite bpow_plus. change (bpow radix2 1) with 2.
      assert (bpow radix2 (femax f - fprec f - 1) <= bpow radix2 (femax f - 1 - 1)) by (apply bpow_le; destruct f; cbn; lia).
      replace (femax f - 1)%Z with (femax f - 1 - 1 + 1)%Z at 2 by ring.
      assert (bpow radix2 (femax f - 1) = 2 * bpow radix2 (femax f - 1 - 1)).
      { replace (femax f - 1)%Z with (1 + (femax f - 1 - 1))%Z at 1 by ring. now rewrite bpow_plus. }
      replace (femax f - 1 - 1 + 1)%Z with (femax f - 1)%Z by ring. lra. }
    pose proof (bpow_gt_0 radix2 (femax f - 1)) as G'. assert (Q' : (1 + d1) * (1 + d2) <= 5 / 4) by nra.
    apply Rle_lt_trans with (bpow radix2 (femax f - 1) * (5 / 4)); [apply Rmult_le_compat; nra|lra]. }
  destruct (rounds_rel _ _ R B) as (F3 & d3 & D3 & E3). split; [assumption|]. rewrite E3.
  replace (a * p * ((1 + d1) * (1 + d2)) * (1 + d3) - a * p) with ((a * p) * ((1 + d1) * (1 + d2) * (1 + d3) - 1)) by ring.
  rewrite Rabs_mult, Rmult_comm. apply Rmult_le_compat_r; [apply Rabs_pos|]. apply Rabs_le_inv in D3. apply Rabs_le.
  assert (0 <= (1 - u) * (1 - u) * (1 - u)) by (repeat apply Rmult_le_pos; lra).
  assert (A1 : (1 - u) * (1 - u) <= (1 + d1) * (1 + d2) <= (1 + u) * (1 + u)).
  { split; apply Rmult_le_compat; lra. }
  assert (A2 : (1 - u) * (1 - u) * (1 - u) <= (1 + d1) * (1 + d2) * (1 + d3) <= (1 + u) * (1 + u) * (1 + u)).
  { split; apply Rmult_le_compat; try lra; nra. }
  split; [|cbn; lra]. cbn [pow]. nra.
Qed.
Lemma product_exact a p (z1 z2 : flt) : rounds_to f a z1 -> rounds_to f p z2 ->
  fmt_real f a -> fmt_real f p -> Rabs a < overflow_limit f -> Rabs p < overflow_limit f -> rounds_to f (a * p) (f_mult z1 z2).
Proof.
  intros R1 R2 G1 G2 L1 L2. apply (rounds_finite_iff f a z1 R1) in L1. apply (rounds_finite_iff f p z2 R2) in L2.
  destruct (mult_rounds z1 z2 L1 L2) as [R _]. rewrite (rounds_finite f _ _ R1 L1), (rounds_finite f _ _ R2 L2) in R.
  now rewrite !rnd_id in R.
Qed.
End Num.

Section Claims.
Variables (f : fmt) (pw : flt f -> flt f) (cc : CharClass) (Hcc : cc_ok cc) (Hpw : good_powf f pw).
Notation fo := (fo_ieee f pw).
Definition denotes (chk : bool) (text : str) (z : flt f) : Prop := tokenize fo cc chk text = Done (Ok [mkTok (mkPos 1 1) (TFloat z)]).
Lemma good_at e : (Z.abs e <= 400)%Z -> rounds_to f (powerRZ 10 e) (pw (f_of_int f e)) /\ Bsign (pw (f_of_int f e)) = false.
Proof. intros H. destruct (small_int f e H) as [H1 H2]. now apply Hpw. Qed.
Lemma exponent_parts chk text neg a e : exponent_text text neg a e -> (Z.abs e <= 400)%Z -> exists z1 z2,
  denotes chk text (f_mult z1 z2) /\ rounds_to f a z1 /\ rounds_to f (powerRZ 10 e) z2 /\ Bsign z1 = neg /\ Bsign z2 = false.
Proof.
  intros H He. destruct (exponent_token f pw cc Hcc chk text neg a e H) as (m & k & -> & Ht).
  destruct (dec_rounds f neg m k) as (R1 & S1 & _). destruct (good_at e He) as [R2 S2].
  exists (f_dec_ieee f neg m k), (pw (f_of_int f e)). split; [exact Ht|]. auto.
Qed.
Lemma exponent_bound chk text neg a e : exponent_text text neg a e -> (Z.abs e <= 400)%Z ->
  least_normal f <= Rabs a < overflow_limit f -> least_normal f <= powerRZ 10 e < overflow_limit f ->
  2 * least_normal f <= Rabs (a * powerRZ 10 e) <= bpow radix2 (femax f - 1) ->
  exists z, denotes chk text z /\ is_finite z = true /\
    Rabs (B2R z - a * powerRZ 10 e) <= ((1 + unit_error f) ^ 3 - 1) * Rabs (a * powerRZ 10 e).
Proof.
  intros H He L1 L2 L3. destruct (exponent_parts chk text neg a e H He) as (z1 & z2 & Ht & R1 & R2 & _).
  exists (f_mult z1 z2). split; [assumption|]. apply product_bound; auto. now rewrite Rabs_pos_eq by (apply Rlt_le, pow10_gt).
Qed.
Lemma exponent_exact chk text neg a e : exponent_text text neg a e -> (Z.abs e <= 400)%Z ->
  (exists y : flt f, is_finite y = true /\ B2R y = a) -> (exists y : flt f, is_finite y = true /\ B2R y = powerRZ 10 e) ->
  exists z, denotes chk text z /\ rounds_to f (a * powerRZ 10 e) z /\ Bsign z = neg.
Proof.
  intros H He (y1 & Y1 & Ea) (y2 & Y2 & Ep). destruct (exponent_parts chk text neg a e H He) as (z1 & z2 & Ht & R1 & R2 & S1 & S2).
  exists (f_mult z1 z2). split; [assumption|]. rewrite <- Ea in R1. rewrite <- Ep in R2.
  assert (B1 : B2R z1 = B2R y1 /\ is_finite z1 = true).
  { destruct R1 as [(_ & Hf & E)|[[L _]|[L _]]]; [split; [rewrite E; apply rnd_B|assumption]| |]; exfalso;
      change (nearest f (B2R y1)) with (rnd f (B2R y1)) in L; rewrite rnd_B in L; pose proof (abs_B2R_lt_emax _ _ y1) as A;
      unfold Rabs in A; destruct (Rcase_abs (B2R y1)); pose proof (bpow_gt_0 radix2 (femax f)); lra. }
  assert (B2 : B2R z2 = B2R y2 /\ is_finite z2 = true).
  { destruct R2 as [(_ & Hf & E)|[[L _]|[L _]]]; [split; [rewrite E; apply rnd_B|assumption]| |]; exfalso;
      change (nearest f (B2R y2)) with (rnd f (B2R y2)) in L; rewrite rnd_B in L; pose proof (abs_B2R_lt_emax _ _ y2) as A;
      unfold Rabs in A; destruct (Rcase_abs (B2R y2)); pose proof (bpow_gt_0 radix2 (femax f)); lra. }
  destruct B1 as [B1 F1]. destruct B2 as [B2 F2]. destruct (mult_rounds f z1 z2 F1 F2) as [R S].
  rewrite B1, B2, Ea, Ep in R. split; [exact R|]. rewrite S, S1, S2. now destruct neg.
Qed.
End Claims.

(** ** The powers of ten *)
Definition ten_to f (e : Z) : flt f :=
  if Z.leb 0 e then f_dec_ieee f false (Z.to_N (10 ^ e)) 0 else f_dec_ieee f false 1 (Z.to_nat (- e)).
Lemma power_decimal e : powerRZ 10 e = (if Z.leb 0 e then decimal false (Z.to_N (10 ^ e)) 0 else decimal false 1 (Z.to_nat (- e))).
Proof.
  destruct (Z.leb_spec 0 e) as [H|H]; unfold decimal; cbn [signed].
  - rewrite Z2N.id by (apply Z.pow_nonneg; lia). change (10 ^ 0) with 1. unfold Rdiv. rewrite Rinv_1, Rmult_1_r.
    rewrite <- (Z2Nat.id e) by assumption. now rewrite <- pow_IZR, <- pow_powerRZ.
  - replace e with (- Z.of_nat (Z.to_nat (- e)))%Z at 1 by lia. rewrite powerRZ_neg'. rewrite <- pow_powerRZ. unfold Rdiv. cbn [Z.of_N]. ring.
Qed.
Lemma ten_rounds f e : rounds_to f (powerRZ 10 e) (ten_to f e) /\ Bsign (ten_to f e) = false.
Proof.
  rewrite power_decimal. unfold ten_to. destruct (Z.leb 0 e);
    match goal with |- rounds_to f (decimal false ?m ?k) _ /\ _ => destruct (dec_rounds f false m k) as (H1 & H2 & _); split; [exact H1|exact H2] end.
Qed.
(** A power function as [good_powf] asks for. *)
Definition powf_ref f (x : flt f) : flt f := ten_to f (Btrunc x).
Lemma powf_ref_good f : good_powf f (powf_ref f).
Proof.
  intros x e Hf Hx. unfold powf_ref. replace (Btrunc x) with e; [apply ten_rounds|].
  pose proof (Btrunc_correct _ _ (fprec_lt_emax f) x) as H. rewrite Hx in H.
  apply eq_IZR. rewrite H. symmetry. apply round_generic; [apply valid_rnd_ZR|]. apply generic_format_FIX. exists (Float radix2 e 0); [unfold F2R; cbn; ring|reflexivity].
Qed.

Section Refute.
Variables (f : fmt) (pw : flt f -> flt f) (cc : CharClass) (Hcc : cc_ok cc) (Hpw : good_powf f pw) (chk : bool).
Lemma pow_at e : (Z.abs e <= 400)%Z -> pw (f_of_int f e) = ten_to f e.
Proof.
  intros H. destruct (good_at f pw Hpw e H) as [R1 S1]. destruct (ten_rounds f e) as [R2 S2].
  apply (rounds_det f (powerRZ 10 e)); auto. now rewrite S1.
Qed.
(** a literal d.d with an exponent *)
Lemma sample a b esg eneg ds e : all_digits a -> all_digits b -> a <> [] -> sign esg eneg -> int_num eneg ds e -> (Z.abs e <= 400)%Z ->
  let text := a ++ c_dot :: b ++ c_e :: esg ++ ds in
  let m := Z.to_N (dec_val (a ++ b)) in
  exponent_text text false (decimal false m (length b)) e /\
  denotes f pw cc chk text (f_mult (f_dec_ieee f false m (length b)) (ten_to f e)).
Proof.
  intros Ha Hb Hne Hs Hi He text m.
  assert (Hd : dec_num (a ++ c_dot :: b) m (length b)).
  { apply dn_dot; auto. destruct a; [congruence|discriminate]. }
  assert (Et : text = [] ++ (a ++ c_dot :: b) ++ c_e :: esg ++ ds) by (unfold text; cbn; now rewrite <- app_assoc).
  assert (Hx : exponent_text text false (decimal false m (length b)) e).
  { exists [], (a ++ c_dot :: b), m, (length b), esg, eneg, ds. rewrite Et. split; [reflexivity|]. split; [constructor|].
    split; [assumption|]. split; [assumption|]. split; [assumption|]. split; [|reflexivity]. left. apply in_or_app. right. now left. }
  split; [assumption|]. rewrite <- (pow_at e He). unfold denotes. apply (only_token _ cc Hcc).
  - rewrite Et. apply lx_num. destruct (dec_mantissa_any cc Hcc _ _ _ Hd) as (dot & Hm & Hdot).
    apply (nu_dec_exp (fo_ieee f pw) cc chk [] false (a ++ c_dot :: b) dot m (length b) (esg ++ ds) e []); auto.
    + constructor.
    + destruct Hi as (H1 & H2 & H3). eapply nu_int; [exact Hs|now apply digits_mantissa| |exact I]. now split.
    + right. apply Hdot. apply in_or_app. right. now left.
  - apply replace_crlf_id. destruct (exponent_lexeme f pw cc Hcc chk _ _ _ _ Hx) as (? & ? & _ & _ & H). exact H.
Qed.
Definition big_exp : Z := match f with F32 => 39 | F64 => 309 end.
Definition big_digits : str := match f with F32 => s2l "39" | F64 => s2l "309" end.
Definition small_exp : nat := match f with F32 => 45 | F64 => 323 end.
Definition small_digits : str := match f with F32 => s2l "46" | F64 => s2l "324" end.
(** 0.1e-1 is not the float nearest to 0.01. *)
Lemma not_nearest : exists text neg a e z, exponent_text text neg a e /\ denotes f pw cc chk text z /\ ~ rounds_to f (a * powerRZ 10 e) z.
Proof.
  destruct (sample (s2l "0") (s2l "1") [c_minus] true (s2l "1") (-1)) as [H1 H2];
    [repeat constructor..|discriminate|constructor| |lia|].
  { split; [discriminate|]. split; [repeat constructor|]. split; [reflexivity|]. unfold fits. lia. }
  do 5 eexists. split; [exact H1|]. split; [exact H2|]. intros R.
  assert (E : decimal false (Z.to_N (dec_val (s2l "0" ++ s2l "1"))) (length (s2l "1")) * powerRZ 10 (-1) = decimal false 1 2).
  { change (decimal false 1 1 * powerRZ 10 (-1) = decimal false 1 2). unfold decimal, powerRZ. change (Pos.to_nat 1) with 1%nat.
    cbn [signed Z.of_N pow]. field. }
  rewrite E in R. destruct (dec_rounds f false 1 2) as (R2 & S2 & _).
  apply (rounds_det f _ _ _ R) in R2; [|rewrite S2; destruct f; vm_compute; reflexivity].
  apply (f_equal B2SF) in R2. revert R2. destruct f; vm_compute; discriminate.
Qed.
(** 0.0e400 is not a number. *)
Lemma literal_nan : exists text neg a e, exponent_text text neg a e /\ a * powerRZ 10 e = 0 /\ denotes f pw cc chk text B754_nan.
Proof.
  destruct (sample (s2l "0") (s2l "0") [] false (s2l "400") 400) as [H1 H2];
    [repeat constructor..|discriminate|constructor| |lia|].
  { split; [discriminate|]. split; [repeat constructor|]. split; [reflexivity|]. unfold fits. lia. }
  do 4 eexists. split; [exact H1|]. split.
  { change (decimal false 0 1 * powerRZ 10 400 = 0). unfold decimal. cbn [signed Z.of_N]. unfold Rdiv. ring. }
  replace (B754_nan : flt f) with (f_mult (f_dec_ieee f false (Z.to_N (dec_val (s2l "0" ++ s2l "0"))) (length (s2l "0"))) (ten_to f 400)); [exact H2|].
  destruct f; vm_compute; reflexivity.
Qed.
(** 0.01e39 in f32 and 0.01e309 in f64 are infinite although the value is in range. *)
Lemma literal_infinite : exists text neg a e z, exponent_text text neg a e /\ Rabs (a * powerRZ 10 e) < overflow_limit f /\
  denotes f pw cc chk text z /\ is_finite z = false.
Proof.
  destruct (sample (s2l "0") (s2l "01") [] false big_digits big_exp) as [H1 H2];
    [repeat constructor..|discriminate|constructor| |unfold big_exp; destruct f; cbn; lia|].
  { unfold big_digits, big_exp, int_num, fits. destruct f; (split; [discriminate|]; split; [repeat constructor|]; split; [reflexivity|cbn; lia]). }
  do 5 eexists. split; [exact H1|]. split; [|split; [exact H2|unfold big_exp; destruct f; vm_compute; reflexivity]].
  eapply Rlt_le_trans; [|apply limit_bounds]. change (Z.to_N (dec_val (s2l "0" ++ s2l "01"))) with 1%N. change (length (s2l "01")) with 2%nat.
  rewrite power_decimal. replace (0 <=? big_exp)%Z with true by (unfold big_exp; now destruct f).
  unfold decimal. cbn [signed pow]. rewrite Z2N.id by (apply Z.pow_nonneg; lia).
  rewrite Rabs_pos_eq.
  - change (IZR (Z.of_N 1)) with 1. apply Rmult_lt_reg_l with (IZR 100); [apply IZR_lt; lia|].
    rewrite <- IZR_Zpower by (destruct f; cbn; lia).
    replace (IZR 100 * (1 / (10 * (10 * 1)) * (IZR (10 ^ big_exp) / 1))) with (IZR (10 ^ big_exp)) by field.
    rewrite <- mult_IZR. apply IZR_lt. unfold big_exp. destruct f; vm_compute; reflexivity.
  - change (IZR (Z.of_N 1)) with 1. assert (0 <= IZR (10 ^ big_exp)) by (apply IZR_le, Z.pow_nonneg; lia).
    replace (1 / (10 * (10 * 1)) * (IZR (10 ^ big_exp) / 1)) with (IZR (10 ^ big_exp) / 100) by field. lra.
Qed.
(** 10.0e-46 in f32 and 10.0e-324 in f64 are zero although the nearest float is not. *)
Lemma literal_zero : exists text neg a e z, exponent_text text neg a e /\ ~ rounds_to f (a * powerRZ 10 e) z /\
  denotes f pw cc chk text z /\ B2R z = 0.
Proof.
  destruct (sample (s2l "10") (s2l "0") [c_minus] true small_digits (- Z.of_nat (S small_exp))) as [H1 H2];
    [repeat constructor..|discriminate|constructor| |unfold small_exp; destruct f; cbn; lia|].
  { unfold small_digits, small_exp, int_num, fits. destruct f; (split; [discriminate|]; split; [repeat constructor|]; split; [reflexivity|cbn; lia]). }
  do 5 eexists. split; [exact H1|]. split; [|split; [exact H2|unfold small_exp; destruct f; vm_compute; reflexivity]].
  change (Z.to_N (dec_val (s2l "10" ++ s2l "0"))) with 100%N. change (length (s2l "0")) with 1%nat.
  assert (E : decimal false 100 1 * powerRZ 10 (- Z.of_nat (S small_exp)) = decimal false 1 small_exp).
  { rewrite powerRZ_neg', <- pow_powerRZ. unfold decimal. cbn [signed pow Z.of_N]. pose proof (pow10_pos small_exp). field. lra. }
  rewrite E. intros R. destruct (dec_rounds f false 1 small_exp) as (R2 & S2 & _).
  apply (rounds_det f _ _ _ R) in R2; [|rewrite S2; unfold small_exp; destruct f; vm_compute; reflexivity].
  apply (f_equal B2SF) in R2. revert R2. unfold small_exp. destruct f; vm_compute; discriminate.
Qed.
End Refute.
