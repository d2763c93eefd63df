(** Proofs for C130: the square root of a square. *)
From Coq Require Import ZArith Reals Lia Lra Bool.
From Flocq Require Import Core.Core IEEE754.BinarySingleNaN Relative.
From Verif Require Import Base Elem FloatInst GeoModel GeoSpec ArithSpec FloatErrSpec LenSpec.
From Verif Require Import FloatUnit FloatAxes OrderProofs FloatCore FloatThms FloatErr FloatMono FloatLerp OpsThms TransVec.
Local Open Scope R_scope.

Section L.
Context (f : fmt).
Notation B := (flt f).
Notation zero := (f_of_int f 0).
Notation u := (half_ulp f).
Notation emin := (SpecFloat.emin (fprec f) (femax f)).
Notation low := ((2 - femax f) / 2)%Z.
Lemma low2 : (low + low = emin + fprec f - 1)%Z. Proof. destruct f; reflexivity. Qed.
Lemma low1 : (emin + fprec f <= low + 1)%Z. Proof. destruct f; vm_compute; discriminate. Qed.
Lemma prec0 : (0 < fprec f)%Z. Proof. destruct f; reflexivity. Qed.
Lemma near_id x s : fmt_real f x -> bpow radix2 low <= x -> x <> bpow radix2 (mag radix2 x - 1) -> Rabs (s - x) < ulp radix2 (SpecFloat.fexp (fprec f) (femax f)) x / 2 -> rnd f s = x.
Proof.
  intros F L NP D. set (fe := SpecFloat.fexp (fprec f) (femax f)) in *. pose proof (bpow_gt_0 radix2 low) as Q.
  assert (N : Rabs (rnd f s - s) <= Rabs (x - s)) by (apply (round_N_pt radix2 fe (fun z => negb (Z.even z)) s); exact F).
  rewrite (Rabs_minus_sym x s) in N. apply Rabs_def2 in D. assert (D' : Rabs (s - x) < ulp radix2 fe x / 2) by (apply Rabs_def1; lra).
  pose proof (Rle_lt_trans _ _ _ N D') as N'. apply Rabs_def2 in N'.
  pose proof (rnd_fmt f s) as G. fold fe in G.
  destruct (Rtotal_order (rnd f s) x) as [C|[C|C]]; [exfalso|exact C|exfalso].
  - pose proof (pred_ge_gt radix2 fe _ _ G F C) as H. rewrite pred_eq_pos in H by lra. unfold pred_pos in H.
    rewrite Req_bool_false in H by exact NP. lra.
  - pose proof (succ_le_lt radix2 fe _ _ F G C) as H. rewrite succ_eq_pos in H by lra. lra.
Qed.
Lemma sqrt_sq_pos x : fmt_real f x -> bpow radix2 low <= x -> rnd f (sqrt (rnd f (x * x))) = x.
Proof.
  intros F L. set (fe := SpecFloat.fexp (fprec f) (femax f)). pose proof (bpow_gt_0 radix2 low) as Q.
  pose proof (bpow_mag_gt radix2 x) as Hu. pose proof (bpow_mag_le radix2 x ltac:(lra)) as Hl. rewrite Rabs_pos_eq in Hu, Hl by lra. set (e := mag radix2 x : Z) in *.
  assert (El : (low < e)%Z) by (apply (lt_bpow radix2); lra).
  assert (Ce : (emin + fprec f <= e)%Z) by (pose proof low1; lia).
  assert (Cexp : cexp radix2 fe x = (e - fprec f)%Z) by (unfold cexp, fe, SpecFloat.fexp; fold e; lia).
  destruct (Req_dec x (bpow radix2 (e - 1))) as [P|NP].
  - rewrite P at 1 2. rewrite <- bpow_plus. rewrite (rnd_id f (bpow radix2 (e - 1 + (e - 1)))).
    + replace (sqrt (bpow radix2 (e - 1 + (e - 1)))) with x; [now apply rnd_id|]. rewrite bpow_plus, sqrt_square by apply bpow_ge_0. exact P.
    + apply generic_format_bpow. unfold SpecFloat.fexp. pose proof low2. pose proof prec0. lia.
  - apply near_id; auto. rewrite ulp_neq_0 by lra. fold fe. rewrite Cexp.
    destruct (relative_error_N_FLT_ex radix2 emin (fprec f) (fprec_gt_0 f) (fun z => negb (Z.even z)) (x * x)) as (d & Hd & Er).
    { rewrite <- low2, bpow_plus. rewrite Rabs_pos_eq by nra. nra. }
    replace (/ 2 * bpow radix2 (- fprec f + 1)) with u in Hd.
    2: { unfold half_ulp. rewrite bpow_plus. change (bpow radix2 1) with 2. field. }
    change (round radix2 (FLT_exp emin (fprec f)) ZnearestE (x * x)) with (rnd f (x * x)) in Er. rewrite Er. clear Er.
    pose proof (u_pos f) as U0. pose proof (u_small f) as U1. apply Rabs_le_inv in Hd. set (y := x * x * (1 + d)). set (s := sqrt y).
    assert (Y : 0 <= y) by (unfold y; apply Rmult_le_pos; nra).
    assert (S0 : 0 <= s) by apply sqrt_pos. assert (SS : s * s = y) by (apply sqrt_sqrt; exact Y).
    assert (S1 : x * (1 - u) <= s).
    { apply Rsqr_incr_0_var; [|exact S0]. unfold Rsqr. rewrite SS. unfold y.
      replace (x * (1 - u) * (x * (1 - u))) with (x * x * ((1 - u) * (1 - u))) by ring. apply Rmult_le_compat_l; nra. }
    assert (X : x <= bpow radix2 e * (1 - u)).
    { assert (G : fmt_real f (bpow radix2 e)) by (apply generic_format_bpow; unfold SpecFloat.fexp; pose proof prec0; lia).
      pose proof (pred_ge_gt radix2 fe _ _ F G Hu) as H. rewrite pred_bpow in H. unfold half_ulp.
      replace (fe e) with (e + - fprec f)%Z in H by (unfold fe, SpecFloat.fexp; lia). rewrite bpow_plus in H. lra. }
    assert (T : Rabs (s - x) * (2 - u) <= x * u).
    { assert (T1 : (s - x) * (s + x) = x * x * d) by (replace ((s - x) * (s + x)) with (s * s - x * x) by ring; rewrite SS; unfold y; ring).
      assert (T2 : Rabs (s - x) * (s + x) = x * x * Rabs d).
      { rewrite <- (Rabs_pos_eq (s + x)) by lra. rewrite <- Rabs_mult, T1, Rabs_mult. f_equal. apply Rabs_pos_eq. nra. }
      assert (T3 : Rabs d <= u) by (apply Rabs_le; lra). pose proof (Rabs_pos (s - x)) as T4.
      apply (Rmult_le_reg_l x); [lra|]. apply Rle_trans with (Rabs (s - x) * (s + x)); [|rewrite T2; nra].
      replace (x * (Rabs (s - x) * (2 - u))) with (Rabs (s - x) * (x * (1 - u) + x)) by ring. apply Rmult_le_compat_l; lra. }
    replace (e - fprec f)%Z with (e + - fprec f)%Z by lia. rewrite bpow_plus. change (bpow radix2 (- fprec f)) with u.
    pose proof (bpow_gt_0 radix2 e) as Be. apply (Rmult_lt_reg_r (2 - u)); [lra|]. apply Rle_lt_trans with (1 := T).
    apply Rle_lt_trans with (bpow radix2 e * (1 - u) * u); [apply Rmult_le_compat_r; lra|].
    assert (0 < bpow radix2 e * (u * u)) by (apply Rmult_lt_0_compat; [exact Be|nra]). lra.
Qed.
Lemma sqrt_sq x : fmt_real f x -> bpow radix2 low <= Rabs x -> rnd f (sqrt (rnd f (x * x))) = Rabs x.
Proof.
  intros F L. replace (x * x) with (Rabs x * Rabs x) by (rewrite <- Rabs_mult; apply Rabs_pos_eq; nra). apply sqrt_sq_pos; [|exact L]. now apply generic_format_abs.
Qed.
Notation root a := (Bsqrt mode_NE a).
Lemma square_fin (x : B) : is_finite x = true -> Rabs (B2R x) < bpow radix2 (femax f / 2) -> Rabs (rnd f (B2R x * B2R x)) < big f.
Proof.
  intros F H. set (h := (femax f / 2)%Z) in *. assert (Hh : (h + h = femax f)%Z) by (unfold h; destruct f; reflexivity).
  assert (Hp : SpecFloat.fexp (fprec f) (femax f) h = (h - fprec f)%Z) by (unfold h; destruct f; reflexivity).
  assert (G : fmt_real f (bpow radix2 h)) by (apply generic_format_bpow; unfold h; destruct f; vm_compute; discriminate).
  pose proof (pred_ge_gt radix2 _ _ _ (generic_format_abs _ _ _ (fmt_B f x)) G H) as L. rewrite pred_bpow, Hp in L.
  replace (h - fprec f)%Z with (h + - fprec f)%Z in L by lia. rewrite bpow_plus in L. change (bpow radix2 (- fprec f)) with u in L.
  pose proof (u_pos f). pose proof (u_small f). pose proof (bpow_gt_0 radix2 h). pose proof (Rabs_pos (B2R x)).
  assert (Sq : 0 <= B2R x * B2R x <= top f).
  { split; [nra|]. replace (B2R x * B2R x) with (Rabs (B2R x) * Rabs (B2R x)) by (rewrite <- Rabs_mult; apply Rabs_pos_eq; nra).
    apply Rle_trans with (bpow radix2 h * (1 - u) * (bpow radix2 h * (1 - u))); [apply Rmult_le_compat; lra|].
    unfold top. replace (femax f - fprec f)%Z with (h + h + - fprec f)%Z by lia. rewrite <- Hh, !bpow_plus. change (bpow radix2 (- fprec f)) with u.
    assert (0 < bpow radix2 h * bpow radix2 h) by nra. set (q := bpow radix2 h * bpow radix2 h) in *.
    replace (bpow radix2 h * (1 - u) * (bpow radix2 h * (1 - u))) with (q * ((1 - u) * (1 - u))) by (unfold q; ring). replace (q - q * u) with (q * (1 - u)) by ring.
    apply Rmult_le_compat_l; nra. }
  rewrite Rabs_pos_eq by (apply rnd_nonneg; lra). apply Rle_lt_trans with (top f); [|unfold top, big; pose proof (bpow_gt_0 radix2 (femax f - fprec f)); lra].
  rewrite <- (rnd_id f (top f) (proj1 (top_fmt f))). apply rnd_le. lra.
Qed.
Lemma root_square (x : B) : is_finite x = true -> bpow radix2 low <= Rabs (B2R x) -> is_finite (f_mult x x) = true ->
  is_finite (root (f_mult x x)) = true /\ B2R (root (f_mult x x)) = Rabs (B2R x).
Proof.
  intros F L Q. pose proof (fnn_sq f x (fin_nan f _ F)) as [N K]. destruct (mult_key f x x F F) as (_ & K2 & Q2). rewrite Q in Q2. symmetry in Q2.
  destruct (Rlt_bool_spec (Rabs (rnd f (B2R x * B2R x))) (big f)) as [Lt|]; [|discriminate]. rewrite sat_in, key_finite in K2 by assumption.
  pose proof (Bsqrt_correct _ _ (fprec_gt_0 f) (fprec_lt_emax f) mode_NE (f_mult x x)) as (HR & HF & _).
  split.
  - rewrite HF. rewrite key_finite in K by assumption. rewrite K2 in K. destruct (f_mult x x) as [s|s| |s m e Hb] eqn:E; try reflexivity; try discriminate.
    destruct s; [|reflexivity]. exfalso. assert (B2R (B754_finite true m e Hb : B) < 0) by (apply F2R_lt_0; reflexivity). rewrite K2 in H. lra.
  - rewrite HR, K2. apply sqrt_sq; [apply fmt_B|exact L].
Qed.
Lemma root_ge (x : B) : sizeable x -> Bleb (Babs x) (root (f_mult x x)) = true.
Proof.
  intros [N S]. destruct (is_finite x) eqn:F.
  - specialize (S eq_refl). pose proof (fnn_sq f x N) as P. destruct (is_finite (f_mult x x)) eqn:Q.
    + destruct (root_square x F S Q) as [F1 V1]. rewrite Bleb_correct by (rewrite ?is_finite_Babs; assumption). apply Rle_bool_true. rewrite B2R_Babs, V1. lra.
    + rewrite (fnn_inf f _ P Q). apply leb_key. destruct (abs_key f x) as [A1 A2]. rewrite A1. split; [exact N|]. split; [reflexivity|]. rewrite A2 by exact N.
      rewrite key_finite by exact F. change (key f (root (B754_infinity false))) with (big f). left. apply B2R_big.
  - destruct x as [|[]| |]; try discriminate; vm_compute; reflexivity.
Qed.
Lemma fnn_self (a : B) : fnn f a -> Bleb a a = true. Proof. intros [N _]. apply leb_key. repeat split; auto. lra. Qed.
Lemma add_ge_l (a b : B) : fnn f a -> fnn f b -> Bleb a (f_add a b) = true.
Proof.
  intros Ha Hb. apply leb_trans with (f_add a zero).
  - destruct Ha as [N K]. destruct (is_finite a) eqn:F.
    + destruct (zero_val f) as [V0 F0]. destruct (add_key f a zero F F0) as (N1 & K1 & _). rewrite V0, Rplus_0_r, rnd_B, sat_in in K1 by apply B2R_big.
      apply leb_key. rewrite K1, key_finite by exact F. repeat split; auto. lra.
    + destruct a as [|[]| |]; try discriminate; [|vm_compute; reflexivity]. exfalso. cbn in K. pose proof (big_pos f). lra.
  - apply add_mono; auto using fnn_self; now apply fnn_le.
Qed.
Lemma add_ge_r (a b : B) : fnn f a -> fnn f b -> Bleb b (f_add a b) = true.
Proof. intros Ha Hb. rewrite (FloatAxes.Bplus_comm' f a b). now apply add_ge_l. Qed.

Notation len v := (v3_len (f_float f) (f_elem f) (fun x => x) v).
Lemma len_above (v : Vector3 B) : (forall i, is_nan (vcoord i v) = false) -> forall j, sizeable (vcoord j v) ->
  Bleb (Babs (vcoord j v)) (root (f_add (f_add (f_mult (vx v) (vx v)) (f_mult (vy v) (vy v))) (f_mult (vz v) (vz v)))) = true.
Proof.
  intros N j S. apply leb_trans with (1 := root_ge _ S).
  pose proof (fnn_sq f _ (N AX)) as X. pose proof (fnn_sq f _ (N AY)) as Y. pose proof (fnn_sq f _ (N AZ)) as Z. cbn [vcoord] in X, Y, Z.
  apply sqrt_up; [apply fnn_le, fnn_sq, N|]. destruct j; cbn [vcoord].
  - apply leb_trans with (2 := add_ge_l _ _ (fnn_add f _ _ X Y) Z). now apply add_ge_l.
  - apply leb_trans with (2 := add_ge_l _ _ (fnn_add f _ _ X Y) Z). now apply add_ge_r.
  - apply add_ge_r; auto. now apply fnn_add.
Qed.
(** What is not sizeable is less. *)
Lemma abs_le_of (x y : B) r : is_nan x = false -> sizeable y -> Bleb (Babs y) r = true -> (sizeable x -> Bleb (Babs x) r = true) -> Bleb (Babs x) r = true.
Proof.
  intros Nx [Ny Sy] Hy Hx. destruct (is_finite x) eqn:Fx.
  - destruct (Rle_or_lt (bpow radix2 low) (Rabs (B2R x))) as [L|L]; [apply Hx; split; auto|]. apply leb_trans with (2 := Hy).
    apply leb_key. destruct (abs_key f x) as [A1 A2]. destruct (abs_key f y) as [A3 A4]. rewrite A1, A3, A2, A4 by assumption. repeat split; auto.
    rewrite (key_finite f x Fx). destruct (is_finite y) eqn:Fy; [rewrite key_finite by exact Fy; specialize (Sy eq_refl); lra|].
    apply Rle_trans with (big f); [left; apply B2R_big|]. destruct y as [|[]| |]; try discriminate; cbn; [rewrite Rabs_Ropp|]; rewrite Rabs_pos_eq; try lra; pose proof (big_pos f); lra.
  - apply Hx. split; [exact Nx|congruence].
Qed.
Lemma len_coordinates (v : Vector3 B) j : (forall i, is_nan (vcoord i v) = false) -> sizeable (vcoord j v) ->
  exists l, len v = Done l /\ forall i, Bleb (Babs (vcoord i v)) l = true.
Proof.
  intros N S. rewrite len_float. eexists. split; [reflexivity|]. intros i. apply (abs_le_of _ (vcoord j v)); auto; now apply len_above.
Qed.
Lemma n_coordinates (n : Normal3 B) j : (forall i, is_nan (ncoord i n) = false) -> sizeable (ncoord j n) ->
  exists l, n3_len (f_float f) (f_elem f) (fun x => x) n = Done l /\ forall i, Bleb (Babs (ncoord i n)) l = true.
Proof.
  destruct n as [x y z]. intros N S. destruct (len_coordinates (V3 x y z) j) as (l & E & H).
  - intros i. specialize (N i). destruct i; exact N.
  - destruct j; exact S.
  - exists l. split; [exact E|]. intros i. specialize (H i). destruct i; exact H.
Qed.
(** Vectors along an axis. *)
Lemma add_nought_l (a b : B) : nought a -> is_finite b = true -> is_finite (f_add a b) = true /\ B2R (f_add a b) = B2R b.
Proof.
  intros [Fa Va] Fb. destruct (add_key f a b Fa Fb) as (_ & K & Q). rewrite Va, Rplus_0_l, rnd_B in *. rewrite Rlt_bool_true in Q by apply B2R_big.
  split; [exact Q|]. now rewrite <- key_finite, K, sat_in by (exact Q || apply B2R_big).
Qed.
Lemma add_nought_r (a b : B) : nought b -> is_finite a = true -> is_finite (f_add a b) = true /\ B2R (f_add a b) = B2R a.
Proof. rewrite Bplus_comm'. apply add_nought_l. Qed.
Lemma nought_sq (a : B) : nought a -> nought (f_mult a a).
Proof.
  intros [F V]. destruct (mult_key f a a F F) as (_ & K & Q). rewrite V, Rmult_0_l, rnd_0 in *. rewrite Rabs_R0 in Q. rewrite Rlt_bool_true in Q by apply big_pos.
  split; [exact Q|]. rewrite <- (key_finite f _ Q), K. apply sat_in. rewrite Rabs_R0. apply big_pos.
Qed.
Lemma root_same (a b : B) : is_finite a = true -> is_finite b = true -> 0 < B2R a -> B2R a = B2R b -> root a = root b.
Proof. intros Fa Fb P E. f_equal. apply B2R_inj; [| |exact E]; destruct a, b; cbn in *; try discriminate; try lra; try reflexivity. Qed.
Lemma len_axis (v : Vector3 B) i : along i v -> sizeable (vcoord i v) -> modest (vcoord i v) ->
  exists l, len v = Done l /\ is_finite l = true /\ B2R l = Rabs (B2R (vcoord i v)).
Proof.
  intros A S [F M]. rewrite len_float. eexists. split; [reflexivity|]. set (x := vcoord i v) in *. pose proof (square_fin x F M) as Q.
  destruct (mult_key f x x F F) as (_ & _ & Q2). rewrite Rlt_bool_true in Q2 by exact Q. destruct S as [_ S]. specialize (S F).
  pose proof (root_square x F S Q2) as [R1 R2].
  assert (P : 0 < B2R (f_mult x x)).
  { destruct (mult_key f x x F F) as (_ & K & _). rewrite key_finite, sat_in in K by assumption. rewrite K.
    assert (Sq : sqrt (rnd f (B2R x * B2R x)) <> 0).
    { intros E. pose proof (sqrt_sq (B2R x) (fmt_B f x) S) as T. rewrite E, rnd_0 in T. pose proof (bpow_gt_0 radix2 low). lra. }
    pose proof (rnd_nonneg f (B2R x * B2R x) ltac:(nra)) as [G|G]; [exact G|]. elim Sq. rewrite <- G. apply sqrt_0. }
  assert (T : forall s : B, is_finite s = true /\ B2R s = B2R (f_mult x x) -> is_finite (root s) = true /\ B2R (root s) = Rabs (B2R x)).
  { intros s [Fs Vs]. rewrite (root_same s (f_mult x x)); auto. now rewrite Vs. }
  apply T. subst x. destruct i; cbn [vcoord] in *.
  - pose proof (nought_sq _ (A AY ltac:(discriminate))) as Y. pose proof (nought_sq _ (A AZ ltac:(discriminate))) as Z. cbn [vcoord] in Y, Z.
    destruct (add_nought_r _ _ Y Q2) as [F1 V1]. destruct (add_nought_r _ _ Z F1) as [F2 V2]. split; [exact F2|congruence].
  - pose proof (nought_sq _ (A AX ltac:(discriminate))) as Y. pose proof (nought_sq _ (A AZ ltac:(discriminate))) as Z. cbn [vcoord] in Y, Z.
    destruct (add_nought_l _ _ Y Q2) as [F1 V1]. destruct (add_nought_r _ _ Z F1) as [F2 V2]. split; [exact F2|congruence].
  - pose proof (nought_sq _ (A AX ltac:(discriminate))) as Y. pose proof (nought_sq _ (A AY ltac:(discriminate))) as Z. cbn [vcoord] in Y, Z.
    destruct (add_nought_l _ _ Y (proj1 Z)) as [F1 V1]. apply add_nought_l; [|exact Q2]. split; [exact F1|]. rewrite V1. apply Z.
Qed.
(** The frame. *)
Notation one := (f_of_int f 1).
Lemma quot_le_1 (a r : B) : is_finite a = true -> Bleb (Babs a) r = true -> ~ nought r -> Bleb (Babs (f_div a r)) one = true.
Proof.
  intros Fa H Nr. apply leb_key in H as (_ & Nn & K). destruct (abs_key f a) as [_ A2]. rewrite A2, key_finite in K by (try apply fin_nan; assumption).
  destruct (is_finite r) eqn:Fr.
  - rewrite (key_finite f r Fr) in K. assert (Nz : B2R r <> 0) by (intros E; apply Nr; now split).
    destruct (div_key f a r Fa Fr Nz) as (N & K2 & Q).
    assert (L : Rabs (rnd f (B2R a / B2R r)) <= 1).
    { pose proof (Rabs_pos (B2R a)). assert (P : 0 < B2R r) by lra. apply Rabs_le. rewrite <- (rnd_id f 1 (fmt_1 f)), <- rnd_opp. apply Rabs_le_inv in K.
      split; apply rnd_le; apply (Rmult_le_reg_r (B2R r)); try lra; unfold Rdiv; rewrite Rmult_assoc, Rinv_l by lra; lra. }
    pose proof (B2R_big f one) as B1. destruct (one_val f) as [V1 F1]. rewrite V1, Rabs_R1 in B1.
    rewrite Rlt_bool_true in Q by lra. rewrite Bleb_correct by (rewrite ?is_finite_Babs; assumption). apply Rle_bool_true. rewrite B2R_Babs, V1.
    rewrite <- (key_finite f _ Q), K2, sat_in by lra. exact L.
  - pose proof (Rabs_pos (B2R a)). pose proof (big_pos f). destruct r as [|[]| |]; try discriminate; [cbn in K; lra|].
    destruct a as [s|s| |s m e Hb]; try discriminate; destruct f; reflexivity.
Qed.
Notation norm x z := (root (f_add (f_mult x x) (f_mult z z))).
Lemma norm_ge (x z : B) : is_finite x = true -> is_finite z = true -> sizeable x \/ sizeable z ->
  Bleb (Babs x) (norm x z) = true /\ Bleb (Babs z) (norm x z) = true /\ ~ nought (norm x z).
Proof.
  intros Fx Fz S. pose proof (fin_nan f _ Fx) as Nx. pose proof (fin_nan f _ Fz) as Nz.
  pose proof (fnn_sq f _ Nx) as X. pose proof (fnn_sq f _ Nz) as Z.
  assert (H1 : sizeable x -> Bleb (Babs x) (norm x z) = true).
  { intros S1. apply leb_trans with (1 := root_ge _ S1). apply sqrt_up; [now apply fnn_le|now apply add_ge_l]. }
  assert (H2 : sizeable z -> Bleb (Babs z) (norm x z) = true).
  { intros S1. apply leb_trans with (1 := root_ge _ S1). apply sqrt_up; [now apply fnn_le|now apply add_ge_r]. }
  assert (G : forall y : B, is_finite y = true -> sizeable y -> Bleb (Babs y) (norm x z) = true -> ~ nought (norm x z)).
  { intros y Fy [_ Sy] H [Fn Vn]. rewrite Bleb_correct in H by (rewrite ?is_finite_Babs; assumption). rewrite B2R_Babs, Vn in H.
    specialize (Sy Fy). pose proof (bpow_gt_0 radix2 low). destruct (Rle_bool_spec (Rabs (B2R y)) 0); [lra|discriminate]. }
  destruct S as [S|S].
  - split; [auto|]. split; [apply (abs_le_of z x); auto|apply (G x); auto].
  - split; [apply (abs_le_of x z); auto|]. split; [auto|apply (G z); auto].
Qed.
Lemma frame_within (v : Vector3 B) j : (forall i, is_finite (vcoord i v) = true) -> sizeable (vcoord j v) ->
  exists a b, coordinate_system (f_float f) v = Done (a, b) /\ forall i, Bleb (Babs (vcoord i a)) one = true.
Proof.
  intros F S. rewrite frame_is. unfold FloatUnit.frame, norm2. pose proof (F AX) as Fx. pose proof (F AY) as Fy. pose proof (F AZ) as Fz. cbn [vcoord] in Fx, Fy, Fz.
  assert (Fo : forall x : B, Babs (Bopp x) = Babs x) by (intros []; reflexivity). assert (Fn : forall x : B, is_finite x = true -> is_finite (Bopp x) = true) by (intros []; easy).
  assert (Za : forall (y r : B), Bleb (Babs y) r = true -> Bleb (Babs zero) r = true).
  { intros y r H. apply leb_trans with (2 := H). apply leb_key in H as (N & _). destruct (abs_key f y) as [A1 A2]. rewrite A1 in N. destruct (abs_key f zero) as [A3 A4].
    apply leb_key. rewrite A3, A1, A2, A4 by (exact N || apply fin_nan, zero_val). split; [apply fin_nan, zero_val|]. split; [exact N|].
    rewrite key_finite, (proj1 (zero_val f)), Rabs_R0 by apply zero_val. apply Rabs_pos. }
  destruct (Bltb (Babs (vy v)) (Babs (vx v))) eqn:C.
  - assert (S' : sizeable (vx v) \/ sizeable (vz v)).
    { destruct j; auto. left. split; [now apply fin_nan|]. intros _. destruct S as [_ S]. specialize (S Fy). cbn [vcoord] in S.
      rewrite Bltb_correct in C by (rewrite is_finite_Babs; assumption). rewrite !B2R_Babs in C. destruct (Rlt_bool_spec (Rabs (B2R (vy v))) (Rabs (B2R (vx v)))); [lra|discriminate]. }
    destruct (norm_ge _ _ Fx Fz S') as (H1 & H2 & H3). do 2 eexists. split; [reflexivity|]. intros []; cbn [vcoord vx vy vz]; apply quot_le_1; auto.
    + now rewrite Fo.
    + now apply Za with (vx v).
  - assert (S' : sizeable (vy v) \/ sizeable (vz v)).
    { destruct j; auto. left. split; [now apply fin_nan|]. intros _. destruct S as [_ S]. specialize (S Fx). cbn [vcoord] in S.
      rewrite Bltb_correct in C by (rewrite is_finite_Babs; assumption). rewrite !B2R_Babs in C. destruct (Rlt_bool_spec (Rabs (B2R (vy v))) (Rabs (B2R (vx v)))); [discriminate|lra]. }
    destruct (norm_ge _ _ Fy Fz S') as (H1 & H2 & H3). do 2 eexists. split; [reflexivity|]. intros []; cbn [vcoord vx vy vz]; apply quot_le_1; auto.
    + now apply Za with (vy v).
    + now rewrite Fo.
Qed.
End L.

Lemma tiny_case : exists v : Vector3 (flt F32), (forall i, is_finite (vcoord i v) = true) /\ 0 < B2R (vx v) /\
  v3_len (f_float F32) (f_elem F32) (fun x => x) v = Done (f32 0).
Proof.
  exists (V3 (f_div (f32 1) (f_mult (f32 (2 ^ 64)) (f32 (2 ^ 16)))) (f32 0) (f32 0)). split; [intros []; reflexivity|]. split.
  - assert (C : Bltb (f32 0) (f_div (f32 1) (f_mult (f32 (2 ^ 64)) (f32 (2 ^ 16)))) = true) by (vm_compute; reflexivity).
    rewrite Bltb_correct in C by reflexivity. change (f32 0) with (f_of_int F32 0) in C. rewrite (proj1 (zero_val F32)) in C. cbn [vx]. destruct (Rlt_bool_spec 0 (B2R (f_div (f32 1) (f_mult (f32 (2 ^ 64)) (f32 (2 ^ 16)))))); [assumption|discriminate].
  - rewrite len_float. apply (f_equal (@Done (flt F32))), B2SF_inj. vm_compute. reflexivity.
Qed.
Lemma large_case : exists v : Vector3 (flt F32), (forall i, is_finite (vcoord i v) = true) /\ along AX v /\
  v3_len (f_float F32) (f_elem F32) (fun x => x) v = Done (B754_infinity false).
Proof.
  exists (V3 (f32 (2 ^ 64)) (f32 0) (f32 0)). split; [intros []; reflexivity|]. split.
  - intros [] H; [easy|split; [reflexivity|apply (zero_val F32)]..].
  - rewrite len_float. apply (f_equal (@Done (flt F32))), B2SF_inj. vm_compute. reflexivity.
Qed.
Lemma ints_sizeable z : (Z.abs z <= 2 ^ fprec F32)%Z -> z <> 0%Z -> sizeable (f32 z) /\ modest (f32 z).
Proof.
  intros H N. destruct (int_correct F32 z H) as [V F]. change (f_of_int F32 z) with (f32 z) in V, F. unfold sizeable, modest. rewrite V, <- abs_IZR. split; [split; [now apply fin_nan|intros _]|split; [exact F|]].
  - apply Rle_trans with 1; [change 1 with (bpow radix2 0); apply bpow_le; vm_compute; discriminate|]. apply IZR_le. lia.
  - change (femax F32 / 2)%Z with 64%Z. rewrite <- IZR_Zpower by lia. apply IZR_lt. change (2 ^ fprec F32)%Z with 16777216%Z in H. cbn. lia.
Qed.
