(** Rounding errors of the geometric operations: a small calculus, and its use. *)
From Coq Require Import ZArith Reals Lia Lra.
From Flocq Require Import Core.Core IEEE754.BinarySingleNaN Relative Plus_error Div_sqrt_error.
From Verif Require Import Base Elem GeoModel FloatInst MatModel MatSpec GeoSpec ArithSpec OpsSpec OrderProofs FloatCore MatThms FloatErrSpec.
Local Open Scope R_scope.

Section Err.
Variable f : fmt.
Notation B := (flt f).
Notation u := (half_ulp f).
Notation eta := (half_tiny f).
Notation emin := (SpecFloat.emin (fprec f) (femax f)).

Lemma u_pos : 0 < u. Proof. apply bpow_gt_0. Qed.
Lemma u_small : u <= 1 / 16777216.
Proof.
  unfold half_ulp. replace (1 / 16777216) with (bpow radix2 (-24)).
  2: { change (bpow radix2 (-24)) with (/ IZR 16777216). field. }
  apply bpow_le. destruct f; cbn; lia.
Qed.
Lemma eta_pos : 0 < eta. Proof. unfold half_tiny. pose proof (bpow_gt_0 radix2 (3 - femax f - fprec f)). lra. Qed.
Lemma u_is : u_ro radix2 (fprec f) = u.
Proof.
  unfold u_ro, half_ulp. rewrite bpow_plus. cbn [bpow radix_val radix2 Z.pow_pos Pos.iter]. change (IZR (2 * 1)) with 2. field.
Qed.
Lemma u_frac : u / (1 + u) <= u.
Proof. pose proof u_pos. apply (Rmult_le_reg_r (1 + u)); [lra|]. unfold Rdiv. rewrite Rmult_assoc, Rinv_l by lra. nra. Qed.
Lemma u_sqrt : 1 - 1 / sqrt (1 + 2 * u) <= u.
Proof.
  pose proof u_pos. pose proof u_small. assert (S : sqrt (1 + 2 * u) <= 1 + u).
  { rewrite <- (sqrt_square (1 + u)) by lra. apply sqrt_le_1_alt. nra. }
  assert (0 < sqrt (1 + 2 * u)) by (apply sqrt_lt_R0; lra).
  assert (1 / (1 + u) <= 1 / sqrt (1 + 2 * u)).
  { apply Rmult_le_compat_l; [lra|]. apply Rinv_le; lra. }
  assert (1 - u <= 1 / (1 + u)); [|lra]. apply (Rmult_le_reg_r (1 + u)); [lra|]. unfold Rdiv. rewrite Rmult_assoc, Rinv_l by lra. nra.
Qed.

(** ** One operation *)
Lemma rnd_plus x y : fmt_real f x -> fmt_real f y -> exists d, Rabs d <= u /\ rnd f (x + y) = (x + y) * (1 + d).
Proof.
  intros Hx Hy.
  destruct (FLT_plus_error_N_ex radix2 emin (fprec f) (fun n => negb (Z.even n)) x y Hx Hy) as (d & Hd & E).
  rewrite u_is in Hd. exists d. split; [|exact E]. pose proof u_frac. lra.
Qed.
Lemma rnd_any x : exists d e, Rabs d <= u /\ Rabs e <= eta /\ rnd f x = x * (1 + d) + e.
Proof.
  destruct (relative_error_N_FLT'_ex radix2 emin (fprec f) (fprec_gt_0 f) (fun n => negb (Z.even n)) x) as (d & e & Hd & He & _ & E).
  rewrite u_is in Hd. exists d, e. split; [pose proof u_frac; lra|]. split; [exact He|exact E].
Qed.
Lemma rnd_sqrt x : fmt_real f x -> exists d, Rabs d <= u /\ rnd f (sqrt x) = sqrt x * (1 + d).
Proof.
  intros Hx.
  destruct (sqrt_error_N_FLT_ex radix2 (fprec f) (fun n => negb (Z.even n)) ltac:(destruct f; reflexivity) emin ltac:(destruct f; discriminate) x Hx) as (d & Hd & E).
  rewrite u_is in Hd. exists d. split; [pose proof u_sqrt; lra|exact E].
Qed.

Lemma finite_of_key (z : B) r : key f z = sat f r -> is_finite z = true -> Rabs r < big f -> B2R z = r.
Proof. intros K Fz L. rewrite <- (key_finite f z Fz), K. now apply sat_in. Qed.

Lemma fin_add (x y : B) : is_finite (f_add x y) = true -> is_finite x = true /\ is_finite y = true /\
  B2R (f_add x y) = rnd f (B2R x + B2R y).
Proof.
  intros H. assert (is_finite x = true /\ is_finite y = true) as [Fx Fy].
  { unfold f_add in H. destruct x as [s|s| |s m e Hx], y as [s'|s'| |s' m' e' Hy]; cbn in H |- *; try discriminate; auto;
      try (destruct (Bool.eqb s s'); discriminate). }
  split; [assumption|]. split; [assumption|].
  destruct (add_key f x y Fx Fy) as (_ & K & R). rewrite H in R. symmetry in R.
  destruct (Rlt_bool_spec (Rabs (rnd f (B2R x + B2R y))) (big f)) as [L|L]; [|discriminate]. now apply finite_of_key.
Qed.
Lemma fin_sub (x y : B) : is_finite (f_sub x y) = true -> is_finite x = true /\ is_finite y = true /\
  B2R (f_sub x y) = rnd f (B2R x - B2R y).
Proof.
  intros H. destruct (is_nan y) eqn:Ny.
  { exfalso. destruct y; try discriminate. destruct x as [|[]| |]; discriminate H. }
  rewrite sub_add in H by assumption. apply fin_add in H as (H1 & H2 & H3). rewrite sub_add by assumption.
  rewrite is_finite_Bopp in H2. rewrite B2R_Bopp in H3. auto.
Qed.
Lemma fin_mult (x y : B) : is_finite (f_mult x y) = true -> is_finite x = true /\ is_finite y = true /\
  B2R (f_mult x y) = rnd f (B2R x * B2R y).
Proof.
  intros H. assert (is_finite x = true /\ is_finite y = true) as [Fx Fy].
  { unfold f_mult in H. destruct x as [s|s| |s m e Hx], y as [s'|s'| |s' m' e' Hy]; cbn in H |- *; try discriminate; auto. }
  split; [assumption|]. split; [assumption|].
  destruct (mult_key f x y Fx Fy) as (_ & K & R). rewrite H in R. symmetry in R.
  destruct (Rlt_bool_spec (Rabs (rnd f (B2R x * B2R y))) (big f)) as [L|L]; [|discriminate]. now apply finite_of_key.
Qed.
Lemma fin_div (x y : B) : is_finite (f_div x y) = true -> is_finite y = true -> is_finite x = true /\ B2R y <> 0 /\
  B2R (f_div x y) = rnd f (B2R x / B2R y).
Proof.
  intros H Fy. assert (is_finite x = true /\ B2R y <> 0) as [Fx Ny].
  { unfold f_div in H. destruct x as [s|s| |s m e Hx], y as [s'|s'| |s' m' e' Hy]; cbn in H |- *; try discriminate; split; auto;
      apply F2R_neq_0; cbn; destruct s'; discriminate. }
  split; [assumption|]. split; [assumption|].
  destruct (div_key f x y Fx Fy Ny) as (_ & K & R). rewrite H in R. symmetry in R.
  destruct (Rlt_bool_spec (Rabs (rnd f (B2R x / B2R y))) (big f)) as [L|L]; [|discriminate]. now apply finite_of_key.
Qed.
Lemma fin_sqrt (x : B) : is_finite (Bsqrt mode_NE x) = true -> is_finite x = true /\ B2R (Bsqrt mode_NE x) = rnd f (sqrt (B2R x)).
Proof.
  intros H. pose proof (Bsqrt_correct _ _ (fprec_gt_0 f) (fprec_lt_emax f) mode_NE x) as (HR & HF & _).
  split; [|exact HR]. destruct x as [s|s| |s m e Hx]; cbn in H |- *; auto. destruct s; discriminate.
Qed.

(** ** The calculus: [x] computes [X], whose terms are of total size [A], with [n] roundings and underflow [K]. *)
Definition approx (n : nat) (K : R) (x X A : R) : Prop :=
  Rabs (x - X) <= ((1 + u) ^ n - 1) * A + (1 + u) ^ n * K /\ Rabs X <= A /\ 0 <= K.
Lemma p1 n : 1 <= (1 + u) ^ n. Proof. apply pow_R1_Rle. pose proof u_pos. lra. Qed.
Lemma pmono n m : (n <= m)%nat -> (1 + u) ^ n <= (1 + u) ^ m.
Proof. intros H. apply Rle_pow; [pose proof u_pos; lra|assumption]. Qed.
Lemma approx_exact x : approx 0 0 x x (Rabs x).
Proof. split; [|split; [|lra]]; [|lra]. replace (x - x) with 0 by ring. rewrite Rabs_R0. cbn. lra. Qed.
Lemma approx_weaken n m K x X A : (n <= m)%nat -> approx n K x X A -> approx m K x X A.
Proof.
  intros H (H1 & H2 & H3). split; [|auto]. pose proof (pmono n m H). pose proof (p1 n). pose proof (Rabs_pos X). nra.
Qed.
Lemma approx_le n K K' A A' x X : A <= A' -> K <= K' -> approx n K x X A -> approx n K' x X A'.
Proof.
  intros HA HK (H1 & H2 & H3). split; [|split; lra]. pose proof (p1 n). pose proof (Rabs_pos X). nra.
Qed.
Lemma approx_opp n K x X A : approx n K x X A -> approx n K (- x) (- X) A.
Proof. intros (H1 & H2 & H3). split; [|split; auto]; [|now rewrite Rabs_Ropp]. replace (- x - - X) with (- (x - X)) by ring. now rewrite Rabs_Ropp. Qed.
Lemma approx_round n K x X A d e E : approx n K x X A -> Rabs d <= u -> Rabs e <= E -> approx (S n) (K + E) (x * (1 + d) + e) X A.
Proof.
  intros (H1 & H2 & H3) Hd He. split; [|split; [assumption|]].
  2: { pose proof (Rabs_pos e). lra. }
  pose proof (p1 n) as P. pose proof u_pos. pose proof (Rabs_pos e). pose proof (Rabs_pos X).
  replace (x * (1 + d) + e - X) with ((x - X) + ((x - X) * d + X * d) + e) by ring.
  eapply Rle_trans; [apply Rabs_triang|]. eapply Rle_trans; [apply Rplus_le_compat_r, Rabs_triang|].
  eapply Rle_trans; [apply Rplus_le_compat_r, Rplus_le_compat_l, Rabs_triang|]. rewrite !Rabs_mult.
  assert (Rabs (x - X) * Rabs d <= Rabs (x - X) * u) by (apply Rmult_le_compat_l; [apply Rabs_pos|assumption]).
  assert (Rabs X * Rabs d <= A * u) by (apply Rmult_le_compat; auto using Rabs_pos).
  change ((1 + u) ^ S n) with ((1 + u) * (1 + u) ^ n). set (q := (1 + u) ^ n) in *.
  assert (Rabs (x - X) * (1 + u) <= ((q - 1) * A + q * K) * (1 + u)) by (apply Rmult_le_compat_r; lra).
  assert (1 <= (1 + u) * q) by nra. assert (1 * E <= (1 + u) * q * E) by (apply Rmult_le_compat_r; lra). lra.
Qed.
Lemma approx_sum n K x X A m L y Y C : approx n K x X A -> approx m L y Y C -> approx (Nat.max n m) (K + L) (x + y) (X + Y) (A + C).
Proof.
  intros H H'. apply (approx_weaken n (Nat.max n m)) in H; [|lia]. apply (approx_weaken m (Nat.max n m)) in H'; [|lia].
  destruct H as (H1 & H2 & H3), H' as (H1' & H2' & H3'). split; [|split; [|lra]].
  - replace (x + y - (X + Y)) with ((x - X) + (y - Y)) by ring. eapply Rle_trans; [apply Rabs_triang|]. lra.
  - eapply Rle_trans; [apply Rabs_triang|]. lra.
Qed.
Lemma approx_prod n K x X A m L y Y C : approx n K x X A -> approx m L y Y C ->
  approx (n + m) (K * C + A * L + K * L) (x * y) (X * Y) (A * C).
Proof.
  intros (H1 & H2 & H3) (H1' & H2' & H3'). pose proof (Rabs_pos X). pose proof (Rabs_pos Y). pose proof (p1 n) as P. pose proof (p1 m) as Q.
  split; [|split].
  - replace (x * y - X * Y) with ((x - X) * (y - Y) + X * (y - Y) + (x - X) * Y) by ring.
    rewrite pow_add. set (p := (1 + u) ^ n) in *. set (q := (1 + u) ^ m) in *.
    eapply Rle_trans; [apply Rabs_triang|]. eapply Rle_trans; [apply Rplus_le_compat_r, Rabs_triang|]. rewrite !Rabs_mult.
    set (a := Rabs (x - X)) in *. set (b := Rabs (y - Y)) in *.
    assert (0 <= a) by apply Rabs_pos. assert (0 <= b) by apply Rabs_pos.
    set (a' := (p - 1) * A + p * K) in *. set (b' := (q - 1) * C + q * L) in *.
    assert (a * b <= a' * b') by (apply Rmult_le_compat; assumption).
    assert (Rabs X * b <= A * b') by (apply Rmult_le_compat; assumption).
    assert (a * Rabs Y <= a' * C) by (apply Rmult_le_compat; assumption).
    assert (a' * b' + A * b' + a' * C = (p * q - 1) * (A * C) + p * q * (K * C + A * L + K * L)) by (unfold a', b'; ring). lra.
  - rewrite Rabs_mult. apply Rmult_le_compat; auto.
  - assert (0 <= K * C) by (apply Rmult_le_pos; lra). assert (0 <= A * L) by (apply Rmult_le_pos; lra).
    assert (0 <= K * L) by (apply Rmult_le_pos; lra). lra.
Qed.

(** The same for floats. *)
Notation ap n K x X A := (approx n K (B2R x) X A).
Lemma ap_add n K (x y : B) X A m L Y C : ap n K x X A -> ap m L y Y C -> is_finite (f_add x y) = true ->
  ap (S (Nat.max n m)) (K + L) (f_add x y) (X + Y) (A + C).
Proof.
  intros H H' Fz. apply fin_add in Fz as (Fx & Fy & E). destruct (rnd_plus (B2R x) (B2R y) (fmt_B f x) (fmt_B f y)) as (d & Hd & Er).
  rewrite E, Er. replace ((B2R x + B2R y) * (1 + d)) with ((B2R x + B2R y) * (1 + d) + 0) by ring.
  replace (K + L) with (K + L + 0) by ring. apply approx_round; [now apply approx_sum|assumption|rewrite Rabs_R0; lra].
Qed.
Lemma ap_sub n K (x y : B) X A m L Y C : ap n K x X A -> ap m L y Y C -> is_finite (f_sub x y) = true ->
  ap (S (Nat.max n m)) (K + L) (f_sub x y) (X - Y) (A + C).
Proof.
  intros H H' Fz. apply fin_sub in Fz as (Fx & Fy & E). apply approx_opp in H'.
  assert (Fo : fmt_real f (- B2R y)) by (apply generic_format_opp, fmt_B).
  destruct (rnd_plus (B2R x) (- B2R y) (fmt_B f x) Fo) as (d & Hd & Er).
  rewrite E. unfold Rminus. rewrite Er. replace ((B2R x + - B2R y) * (1 + d)) with ((B2R x + - B2R y) * (1 + d) + 0) by ring.
  replace (K + L) with (K + L + 0) by ring. apply approx_round; [now apply approx_sum|assumption|rewrite Rabs_R0; lra].
Qed.
Lemma ap_mult n K (x y : B) X A m L Y C : ap n K x X A -> ap m L y Y C -> is_finite (f_mult x y) = true ->
  ap (S (n + m)) (K * C + A * L + K * L + eta) (f_mult x y) (X * Y) (A * C).
Proof.
  intros H H' Fz. apply fin_mult in Fz as (Fx & Fy & E). destruct (rnd_any (B2R x * B2R y)) as (d & e & Hd & He & Er).
  rewrite E, Er. apply approx_round; [now apply approx_prod|assumption|assumption].
Qed.
Lemma ap_exact (x : B) : ap 0 0 x (B2R x) (Rabs (B2R x)). Proof. apply approx_exact. Qed.
Lemma ap_product (x y : B) : is_finite (f_mult x y) = true -> ap 1 eta (f_mult x y) (B2R x * B2R y) (Rabs (B2R x * B2R y)).
Proof.
  intros H. rewrite Rabs_mult. replace eta with (0 * Rabs (B2R y) + Rabs (B2R x) * 0 + 0 * 0 + eta) by ring.
  apply (ap_mult 0 0 x y _ _ 0 0); auto using ap_exact.
Qed.
Lemma ap_difference (x y : B) : is_finite (f_sub x y) = true -> ap 1 0 (f_sub x y) (B2R x - B2R y) (Rabs (B2R x - B2R y)).
Proof.
  intros Fz. apply fin_sub in Fz as (Fx & Fy & E).
  assert (Fo : fmt_real f (- B2R y)) by (apply generic_format_opp, fmt_B).
  destruct (rnd_plus (B2R x) (- B2R y) (fmt_B f x) Fo) as (d & Hd & Er). rewrite E. unfold Rminus. rewrite Er.
  replace ((B2R x + - B2R y) * (1 + d)) with ((B2R x + - B2R y) * (1 + d) + 0) by ring.
  replace 0 with (0 + 0) at 1 by ring. apply approx_round; [apply approx_exact|assumption|rewrite Rabs_R0; lra].
Qed.
Lemma ap_within n K (x : B) X A : ap n K x X A -> within f n A K x X. Proof. intros (H & _). exact H. Qed.
End Err.
