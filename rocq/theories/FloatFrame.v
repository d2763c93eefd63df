(** Proofs about [coordinate_system] in floats. *)
From Coq Require Import ZArith Reals Lra Lia.
From Flocq Require Import Core.Core IEEE754.BinarySingleNaN.
From Verif Require Import Base Elem GeoModel FloatInst MatModel MatSpec GeoSpec ArithSpec OpsSpec FloatCore OrderProofs FloatThms FloatErrSpec FloatErr FloatErrThms FloatSphere.
Local Open Scope R_scope.

Definition v_sub (a b : Vector3 R) : Vector3 R := V3 (vx a - vx b) (vy a - vy b) (vz a - vz b).
Definition crossv (a b : Vector3 R) : Vector3 R := V3 (cross_r AX a b) (cross_r AY a b) (cross_r AZ a b).
Lemma cauchy_abs a b : Rabs (dotR a b) <= normR a * normR b.
Proof.
  apply Rabs_le. split; [|apply cauchy]. pose proof (cauchy (V3 (- vx a) (- vy a) (- vz a)) b) as C.
  replace (normR (V3 (- vx a) (- vy a) (- vz a))) with (normR a) in C by (unfold normR, dotR; cbn; f_equal; ring).
  unfold dotR in *; cbn in *; lra.
Qed.
Lemma norm_diff a b : Rabs (normR a - normR b) <= normR (v_sub a b).
Proof.
  apply Rabs_le. pose proof (norm_triang (v_sub a b) b) as T1. pose proof (norm_triang a (v_sub b a)) as T2.
  replace (v_add (v_sub a b) b) with a in T1 by (destruct a, b; unfold v_add, v_sub; cbn; f_equal; ring).
  replace (v_add a (v_sub b a)) with b in T2 by (destruct a, b; unfold v_add, v_sub; cbn; f_equal; ring).
  replace (normR (v_sub b a)) with (normR (v_sub a b)) in T2 by (unfold normR, dotR, v_sub; cbn; f_equal; ring). lra.
Qed.
Lemma cross_norm a b : normR (crossv a b) <= normR a * normR b.
Proof.
  unfold normR. rewrite <- sqrt_mult by apply dot_pos. apply sqrt_le_1_alt.
  unfold dotR, crossv, cross_r. destruct a as [a1 a2 a3], b as [b1 b2 b3]; cbn. 
  pose proof (Rle_0_sqr (a1 * b1 + a2 * b2 + a3 * b3)) as Q. unfold Rsqr in Q. lra.
Qed.
Lemma cross_norm_orth a b : dotR a b = 0 -> normR b = 1 -> normR (crossv a b) = normR a.
Proof.
  intros H1 H2. assert (H3 : dotR b b = 1) by (rewrite <- norm_sq, H2; ring). unfold normR. f_equal.
  transitivity (dotR a a * dotR b b - dotR a b * dotR a b); [unfold dotR, crossv, cross_r; cbn; ring|rewrite H1, H3; ring].
Qed.
Lemma cross_abs_le i a b : cross_abs i a b <= normR a * normR b.
Proof.
  pose proof (norm_abs a) as Ea. pose proof (norm_abs b) as Eb.
  assert (G : forall a b p q r s, 0 <= p -> 0 <= q -> 0 <= r -> 0 <= s -> p * p + q * q <= dotR a a -> r * r + s * s <= dotR b b -> p * s + q * r <= normR a * normR b).
  { intros a' b' p q r s Hp Hq Hr Hs H1 H2. unfold normR. rewrite <- sqrt_mult by apply dot_pos.
    rewrite <- (sqrt_square (p * s + q * r)) by nra. apply sqrt_le_1_alt.
    apply Rle_trans with ((p * p + q * q) * (r * r + s * s)).
    - pose proof (Rle_0_sqr (p * r - q * s)) as Q. unfold Rsqr in Q. lra.
    - apply Rmult_le_compat; nra. }
  unfold cross_abs. destruct a as [a1 a2 a3], b as [b1 b2 b3].
  assert (Sq : forall x, Rabs x * Rabs x = x * x) by (intros x; rewrite <- Rabs_mult; apply Rabs_pos_eq; nra).
  pose proof (Rle_0_sqr a1) as A1. pose proof (Rle_0_sqr a2) as A2. pose proof (Rle_0_sqr a3) as A3. unfold Rsqr in A1, A2, A3.
  pose proof (Rle_0_sqr b1) as B1. pose proof (Rle_0_sqr b2) as B2. pose proof (Rle_0_sqr b3) as B3. unfold Rsqr in B1, B2, B3.
  destruct i; cbn; rewrite !Rabs_mult; apply G; try apply Rabs_pos; rewrite !Sq; unfold dotR; cbn; lra.
Qed.

Section T.
Context (f : fmt).
Local Notation B := (flt f).
Local Notation u := (half_ulp f).
Local Notation eta := (half_tiny f).

Lemma small_finite x k : (0 <= k <= 120)%Z -> Rabs x <= bpow radix2 k -> Rlt_bool (Rabs (rnd f x)) (big f) = true.
Proof.
  intros Hk H. apply Rlt_bool_true. apply Rle_lt_trans with (bpow radix2 k).
  - assert (Fk : fmt_real f (bpow radix2 k)) by (apply generic_format_bpow; unfold SpecFloat.fexp, SpecFloat.emin; destruct f; cbn; lia).
    apply Rabs_le_inv in H. apply Rabs_le. split.
    + rewrite <- (rnd_id f _ Fk), <- rnd_opp. apply rnd_le. lra.
    + rewrite <- (rnd_id f _ Fk). apply rnd_le. lra.
  - apply bpow_lt. destruct f; cbn; lia.
Qed.
Lemma eta_small : eta <= u * bpow radix2 (-120).
Proof.
  unfold half_tiny, half_ulp. rewrite <- bpow_plus. change (/ 2) with (bpow radix2 (-1)). rewrite <- bpow_plus.
  apply bpow_le. destruct f; cbn; lia.
Qed.
Lemma mult_fin (x y : B) k : (0 <= k <= 120)%Z -> is_finite x = true -> is_finite y = true -> Rabs (B2R x * B2R y) <= bpow radix2 k -> is_finite (f_mult x y) = true.
Proof. intros Hk Fx Fy H. destruct (mult_key f x y Fx Fy) as (_ & _ & ->). now apply (small_finite _ k). Qed.
Lemma add_fin (x y : B) k : (0 <= k <= 120)%Z -> is_finite x = true -> is_finite y = true -> Rabs (B2R x + B2R y) <= bpow radix2 k -> is_finite (f_add x y) = true.
Proof. intros Hk Fx Fy H. destruct (add_key f x y Fx Fy) as (_ & _ & ->). now apply (small_finite _ k). Qed.
Lemma sub_fin (x y : B) k : (0 <= k <= 120)%Z -> is_finite x = true -> is_finite y = true -> Rabs (B2R x - B2R y) <= bpow radix2 k -> is_finite (f_sub x y) = true.
Proof. intros Hk Fx Fy H. destruct (sub_key f x y Fx Fy) as (_ & _ & ->). now apply (small_finite _ k). Qed.
Lemma div_fin (x y : B) k : (0 <= k <= 120)%Z -> is_finite x = true -> is_finite y = true -> B2R y <> 0 -> Rabs (B2R x / B2R y) <= bpow radix2 k -> is_finite (f_div x y) = true.
Proof. intros Hk Fx Fy N H. destruct (div_key f x y Fx Fy N) as (_ & _ & ->). now apply (small_finite _ k). Qed.

Lemma bp a b : (a <= b)%Z -> bpow radix2 a <= bpow radix2 b. Proof. apply bpow_le. Qed.
Lemma root_err (a z : B) : is_finite a = true -> is_finite z = true ->
  let X := B2R a * B2R a + B2R z * B2R z in let r := Bsqrt mode_NE (f_add (f_mult a a) (f_mult z z)) in
  bpow radix2 (-102) <= X <= bpow radix2 102 -> is_finite r = true /\ Rabs (B2R r - sqrt X) <= 5 * u * sqrt X.
Proof.
  intros Fa Fz X r HX. pose proof (u_pos f) as U. pose proof (u_small f) as US. pose proof (eta_pos f) as Et. pose proof eta_small as ES.
  pose proof (bpow_gt_0 radix2 (-102)) as Q0.
  assert (Fm : forall c : B, is_finite c = true -> B2R c * B2R c <= X -> is_finite (f_mult c c) = true /\ B2R (f_mult c c) <= bpow radix2 102 /\ 0 <= B2R (f_mult c c)).
  { intros c Fc Hc. assert (F1 : is_finite (f_mult c c) = true) by (apply (mult_fin _ _ 102); auto; [lia|rewrite Rabs_pos_eq by nra; lra]).
    split; [exact F1|]. apply fin_mult in F1 as (_ & _ & ->). split.
    - apply Rle_trans with (rnd f (bpow radix2 102)); [apply rnd_le; lra|]. right. apply rnd_id. apply generic_format_bpow. unfold SpecFloat.fexp, SpecFloat.emin; destruct f; cbn; lia.
    - apply rnd_nonneg. nra. }
  assert (N1 : 0 <= B2R a * B2R a) by nra. assert (N2 : 0 <= B2R z * B2R z) by nra.
  destruct (Fm a Fa ltac:(unfold X; lra)) as (F1 & L1 & P1). destruct (Fm z Fz ltac:(unfold X; lra)) as (F2 & L2 & P2).
  assert (F3 : is_finite (f_add (f_mult a a) (f_mult z z)) = true).
  { apply (add_fin _ _ 103); auto; [lia|]. rewrite Rabs_pos_eq by lra. change 103%Z with (102 + 1)%Z. rewrite bpow_plus. change (bpow radix2 1) with 2. lra. }
  assert (P3 : 0 <= B2R (f_add (f_mult a a) (f_mult z z))).
  { pose proof (fin_add f _ _ F3) as (_ & _ & ->). apply rnd_nonneg. lra. }
  pose proof (ap_add f 1 eta _ _ _ _ 1 eta _ _ (ap_product f a a F1) (ap_product f z z F2) F3) as (W & _).
  rewrite !(Rabs_pos_eq (_ * _)) in W by assumption. fold X in W. cbn [Nat.max] in W.
  pose proof (small_power f 2 ltac:(lia)) as S2. cbn [INR] in S2.
  assert (Ek : eta <= / 262144 * u * X).
  { eapply Rle_trans; [exact ES|]. replace (-120)%Z with (-18 + -102)%Z by reflexivity. rewrite bpow_plus.
    change (bpow radix2 (-18)) with (/ 262144). assert (u * bpow radix2 (-102) <= u * X) by (apply Rmult_le_compat_l; lra). nra. }
  assert (W' : Rabs (B2R (f_add (f_mult a a) (f_mult z z)) - X) <= 3 * u * X + 0).
  { eapply Rle_trans; [exact W|]. cbn [pow]. 
    assert (0 <= u * X) by (apply Rmult_le_pos; lra). assert (u * u * X <= / 100 * (u * X)).
    { replace (u * u * X) with (u * (u * X)) by ring. apply Rmult_le_compat_r; lra. }
    assert ((1 + u) * ((1 + u) * 1) * (eta + eta) <= 3 * eta) by nra. 
    replace (((1 + u) * ((1 + u) * 1) - 1) * X) with (2 * (u * X) + u * u * X) by ring. lra. }
  apply sqrt_rel in W'; [|assumption|lra|lra|lra]. rewrite sqrt_0, Rplus_0_r in W'.
  assert (Fr : is_finite r = true).
  { unfold r. pose proof (Bsqrt_correct _ _ (fprec_gt_0 f) (fprec_lt_emax f) mode_NE (f_add (f_mult a a) (f_mult z z))) as (_ & HF & _).
    rewrite HF. destruct (f_add (f_mult a a) (f_mult z z)) as [| | |[] m e He]; try discriminate; try reflexivity.
    exfalso. revert P3. cbn [B2R]. apply Rlt_not_le. apply F2R_lt_0. reflexivity. }
  split; [exact Fr|]. unfold r. pose proof (fin_sqrt f _ Fr) as (_ & ->).
  destruct (rnd_sqrt f _ (fmt_B f (f_add (f_mult a a) (f_mult z z)))) as (d & Hd & ->).
  set (t := sqrt (B2R _)) in *. set (q := sqrt X) in *. assert (0 <= q) by apply sqrt_pos.
  replace (t * (1 + d) - q) with ((t - q) * (1 + d) + q * d) by ring. eapply Rle_trans; [apply Rabs_triang|]. rewrite !Rabs_mult, (Rabs_pos_eq q) by assumption.
  assert (Rabs (1 + d) <= 1 + u). { eapply Rle_trans; [apply Rabs_triang|]. rewrite Rabs_R1. lra. }
  pose proof (Rabs_pos (1 + d)). pose proof (Rabs_pos (t - q)).
  apply Rle_trans with (3 * u * q * (1 + u) + q * u); [apply Rplus_le_compat; [apply Rmult_le_compat; lra|apply Rmult_le_compat_l; lra]|].
  assert (0 <= u * q) by (apply Rmult_le_pos; lra). nra.
Qed.
Lemma quot_err (c r : B) q : is_finite c = true -> is_finite r = true -> 0 < q -> Rabs (B2R c) <= q -> Rabs (B2R r - q) <= 5 * u * q ->
  is_finite (f_div c r) = true /\ Rabs (B2R (f_div c r) - B2R c / q) <= 13 / 2 * u * Rabs (B2R c / q) + eta.
Proof.
  intros Fc Fr Hq Hc Hr. pose proof (u_pos f) as U. pose proof (u_small f) as US. pose proof (eta_pos f) as Et.
  apply Rabs_le_inv in Hr. assert (5 * u * q <= / 1000 * q) by nra. assert (R0 : 0 < B2R r) by lra.
  assert (E : Rabs (B2R c / B2R r - B2R c / q) <= 26 / 5 * u * Rabs (B2R c / q)).
  { replace (B2R c / B2R r - B2R c / q) with (B2R c / q * ((q - B2R r) / B2R r)) by (field; lra). rewrite Rabs_mult, Rmult_comm.
    apply Rmult_le_compat_r; [apply Rabs_pos|]. unfold Rdiv. rewrite Rabs_mult, (Rabs_pos_eq (/ _)) by (apply Rlt_le, Rinv_0_lt_compat; assumption).
    apply (Rmult_le_reg_r (B2R r)); [assumption|]. rewrite Rmult_assoc, Rinv_l, Rmult_1_r by lra.
    apply Rabs_le. assert (u * (999 / 1000 * q) <= u * B2R r) by (apply Rmult_le_compat_l; lra). split; nra. }
  assert (C1 : Rabs (B2R c / q) <= 1).
  { unfold Rdiv. rewrite Rabs_mult, (Rabs_pos_eq (/ q)) by (apply Rlt_le, Rinv_0_lt_compat; assumption).
    apply (Rmult_le_reg_r q); [assumption|]. rewrite Rmult_assoc, Rinv_l by lra. lra. }
  assert (Fd : is_finite (f_div c r) = true).
  { apply (div_fin _ _ 1); auto; [lia|lra|]. change (bpow radix2 1) with 2. apply Rabs_le_inv in E.
    pose proof (Rabs_pos (B2R c / q)). assert (26 / 5 * u * Rabs (B2R c / q) <= 1 / 2) by nra. apply Rabs_le_inv in C1. apply Rabs_le. lra. }
  split; [exact Fd|]. pose proof (fin_div f _ _ Fd Fr) as (_ & _ & ->). destruct (rnd_any f (B2R c / B2R r)) as (d & e & Hd & He & ->).
  set (x := B2R c / B2R r) in *. set (y := B2R c / q) in *.
  replace (x * (1 + d) + e - y) with ((x - y) * (1 + d) + y * d + e) by ring.
  eapply Rle_trans; [apply Rabs_triang|]. apply Rplus_le_compat; [|exact He]. eapply Rle_trans; [apply Rabs_triang|]. rewrite !Rabs_mult.
  assert (Rabs (1 + d) <= 1 + u). { eapply Rle_trans; [apply Rabs_triang|]. rewrite Rabs_R1. lra. }
  pose proof (Rabs_pos (1 + d)). pose proof (Rabs_pos (x - y)). pose proof (Rabs_pos y). pose proof (Rabs_pos d).
  apply Rle_trans with (26 / 5 * u * Rabs y * (1 + u) + Rabs y * u); [apply Rplus_le_compat; [apply Rmult_le_compat; lra|apply Rmult_le_compat_l; lra]|].
  assert (0 <= u * Rabs y) by (apply Rmult_le_pos; lra). nra.
Qed.

Lemma coord_norm i a : Rabs (vcoord i a) <= normR a.
Proof.
  rewrite <- sqrt_Rsqr_abs. apply sqrt_le_1_alt. unfold Rsqr, dotR. destruct a as [x y z].
  pose proof (Rle_0_sqr x). pose proof (Rle_0_sqr y). pose proof (Rle_0_sqr z). unfold Rsqr in *. destruct i; cbn; lra.
Qed.
(** [v2] close to a unit vector [w] orthogonal to [v1], and the float cross product. *)
Lemma frame (v1 v2 v3 : Vector3 B) (w : Vector3 R) : vfinite v1 -> bpow radix2 (-50) <= normR (v_real v1) <= bpow radix2 50 ->
  normR w = 1 -> dotR (v_real v1) w = 0 -> (forall i, is_finite (vcoord i v2) = true) ->
  (forall i, Rabs (vcoord i (v_real v2) - vcoord i w) <= 13 / 2 * u * Rabs (vcoord i w) + eta) ->
  v3_cross (f_elem f) v1 v2 = Done v3 -> nearly_frame f v1 v2 v3.
Proof.
  intros F1 L W1 W0 F2 H E. pose proof (u_pos f) as U. pose proof (u_small f) as US. pose proof (eta_pos f) as Et. pose proof eta_small as ES.
  set (n := normR (v_real v1)) in *. assert (Q : 0 < n) by (pose proof (bpow_gt_0 radix2 (-50)); lra).
  assert (ES' : eta <= u * (/ 1024 * n)).
  { eapply Rle_trans; [exact ES|]. apply Rmult_le_compat_l; [lra|]. apply Rle_trans with (bpow radix2 (-10 + -50)); [apply bpow_le; lia|].
    rewrite bpow_plus. change (bpow radix2 (-10)) with (/ 1024). lra. }
  assert (ES1 : eta <= u * / 1024).
  { eapply Rle_trans; [exact ES|]. apply Rmult_le_compat_l; [lra|]. change (/ 1024) with (bpow radix2 (-10)). apply bpow_le. lia. }
  assert (D : normR (v_sub (v_real v2) w) <= 7 * u).
  { apply Rle_trans with (13 / 2 * u * normR w + 7 / 4 * eta); [|rewrite W1; lra].
    apply norm_bound; [lra|lra|]. intros i. specialize (H i). destruct i; exact H. }
  assert (N2 : Rabs (normR (v_real v2) - 1) <= 7 * u).
  { rewrite <- W1. eapply Rle_trans; [apply norm_diff|exact D]. }
  pose proof (Rabs_le_inv _ _ N2) as N2'. set (n2 := normR (v_real v2)) in *.
  assert (O12 : Rabs (dotR (v_real v1) (v_real v2)) <= 7 * u * n).
  { replace (dotR (v_real v1) (v_real v2)) with (dotR (v_real v1) (v_sub (v_real v2) w)).
    2: { transitivity (dotR (v_real v1) (v_real v2) - dotR (v_real v1) w); [unfold dotR, v_sub; cbn; ring|rewrite W0; ring]. }
    eapply Rle_trans; [apply cauchy_abs|]. fold n. rewrite (Rmult_comm _ n). apply Rmult_le_compat_l; lra. }
  assert (Fc : forall i, is_finite (vcoord i v3) = true).
  { assert (P : forall i j, is_finite (f_mult (vcoord i v1) (vcoord j v2)) = true /\ Rabs (B2R (f_mult (vcoord i v1) (vcoord j v2))) <= bpow radix2 51).
    { intros i j. assert (A1 : Rabs (B2R (vcoord i v1)) <= bpow radix2 50).
      { apply Rle_trans with n; [|lra]. pose proof (coord_norm i (v_real v1)) as C. destruct i; exact C. }
      assert (A2 : Rabs (B2R (vcoord j v2)) <= 2).
      { apply Rle_trans with n2; [|lra]. pose proof (coord_norm j (v_real v2)) as C. destruct j; exact C. }
      assert (A3 : Rabs (B2R (vcoord i v1) * B2R (vcoord j v2)) <= bpow radix2 51).
      { rewrite Rabs_mult. change 51%Z with (50 + 1)%Z. rewrite bpow_plus. change (bpow radix2 1) with 2. apply Rmult_le_compat; auto using Rabs_pos. }
      assert (Fm : is_finite (f_mult (vcoord i v1) (vcoord j v2)) = true) by (apply (mult_fin _ _ 51); auto; lia).
      split; [exact Fm|]. pose proof (fin_mult f _ _ Fm) as (_ & _ & ->).
      assert (Fk : fmt_real f (bpow radix2 51)) by (apply generic_format_bpow; unfold SpecFloat.fexp, SpecFloat.emin; destruct f; cbn; lia).
      apply Rabs_le_inv in A3. apply Rabs_le. split.
      - rewrite <- (rnd_id f _ Fk), <- rnd_opp. apply rnd_le. lra.
      - rewrite <- (rnd_id f _ Fk). apply rnd_le. lra. }
    assert (S : forall i j k l, is_finite (f_sub (f_mult (vcoord i v1) (vcoord j v2)) (f_mult (vcoord k v1) (vcoord l v2))) = true).
    { intros i j k l. destruct (P i j) as [Pa Pb], (P k l) as [Pc Pd]. apply (sub_fin _ _ 52); auto; [lia|].
      change 52%Z with (51 + 1)%Z. rewrite bpow_plus. change (bpow radix2 1) with 2. apply Rabs_le_inv in Pb, Pd. apply Rabs_le. lra. }
    intros i. injection E as <-. destruct i; [exact (S AY AZ AZ AY)|exact (S AZ AX AX AZ)|exact (S AX AY AY AX)]. }
  assert (C : normR (v_sub (v_real v3) (crossv (v_real v1) (v_real v2))) <= 4 * u * n).
  { set (k := (2 * u + u * u) * (n * n2) + 3 * eta).
    assert (K0 : 0 <= n * n2) by (apply Rmult_le_pos; lra). assert (0 <= u * u) by nra.
    apply Rle_trans with (7 / 4 * k).
    - replace (7 / 4 * k) with (0 * normR w + 7 / 4 * k) by ring. apply norm_bound; [lra|unfold k; nra|].
      intros i. rewrite Rmult_0_l, Rplus_0_l. pose proof (cross_err f v1 v2 v3 i E (Fc i)) as G. unfold within in G.
      replace (vcoord i (v_sub (v_real v3) (crossv (v_real v1) (v_real v2)))) with (B2R (vcoord i v3) - cross_r i (v_real v1) (v_real v2)) by (destruct i; reflexivity).
      eapply Rle_trans; [exact G|]. cbn [pow]. replace ((1 + u) * ((1 + u) * 1) - 1) with (2 * u + u * u) by ring.
      apply Rplus_le_compat; [apply Rmult_le_compat_l; [nra|apply cross_abs_le]|].
      assert ((1 + u) * ((1 + u) * 1) <= 3 / 2) by nra. apply Rle_trans with (3 / 2 * (2 * eta)); [apply Rmult_le_compat_r; lra|lra].
    - assert (n * n2 <= n * (1 + 7 * u)) by (apply Rmult_le_compat_l; lra).
      assert (0 <= u * n) by (apply Rmult_le_pos; lra). assert (0 <= u * (u * n)) by (apply Rmult_le_pos; lra).
      assert (u * (u * n) <= / 1000 * (u * n)) by (apply Rmult_le_compat_r; lra).
      assert ((2 * u + u * u) * (n * n2) <= (2 * u + u * u) * (n * (1 + 7 * u))) by (apply Rmult_le_compat_l; nra).
      unfold k. assert ((2 * u + u * u) * (n * (1 + 7 * u)) <= 21 / 10 * (u * n)); [|nra].
      replace ((2 * u + u * u) * (n * (1 + 7 * u))) with (2 * (u * n) + 15 * (u * (u * n)) + 7 * (u * (u * (u * n)))) by ring.
      assert (u * (u * (u * n)) <= / 1000 * (u * (u * n))) by (apply Rmult_le_compat_r; lra). lra. }
  set (x := crossv (v_real v1) (v_real v2)) in *.
  assert (X : Rabs (normR x - n) <= 7 * u * n).
  { assert (En : n = normR (crossv (v_real v1) w)) by (symmetry; exact (cross_norm_orth (v_real v1) w W0 W1)).
    rewrite En at 1. eapply Rle_trans; [apply norm_diff|].
    replace (v_sub x (crossv (v_real v1) w)) with (crossv (v_real v1) (v_sub (v_real v2) w)) by (unfold x, v_sub, crossv, cross_r; cbn; f_equal; ring).
    eapply Rle_trans; [apply cross_norm|]. fold n. rewrite (Rmult_comm _ n). apply Rmult_le_compat_l; lra. }
  split; [exact F2|]. split; [exact Fc|]. split; [exact N2|]. split; [|split; [|split; [|split]]].
  - replace (normR (v_real v3) - normR (v_real v1)) with ((normR (v_real v3) - normR x) + (normR x - n)) by (unfold n; ring).
    eapply Rle_trans; [apply Rabs_triang|]. pose proof (norm_diff (v_real v3) x). fold n. lra.
  - exact O12.
  - replace (dotR (v_real v1) (v_real v3)) with (dotR (v_real v1) (v_sub (v_real v3) x)) by (unfold x, dotR, v_sub, crossv, cross_r; cbn; ring).
    eapply Rle_trans; [apply cauchy_abs|]. fold n. replace (4 * u * (n * n)) with (n * (4 * u * n)) by ring. apply Rmult_le_compat_l; lra.
  - replace (dotR (v_real v2) (v_real v3)) with (dotR (v_real v2) (v_sub (v_real v3) x)) by (unfold x, dotR, v_sub, crossv, cross_r; cbn; ring).
    eapply Rle_trans; [apply cauchy_abs|]. fold n2. pose proof (norm_pos (v_sub (v_real v3) x)).
    apply Rle_trans with ((1 + 7 * u) * (4 * u * n)); [apply Rmult_le_compat; lra|].
    fold n. assert (0 <= u * n) by (apply Rmult_le_pos; lra). assert (u * (u * n) <= / 1000 * (u * n)) by (apply Rmult_le_compat_r; lra). lra.
  - replace (triple (v_real v1) (v_real v2) (v_real v3)) with (normR x * normR x + dotR x (v_sub (v_real v3) x)).
    2: { rewrite norm_sq. unfold triple, x, dotR, v_sub, crossv, cross_r; cbn; ring. }
    pose proof (cauchy_abs x (v_sub (v_real v3) x)) as Y. apply Rabs_le_inv in Y, X.
    assert (u * n <= / 1000 * n) by (apply Rmult_le_compat_r; lra).
    assert (0 < normR x) by lra. assert (normR x * normR (v_sub (v_real v3) x) <= normR x * (4 * u * n)) by (apply Rmult_le_compat_l; lra).
    assert (0 < normR x * (normR x - 4 * u * n)) by (apply Rmult_lt_0_compat; lra). lra.
Qed.
Lemma unit_axes a c q : 0 < q -> q * q = a * a + c * c -> a / q * (a / q) + c / q * (c / q) = 1.
Proof. intros H E. replace (a / q * (a / q) + c / q * (c / q)) with ((a * a + c * c) / (q * q)) by (field; lra). rewrite <- E. field. lra. Qed.
Lemma system_float (v1 : Vector3 B) : vfinite v1 -> bpow radix2 (-50) <= normR (v_real v1) <= bpow radix2 50 ->
  exists v2 v3, coordinate_system (f_float f) v1 = Done (v2, v3) /\ nearly_frame f v1 v2 v3.
Proof.
  intros F1 L. destruct v1 as [x y z]. pose proof (F1 AX) as Fx. pose proof (F1 AY) as Fy. pose proof (F1 AZ) as Fz. cbn [vcoord vx vy vz] in Fx, Fy, Fz.
  assert (L2 : bpow radix2 (-100) <= B2R x * B2R x + B2R y * B2R y + B2R z * B2R z <= bpow radix2 100).
  { pose proof (norm_sq (v_real (V3 x y z))) as S. set (n := normR _) in *. pose proof (bpow_gt_0 radix2 (-50)).
    unfold dotR in S. cbn in S. rewrite <- S. change (-100)%Z with (-50 + -50)%Z. change 100%Z with (50 + 50)%Z. rewrite !bpow_plus.
    split; apply Rmult_le_compat; lra. }
  assert (Half : bpow radix2 (-102) <= / 2 * bpow radix2 (-100)).
  { change (-102)%Z with (-2 + -100)%Z. rewrite bpow_plus. change (bpow radix2 (-2)) with (/ 4). pose proof (bpow_gt_0 radix2 (-100)). lra. }
  assert (Up : bpow radix2 100 <= bpow radix2 102) by (apply bpow_le; lia). pose proof (bpow_gt_0 radix2 (-102)) as Lo.
  pose proof (Rle_0_sqr (B2R x)) as Sx. pose proof (Rle_0_sqr (B2R y)) as Sy. pose proof (Rle_0_sqr (B2R z)) as Sz. unfold Rsqr in Sx, Sy, Sz.
  assert (Key : forall c : B, is_finite c = true -> is_finite (Babs c) = true /\ B2R (Babs c) = Rabs (B2R c)).
  { intros c Fc. split; [now rewrite is_finite_Babs|apply B2R_Babs]. }
  unfold coordinate_system. cbn [f_float fl_elem f_elem e_abs e_neg e_lt e_from_int fl_sqrt lift2 e_mul e_add obind vx vy vz].
  destruct (Bltb (Babs y) (Babs x)) eqn:Lt.
  - assert (Lxy : Rabs (B2R y) < Rabs (B2R x)).
    { destruct (Key x Fx) as [Fa <-], (Key y Fy) as [Fb <-]. rewrite Bltb_correct in Lt by assumption.
      destruct (Rlt_bool_spec (B2R (Babs y)) (B2R (Babs x))); [assumption|discriminate]. }
    apply Rlt_le, Rsqr_le_abs_1 in Lxy. unfold Rsqr in Lxy.
    destruct (root_err x z Fx Fz) as [Fr Er]; [lra|]. set (X := B2R x * B2R x + B2R z * B2R z) in *.
    assert (Xp : 0 < X) by (unfold X; lra). set (q := sqrt X) in *. assert (Q : 0 < q) by (apply sqrt_lt_R0; assumption).
    assert (QQ : q * q = X) by (apply sqrt_sqrt; lra). set (r := Bsqrt _ _) in *.
    assert (Cz : forall c : B, B2R c * B2R c <= X -> Rabs (B2R c) <= q).
    { intros c Hc. rewrite <- sqrt_Rsqr_abs. apply sqrt_le_1_alt. exact Hc. }
    destruct (quot_err (Bopp z) r q) as [Q1 E1]; [now rewrite is_finite_Bopp|exact Fr|exact Q|apply Cz; rewrite B2R_Bopp; unfold X; lra|exact Er|].
    destruct (quot_err (f_of_int f 0) r q) as [Q2 E2]; [exact (proj2 (zero_val f))|exact Fr|exact Q|apply Cz; rewrite (proj1 (zero_val f)); lra|exact Er|].
    destruct (quot_err x r q) as [Q3 E3]; [assumption|exact Fr|exact Q|apply Cz; unfold X; lra|exact Er|].
    rewrite B2R_Bopp in E1. rewrite (proj1 (zero_val f)) in E2.
    eexists _, _. split; [reflexivity|].
    eapply (frame (V3 x y z) _ _ (V3 (- B2R z / q) (0 / q) (B2R x / q))); auto.
    + unfold normR. rewrite <- sqrt_1. f_equal. unfold dotR. cbn.
      rewrite <- (unit_axes (- B2R z) (B2R x) q Q) by (rewrite QQ; unfold X; ring). field. lra.
    + unfold dotR. cbn. field. lra.
    + intros []; assumption.
    + intros []; assumption.
  - assert (Lxy : Rabs (B2R x) <= Rabs (B2R y)).
    { destruct (Key x Fx) as [Fa <-], (Key y Fy) as [Fb <-]. rewrite Bltb_correct in Lt by assumption.
      destruct (Rlt_bool_spec (B2R (Babs y)) (B2R (Babs x))); [discriminate|assumption]. }
    apply Rsqr_le_abs_1 in Lxy. unfold Rsqr in Lxy.
    destruct (root_err y z Fy Fz) as [Fr Er]; [lra|]. set (X := B2R y * B2R y + B2R z * B2R z) in *.
    assert (Xp : 0 < X) by (unfold X; lra). set (q := sqrt X) in *. assert (Q : 0 < q) by (apply sqrt_lt_R0; assumption).
    assert (QQ : q * q = X) by (apply sqrt_sqrt; lra). set (r := Bsqrt _ _) in *.
    assert (Cz : forall c : B, B2R c * B2R c <= X -> Rabs (B2R c) <= q).
    { intros c Hc. rewrite <- sqrt_Rsqr_abs. apply sqrt_le_1_alt. exact Hc. }
    destruct (quot_err (f_of_int f 0) r q) as [Q1 E1]; [exact (proj2 (zero_val f))|exact Fr|exact Q|apply Cz; rewrite (proj1 (zero_val f)); lra|exact Er|].
    destruct (quot_err z r q) as [Q2 E2]; [assumption|exact Fr|exact Q|apply Cz; unfold X; lra|exact Er|].
    destruct (quot_err (Bopp y) r q) as [Q3 E3]; [now rewrite is_finite_Bopp|exact Fr|exact Q|apply Cz; rewrite B2R_Bopp; unfold X; lra|exact Er|].
    rewrite B2R_Bopp in E3. rewrite (proj1 (zero_val f)) in E1.
    eexists _, _. split; [reflexivity|].
    eapply (frame (V3 x y z) _ _ (V3 (0 / q) (B2R z / q) (- B2R y / q))); auto.
    + unfold normR. rewrite <- sqrt_1. f_equal. unfold dotR. cbn.
      rewrite <- (unit_axes (B2R z) (- B2R y) q Q) by (rewrite QQ; unfold X; ring). field. lra.
    + unfold dotR. cbn. field. lra.
    + intros []; assumption.
    + intros []; assumption.
Qed.
End T.
