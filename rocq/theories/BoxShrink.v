(** Proofs about C140: expand by a negative amount, and there and back. *)
From Coq Require Import ZArith Reals List Lia Lra.
From Flocq Require Import Core.Core IEEE754.BinarySingleNaN.
From Verif Require Import Base Elem GeoModel MatModel FloatInst GeoSpec ArithSpec OpsSpec FloatErrSpec OrderProofs BoxThms IntThms FloatCore FloatThms FloatErr BoxMeet FloatHalf InvFloatEx FloatLerp.
Local Open Scope mon_scope.

(** ** Integers *)
Section I.
Local Open Scope Z_scope.
Notation lo b i := (coord i (b_min b)).
Notation hi b i := (coord i (b_max b)).
Definition room (b : Bounds3 Z) (d : Z) : Prop := forall i, in_range (lo b i - d) = true /\ in_range (hi b i + d) = true.
Lemma expand_intv chk b d : room b d -> exists u, b3_expand (i64 chk) b d = Done u /\
  forall i, lo u i = Z.min (lo b i - d) (hi b i + d) /\ hi u i = Z.max (lo b i - d) (hi b i + d).
Proof.
  intros R. unfold b3_expand, p3_sub_v, p3_add, mk3, lift2. cbn [obind e_sub e_add i64 vx vy vz].
  destruct (R AX) as [X1 X2], (R AY) as [Y1 Y2], (R AZ) as [Z1 Z2]. cbn [coord] in *. rewrite !arith_in by assumption. cbn [obind].
  destruct (new_coord (i64 chk) (P3 (px (b_min b) - d) (py (b_min b) - d) (pz (b_min b) - d)) (P3 (px (b_max b) + d) (py (b_max b) + d) (pz (b_max b) + d))) as (u & E1 & K).
  exists u. split; [exact E1|]. intros i. destruct (K i) as [K1 K2]. rewrite K1, K2. unfold mn, mx. cbn [e_lt i64].
  destruct i; cbn [coord px py pz];
    match goal with |- context [(?x <? ?y)] => destruct (Z.ltb_spec x y) end; match goal with |- context [(?x <? ?y)] => destruct (Z.ltb_spec x y) | _ => idtac end; lia.
Qed.
Lemma box_ext (a b : Bounds3 Z) : (forall i, lo a i = lo b i /\ hi a i = hi b i) -> a = b.
Proof.
  intros H. destruct a as [[x y z] [x' y' z']], b as [[a b c] [a' b' c']]. destruct (H AX) as [? ?], (H AY) as [? ?], (H AZ) as [? ?]. cbn in *. congruence.
Qed.
(** The bounds do not cross. *)
Definition uncrossed (b : Bounds3 Z) (d : Z) : Prop := forall i, lo b i - d <= hi b i + d.
Theorem int_twice chk b d e : room b d -> room b (d + e) -> uncrossed b d ->
  exists u v, b3_expand (i64 chk) b d = Done u /\ b3_expand (i64 chk) u e = Done v /\ b3_expand (i64 chk) b (d + e) = Done v.
Proof.
  intros R1 R2 U. destruct (expand_intv chk b d R1) as (u & E1 & K). destruct (expand_intv chk b (d + e) R2) as (w & E2 & W).
  assert (R : room u e).
  { intros i. destruct (K i) as [-> ->]. specialize (U i). rewrite Z.min_l, Z.max_r by assumption. destruct (R2 i) as [Q1 Q2].
    replace (lo b i - d - e) with (lo b i - (d + e)) by ring. replace (hi b i + d + e) with (hi b i + (d + e)) by ring. auto. }
  destruct (expand_intv chk u e R) as (v & E3 & V). exists u, v. split; [exact E1|]. split; [exact E3|]. rewrite E2. f_equal. apply box_ext. intros i.
  destruct (V i) as [-> ->], (W i) as [-> ->], (K i) as [-> ->]. specialize (U i). rewrite (Z.min_l _ _ U), (Z.max_r _ _ U). split; f_equal; lia.
Qed.
Theorem int_back chk (b : Bounds3 Z) d : good_box (TInt chk) b -> room b d -> uncrossed b d ->
  exists u, b3_expand (i64 chk) b d = Done u /\ b3_expand (i64 chk) u (- d) = Done b.
Proof.
  intros [[V1 V2] N] R U. assert (R2 : room b (d + - d)).
  { intros i. replace (d + - d) with 0 by ring. rewrite Z.sub_0_r, Z.add_0_r. split; [apply V1|apply V2]. }
  destruct (int_twice chk b d (- d) R R2 U) as (u & v & E1 & E2 & E3). exists u. split; [exact E1|]. rewrite E2. apply (f_equal (@Done (Bounds3 Z))).
  destruct (expand_intv chk b (d + - d) R2) as (w & E4 & W). assert (w = v) as -> by congruence.
  apply box_ext. intros i. destruct (W i) as [-> ->]. assert (NN : lo b i <= hi b i) by exact (N i). lia.
Qed.
Theorem int_points chk b d : room b d -> exists u, b3_expand (i64 chk) b d = Done u /\
  forall p, inb Z.le u p <-> forall i, lo b i - d <= coord i p <= hi b i + d \/ hi b i + d <= coord i p <= lo b i - d.
Proof.
  intros R. destruct (expand_intv chk b d R) as (u & E1 & K). exists u. split; [exact E1|]. intros p. unfold inb. split; intros H i; specialize (H i); destruct (K i); lia.
Qed.
Theorem int_grows_refuted : exists b d u, good_box (TInt true) b /\ room b d /\ d < 0 /\ b3_expand (i64 true) b d = Done u /\
  subbox Z.le b u /\ exists p, inb Z.le u p /\ ~ inb Z.le b p.
Proof.
  exists (bx 0 0 0 1 1 1), (-2), (bx (-1) (-1) (-1) 2 2 2). split; [split; [split|]; intros []; vm_compute; (reflexivity || discriminate)|].
  split; [intros []; split; reflexivity|]. split; [lia|]. split; [reflexivity|]. split.
  - intros p H i. specialize (H i). destruct i; cbn in *; lia.
  - exists (P3 2 2 2). split; [intros []; cbn; lia|]. intros H. specialize (H AX). cbn in H. lia.
Qed.
Theorem int_back_refuted : exists b d u v, good_box (TInt true) b /\ room b d /\ b3_expand (i64 true) b d = Done u /\ b3_expand (i64 true) u (- d) = Done v /\ v <> b.
Proof.
  exists (bx 0 0 0 1 1 1), (-2), (bx (-1) (-1) (-1) 2 2 2), (bx (-3) (-3) (-3) 4 4 4). split; [split; [split|]; intros []; vm_compute; (reflexivity || discriminate)|].
  split; [intros []; split; reflexivity|]. split; [reflexivity|]. split; [reflexivity|discriminate].
Qed.
Lemma shrink_example : let b := bx 0 0 0 4 6 8 in good_box (TInt true) b /\ room b (-1) /\ uncrossed b (-1) /\ room b (-1 + -1) /\
  b3_expand (i64 true) b (-1) = Done (bx 1 1 1 3 5 7).
Proof.
  cbv zeta. split; [split; [split|]; intros []; vm_compute; (reflexivity || discriminate)|]. split; [intros []; split; reflexivity|].
  split; [intros []; cbn; lia|]. split; [intros []; split; reflexivity|reflexivity].
Qed.
End I.

(** ** Floats *)
Section F.
Local Open Scope R_scope.
Context (f : fmt).
Notation B := (flt f).
Notation le := (tle (TFloat f)).
Notation u := (half_ulp f).
Notation rnd := (FloatCore.rnd f).
Notation lo b i := (coord i (b_min b)).
Notation hi b i := (coord i (b_max b)).
Lemma expand_fl (b : Bounds3 B) d : exists u, b3_expand (f_elem f) b d = Done u /\
  forall i, lo u i = mn (f_elem f) (f_sub (lo b i) d) (f_add (hi b i) d) /\ hi u i = mx (f_elem f) (f_sub (lo b i) d) (f_add (hi b i) d).
Proof. eexists. split; [reflexivity|]. intros []; cbn; auto. Qed.
Lemma sub_above (x d : B) : is_finite x = true -> is_finite d = true -> B2R d <= 0 -> Bleb x (f_sub x d) = true.
Proof.
  intros Fx Fd Hd. destruct (sub_key f x d Fx Fd) as (N & K & _). apply leb_key. split; [now apply fin_nan|]. split; [exact N|]. rewrite K.
  rewrite (key_finite f x Fx). rewrite <- (sat_in f (B2R x)) at 1 by apply B2R_big. apply sat_le. rewrite <- (rnd_B f x) at 1. apply rnd_le. lra.
Qed.
Lemma add_below (x d : B) : is_finite x = true -> is_finite d = true -> B2R d <= 0 -> Bleb (f_add x d) x = true.
Proof.
  intros Fx Fd Hd. destruct (add_key f x d Fx Fd) as (N & K & _). apply leb_key. split; [exact N|]. split; [now apply fin_nan|]. rewrite K.
  rewrite (key_finite f x Fx). rewrite <- (sat_in f (B2R x)) at 2 by apply B2R_big. apply sat_le. rewrite <- (rnd_B f x) at 2. apply rnd_le. lra.
Qed.
(** [mn] and [mx] of numbers in order. *)
Lemma mn_first (x y : B) : Bleb x y = true -> mn (f_elem f) x y = x.
Proof.
  intros H. unfold mn. cbn [e_lt f_elem]. destruct (Bltb y x) eqn:L; [|reflexivity]. exfalso. apply leb_key in H as (N1 & N2 & H). apply ltb_key in L as (_ & _ & L). lra.
Qed.
Lemma mx_second (x y : B) : Bleb x y = true -> Beqb (mx (f_elem f) x y) y = true.
Proof.
  intros H. unfold mx. cbn [e_lt f_elem]. apply leb_key in H as (N1 & N2 & H). destruct (Bltb x y) eqn:L.
  - apply eqb_key. auto.
  - apply eqb_key. split; [assumption|]. split; [assumption|]. destruct (Rle_lt_or_eq_dec _ _ H) as [K|K]; [|assumption].
    exfalso. assert (Bltb x y = true) by (apply ltb_key; auto). congruence.
Qed.
Theorem shrink (b : Bounds3 B) d : bfinite b -> is_finite d = true -> B2R d <= 0 ->
  (forall i, Bleb (f_sub (lo b i) d) (f_add (hi b i) d) = true) ->
  exists v, b3_expand (f_elem f) b d = Done v /\ subbox le v b.
Proof.
  intros [F1 F2] Fd Hd H. destruct (expand_fl b d) as (v & E1 & K). exists v. split; [exact E1|]. intros p Hp i. destruct (Hp i) as [P1 P2]. destruct (K i) as [K1 K2].
  cbn [tle car] in P1, P2. change (car (TFloat f)) with B in *. rewrite K1, (mn_first _ _ (H i)) in P1. rewrite K2 in P2. split.
  - apply (tle_trans (TFloat f) _ (f_sub (lo b i) d)); [|exact P1]. apply sub_above; auto.
  - apply (tle_trans (TFloat f) _ (f_add (hi b i) d)); [|apply add_below; auto].
    apply (tle_trans (TFloat f) _ _ _ P2). cbn [tle]. pose proof (mx_second _ _ (H i)) as Q. apply eqb_key in Q as (N1 & N2 & Q). apply leb_key. split; [assumption|]. split; [assumption|lra].
Qed.
Lemma ab_le x y : Rabs (x + y) <= Rabs x + Rabs y. Proof. apply Rabs_triang. Qed.
(** One bound there and back. *)
Lemma back_err (x d x1 x2 : R) : (exists e, Rabs e <= u /\ x1 = (x + d) * (1 + e)) -> (exists e, Rabs e <= u /\ x2 = (x1 - d) * (1 + e)) ->
  Rabs (x2 - x) <= 3 * u * (Rabs x + Rabs d).
Proof.
  intros (e & He & ->) (e' & He' & ->). pose proof (u_pos f) as Hu. pose proof (u_small f) as Hs. pose proof (Rabs_pos x). pose proof (Rabs_pos d).
  replace (((x + d) * (1 + e) - d) * (1 + e') - x) with (e * (x + d) + (e' * x + e' * (e * (x + d)))) by ring.
  assert (M : forall a r k, Rabs a <= u -> Rabs r <= k -> Rabs (a * r) <= u * k) by (intros a r k Ha Hr; rewrite Rabs_mult; apply Rmult_le_compat; auto using Rabs_pos).
  assert (H1 : Rabs (e * (x + d)) <= u * (Rabs x + Rabs d)) by (apply M; [assumption|apply Rabs_triang]).
  assert (H2 : Rabs (e' * x) <= u * Rabs x) by (apply M; [assumption|lra]).
  assert (H3 : Rabs (e' * (e * (x + d))) <= u * (u * (Rabs x + Rabs d))) by (apply M; assumption).
  eapply Rle_trans; [apply ab_le|]. pose proof (ab_le (e' * x) (e' * (e * (x + d)))).
  assert (u * (u * (Rabs x + Rabs d)) <= u * (Rabs x + Rabs d)) by (apply Rmult_le_compat_l; [lra|]; rewrite <- (Rmult_1_l (Rabs x + Rabs d)) at 2; apply Rmult_le_compat_r; lra).
  assert (u * Rabs x <= u * (Rabs x + Rabs d)) by (apply Rmult_le_compat_l; lra). lra.
Qed.
Lemma mnx_val (x y : B) : is_finite x = true -> is_finite y = true ->
  B2R (mn (f_elem f) x y) = Rmin (B2R x) (B2R y) /\ B2R (mx (f_elem f) x y) = Rmax (B2R x) (B2R y).
Proof.
  intros Fx Fy. unfold mn, mx. cbn [e_lt f_elem]. rewrite !Bltb_correct by assumption.
  destruct (Rlt_bool_spec (B2R y) (B2R x)), (Rlt_bool_spec (B2R x) (B2R y)); split; unfold Rmin, Rmax; destruct (Rle_dec (B2R x) (B2R y)); lra.
Qed.
Lemma mnx_fin (x y : B) : is_nan y = false -> is_finite (mn (f_elem f) x y) = true -> is_finite (mx (f_elem f) x y) = true -> is_finite x = true /\ is_finite y = true.
Proof.
  intros Ny. unfold mn, mx. cbn [e_lt f_elem]. destruct (Bltb y x) eqn:L1, (Bltb x y) eqn:L2; auto.
  - intros H _. exfalso. apply ltb_key in L1 as (_ & _ & L1), L2 as (_ & _ & L2). lra.
  - intros Fx _. split; [assumption|]. destruct x as [s|s| |s m e Hx], y as [s'|[]| |s' m' e' Hy]; try destruct s; try discriminate; auto.
Qed.
Theorem float_back (b v w : Bounds3 B) d : normalised le b -> (forall i, Bleb (f_sub (lo b i) d) (f_add (hi b i) d) = true) ->
  b3_expand (f_elem f) b d = Done v -> b3_expand (f_elem f) v (Bopp d) = Done w -> bfinite v -> bfinite w ->
  forall i, let m := Rmax (Rabs (B2R (lo b i))) (Rabs (B2R (hi b i))) in
  Rabs (B2R (lo w i) - B2R (lo b i)) <= 3 * u * (m + Rabs (B2R d)) /\ Rabs (B2R (hi w i) - B2R (hi b i)) <= 3 * u * (m + Rabs (B2R d)).
Proof.
  intros N H E1 E2 [V1 V2] [W1 W2] i m. destruct (expand_fl b d) as (v' & E1' & V). rewrite E1 in E1'. apply result_inj in E1'. subst v'.
  destruct (expand_fl v (Bopp d)) as (w' & E2' & W). rewrite E2 in E2'. apply result_inj in E2'. subst w'.
  pose proof (V1 i) as Fl. pose proof (V2 i) as Fh.
  destruct (V i) as [K1 K2]. pose proof Fl as Fl'. pose proof Fh as Fh'. rewrite K1 in Fl'. rewrite K2 in Fh'.
  pose proof (H i) as Hi. apply leb_key in Hi as (_ & Ny & _). destruct (mnx_fin _ _ Ny Fl' Fh') as [T1 T2].
  destruct (mnx_val _ _ T1 T2) as [M1 M2]. rewrite <- K1 in M1. rewrite <- K2 in M2.
  destruct (fin_sub f _ _ T1) as (Fa & Fd & Va). destruct (fin_add f _ _ T2) as (Fb & _ & Vb). clear K1 K2.
  assert (Fo : is_finite (Bopp d) = true) by (now rewrite is_finite_Bopp).
  destruct (W i) as [K1 K2]. specialize (W1 i). specialize (W2 i). rewrite K1 in W1. rewrite K2 in W2.
  destruct (add_key f _ _ Fh Fo) as (Nz & _ & _). destruct (mnx_fin _ _ Nz W1 W2) as [S1 S2].
  destruct (mnx_val _ _ S1 S2) as [M3 M4]. rewrite K1, K2, M3, M4. clear K1 K2 M3 M4 W1 W2.
  destruct (fin_sub f _ _ S1) as (_ & _ & Vl). destruct (fin_add f _ _ S2) as (_ & _ & Vh). rewrite B2R_Bopp in Vl, Vh.
  assert (O : B2R (f_sub (lo b i) d) <= B2R (f_add (hi b i) d)).
  { pose proof (H i) as Q. rewrite Bleb_correct in Q by assumption. now destruct (Rle_bool_spec (B2R (f_sub (lo b i) d)) (B2R (f_add (hi b i) d))). }
  rewrite Rmin_left in M1 by assumption. rewrite Rmax_right in M2 by assumption.
  assert (NN : B2R (lo b i) <= B2R (hi b i)).
  { assert (Q : Bleb (lo b i) (hi b i) = true) by exact (N i). rewrite Bleb_correct in Q by assumption. now destruct (Rle_bool_spec (B2R (lo b i)) (B2R (hi b i))). }
  assert (P1 : Rabs (B2R (f_sub (lo v i) (Bopp d)) - B2R (lo b i)) <= 3 * u * (Rabs (B2R (lo b i)) + Rabs (- B2R d))).
  { apply (back_err _ _ (B2R (lo v i))).
    - rewrite M1, Va. unfold Rminus. apply rnd_plus; [apply fmt_B|]. apply generic_format_opp, fmt_B.
    - rewrite Vl. unfold Rminus. apply rnd_plus; [apply fmt_B|]. do 2 apply generic_format_opp. apply fmt_B. }
  assert (P2 : Rabs (B2R (f_add (hi v i) (Bopp d)) - B2R (hi b i)) <= 3 * u * (Rabs (B2R (hi b i)) + Rabs (B2R d))).
  { apply (back_err _ _ (B2R (hi v i))).
    - rewrite M2, Vb. apply rnd_plus; apply fmt_B.
    - rewrite Vh. unfold Rminus. apply rnd_plus; [apply fmt_B|]. apply generic_format_opp, fmt_B. }
  rewrite Rabs_Ropp in P1. pose proof (u_pos f) as Hu.
  assert (P3 : 3 * u * (Rabs (B2R (lo b i)) + Rabs (B2R d)) <= 3 * u * (m + Rabs (B2R d))) by (apply Rmult_le_compat_l; [lra|]; pose proof (Rmax_l (Rabs (B2R (lo b i))) (Rabs (B2R (hi b i)))); unfold m; lra).
  assert (P4 : 3 * u * (Rabs (B2R (hi b i)) + Rabs (B2R d)) <= 3 * u * (m + Rabs (B2R d))) by (apply Rmult_le_compat_l; [lra|]; pose proof (Rmax_r (Rabs (B2R (lo b i))) (Rabs (B2R (hi b i)))); unfold m; lra).
  set (X := 3 * u * (m + Rabs (B2R d))) in *. pose proof (Rle_trans _ _ _ P1 P3) as Q1. pose proof (Rle_trans _ _ _ P2 P4) as Q2.
  apply Rabs_le_inv in Q1, Q2. split; apply Rabs_le; unfold Rmin, Rmax; destruct (Rle_dec _ _); lra.
Qed.
End F.
(** Bounds that cross: the box is turned inside out. *)
Theorem crossed ty (b u : Bounds3 (car ty)) (x y : axis -> car ty) i d : (forall j, e_sub (elem ty) (coord j (b_min b)) d = Done (x j)) ->
  (forall j, e_add (elem ty) (coord j (b_max b)) d = Done (y j)) -> valid ty (x i) -> valid ty (y i) -> ~ tle ty (x i) (y i) ->
  b3_expand (elem ty) b d = Done u -> coord i (b_min u) = y i /\ coord i (b_max u) = x i.
Proof.
  intros Hx Hy Vx Vy C H.
  assert (E1 : b3_expand (elem ty) b d = b3_new (elem ty) (P3 (x AX) (x AY) (x AZ)) (P3 (y AX) (y AY) (y AZ))).
  { unfold b3_expand, p3_sub_v, p3_add, mk3, lift2. cbn [obind vx vy vz].
    pose proof (Hx AX) as X1. pose proof (Hx AY) as X2. pose proof (Hx AZ) as X3. pose proof (Hy AX) as Y1. pose proof (Hy AY) as Y2. pose proof (Hy AZ) as Y3.
    cbn [coord] in *. rewrite X1, X2, X3, Y1, Y2, Y3. reflexivity. }
  rewrite E1 in H. destruct (new_coord (elem ty) (P3 (x AX) (x AY) (x AZ)) (P3 (y AX) (y AY) (y AZ))) as (u' & E2 & K). rewrite H in E2. apply result_inj in E2. subst u'.
  destruct (K i) as [-> ->]. assert (Q : coord i (P3 (x AX) (x AY) (x AZ)) = x i /\ coord i (P3 (y AX) (y AY) (y AZ)) = y i) by (destruct i; split; reflexivity).
  destruct Q as [-> ->]. destruct (mn_smaller ty (x i) (y i) Vx Vy) as ([M|M] & M1 & M2); destruct (mx_larger ty (x i) (y i) Vx Vy) as ([L|L] & L1 & L2);
    rewrite ?M, ?L in *; auto; contradiction.
Qed.
Local Open Scope R_scope.
Definition cube f (x y : flt f) : Bounds3 (flt f) := B3 (P3 x x x) (P3 y y y).
Theorem float_back_refuted f : exists (b : Bounds3 (flt f)) d v w p, bfinite b /\ normalised (tle (TFloat f)) b /\ 0 < B2R d /\
  b3_expand (f_elem f) b d = Done v /\ b3_expand (f_elem f) v (Bopp d) = Done w /\ bfinite v /\ bfinite w /\
  inb (tle (TFloat f)) b p /\ ~ inb (tle (TFloat f)) w p.
Proof.
  set (n := f_of_int f). set (x := Bopp (tiny f) : flt f). set (b := cube f x (n 1%Z)).
  set (v := get_done (b3_expand (f_elem f) b (n 1%Z)) b). set (w := get_done (b3_expand (f_elem f) v (Bopp (n 1%Z))) b).
  exists b, (n 1%Z), v, w, (P3 x x x).
  split; [split; intros []; destruct f; vm_compute; reflexivity|]. split; [intros []; destruct f; vm_compute; reflexivity|].
  split; [unfold n; rewrite (proj1 (one_val f)); lra|]. split; [reflexivity|]. split; [reflexivity|].
  split; [split; intros []; destruct f; vm_compute; reflexivity|]. split; [split; intros []; destruct f; vm_compute; reflexivity|].
  split; [intros []; split; destruct f; vm_compute; reflexivity|]. intros H. destruct (H AX) as [K _]. destruct f; vm_compute in K; discriminate.
Qed.
Theorem float_grows_refuted f : exists (b : Bounds3 (flt f)) d u, bfinite b /\ normalised (tle (TFloat f)) b /\ B2R d < 0 /\ b3_expand (f_elem f) b d = Done u /\
  exists p, inb (tle (TFloat f)) u p /\ ~ inb (tle (TFloat f)) b p.
Proof.
  set (n := f_of_int f). set (b := cube f (n 0%Z) (n 1%Z)). exists b, (n (-2)%Z), (get_done (b3_expand (f_elem f) b (n (-2)%Z)) b).
  split; [split; intros []; destruct f; vm_compute; reflexivity|]. split; [intros []; destruct f; vm_compute; reflexivity|].
  split; [unfold n; rewrite (proj1 (int_correct f (-2) ltac:(destruct f; cbn; lia))); lra|]. split; [reflexivity|].
  exists (P3 (n 2%Z) (n 2%Z) (n 2%Z)). split; [intros []; split; destruct f; vm_compute; reflexivity|].
  intros H. destruct (H AX) as [_ K]. destruct f; vm_compute in K; discriminate.
Qed.
Lemma shrink_float_example f : let b := cube f (f_of_int f 0) (f_of_int f 4) in let d := f_of_int f (-1) in bfinite b /\ normalised (tle (TFloat f)) b /\ is_finite d = true /\
  B2R d <= 0 /\ (forall i, Bleb (f_sub (coord i (b_min b)) d) (f_add (coord i (b_max b)) d) = true) /\
  exists v, b3_expand (f_elem f) b d = Done v /\ forall i, Beqb (coord i (b_min v)) (f_of_int f 1) = true /\ Beqb (coord i (b_max v)) (f_of_int f 3) = true.
Proof.
  cbv zeta. split; [split; intros []; destruct f; vm_compute; reflexivity|]. split; [intros []; destruct f; vm_compute; reflexivity|].
  split; [destruct f; vm_compute; reflexivity|]. split; [rewrite (proj1 (int_correct f (-1) ltac:(destruct f; cbn; lia))); lra|].
  split; [intros []; destruct f; vm_compute; reflexivity|]. eexists. split; [reflexivity|].
  intros []; split; destruct f; vm_compute; reflexivity.
Qed.
