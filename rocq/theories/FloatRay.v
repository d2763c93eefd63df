(** Proofs about C105 and C106: scale_differentials, and offset followed by lerp, in floats. *)
From Coq Require Import ZArith Reals Lia Lra.
From Flocq Require Import Core.Core IEEE754.BinarySingleNaN Sterbenz.
From Verif Require Import Base Elem FloatInst GeoModel MatModel GeoSpec ArithSpec MatSpec OpsSpec FloatErrSpec OrderProofs MatThms.
From Verif Require Import FloatCore FloatThms FloatErr FloatErrThms InvFloatEx FloatLerp RaySpec.
Local Open Scope mon_scope.
Local Open Scope R_scope.

Section R.
Context (f : fmt).
Notation B := (flt f).
Notation rnd := (FloatCore.rnd f).
Notation u := (half_ulp f).
Notation eta := (half_tiny f).

Lemma scale_formula (rd : RayDifferential B) s : exists c, rd_scale (f_float f) rd s = Done c /\ rd_ray c = rd_ray rd /\ rd_has c = rd_has rd /\
  forall k i, part_of k i c = f_add (main_of k i rd) (f_mult s (f_sub (part_of k i rd) (main_of k i rd))).
Proof. eexists. split; [reflexivity|]. split; [reflexivity|]. split; [reflexivity|]. intros [] []; reflexivity. Qed.
Lemma scale_err (rd c : RayDifferential B) s k i : rd_scale (f_float f) rd s = Done c -> is_finite (part_of k i c) = true ->
  let m := B2R (main_of k i rd) in let p := B2R (part_of k i rd) in
  within f 3 (Rabs m + Rabs (B2R s * (p - m))) eta (part_of k i c) (m + B2R s * (p - m)).
Proof.
  destruct (scale_formula rd s) as (c' & H & _ & _ & V). rewrite H. intros [= <-] Fc m p. rewrite V in *.
  pose proof (fin_add f _ _ Fc) as (F1 & F2 & _). pose proof (fin_mult f _ _ F2) as (F3 & F4 & _).
  apply ap_within. unfold m, p. replace eta with (0 + (0 * Rabs (B2R (part_of k i rd) - B2R (main_of k i rd)) + Rabs (B2R s) * 0 + 0 * 0 + eta)) by ring.
  rewrite Rabs_mult. apply (ap_add f 0 0 _ _ _ _ 2 _); auto using ap_exact.
  apply (ap_mult f 0 0 _ _ _ _ 1 0); auto using ap_exact, ap_difference.
Qed.
Lemma add_zero_r (x z : B) : is_finite x = true -> is_finite z = true -> B2R z = 0 -> is_finite (f_add x z) = true /\ B2R (f_add x z) = B2R x.
Proof.
  intros Fx Fz Hz. destruct (add_key f x z Fx Fz) as (_ & K & Fin). rewrite Hz, Rplus_0_r, rnd_B in K, Fin.
  assert (L : Rabs (B2R x) < big f) by apply abs_B2R_lt_emax. rewrite Rlt_bool_true in Fin by exact L.
  split; [assumption|]. now apply finite_of_key.
Qed.
Lemma scale_zero (rd c : RayDifferential B) s k i : rd_scale (f_float f) rd s = Done c -> is_finite s = true -> B2R s = 0 ->
  is_finite (main_of k i rd) = true -> is_finite (f_sub (part_of k i rd) (main_of k i rd)) = true ->
  is_finite (part_of k i c) = true /\ B2R (part_of k i c) = B2R (main_of k i rd).
Proof.
  destruct (scale_formula rd s) as (c' & H & _ & _ & V). rewrite H. intros [= <-] Fs Hs Fm Fd. rewrite V.
  destruct (mult_key f s _ Fs Fd) as (_ & K & Fin). rewrite Hs, Rmult_0_l, rnd_0 in K, Fin.
  assert (L : Rabs 0 < big f) by (rewrite Rabs_R0; apply bpow_gt_0). rewrite Rlt_bool_true in Fin by exact L.
  apply add_zero_r; auto. now apply finite_of_key.
Qed.
Lemma one_mult (s x : B) : is_finite s = true -> B2R s = 1 -> is_finite x = true -> is_finite (f_mult s x) = true /\ B2R (f_mult s x) = B2R x.
Proof.
  intros Fs Hs Fx. destruct (mult_key f s x Fs Fx) as (_ & K & Fin). rewrite Hs, Rmult_1_l, rnd_B in K, Fin.
  assert (L : Rabs (B2R x) < big f) by apply abs_B2R_lt_emax. rewrite Rlt_bool_true in Fin by exact L.
  split; [assumption|]. now apply finite_of_key.
Qed.
Lemma sub_val (x y : B) : is_finite x = true -> is_finite y = true -> Rabs (rnd (B2R x - B2R y)) < big f ->
  is_finite (f_sub x y) = true /\ B2R (f_sub x y) = rnd (B2R x - B2R y).
Proof.
  intros Fx Fy L. destruct (sub_key f x y Fx Fy) as (_ & K & Fin). rewrite Rlt_bool_true in Fin by exact L.
  split; [assumption|]. now apply finite_of_key.
Qed.
(** The main ray and the other one within a factor of two of each other. *)
Definition close (p m : R) : Prop := (0 <= m /\ m / 2 <= p <= 2 * m) \/ (m <= 0 /\ 2 * m <= p <= m / 2).
Lemma close_exact (p m : B) : close (B2R p) (B2R m) -> rnd (B2R p - B2R m) = B2R p - B2R m.
Proof.
  intros [[H0 H]|[H0 H]].
  - apply rnd_id. apply sterbenz; [apply fexp_valid|apply fexp_mono|apply fmt_B|apply fmt_B|exact H].
  - rewrite <- (Ropp_involutive (B2R p - B2R m)), rnd_opp. f_equal. replace (- (B2R p - B2R m)) with ((- B2R p) - (- B2R m)) by ring.
    apply rnd_id. apply sterbenz; [apply fexp_valid|apply fexp_mono|apply generic_format_opp, fmt_B|apply generic_format_opp, fmt_B|lra].
Qed.
Lemma scale_one (rd c : RayDifferential B) s k i : rd_scale (f_float f) rd s = Done c -> is_finite s = true -> B2R s = 1 ->
  is_finite (main_of k i rd) = true -> is_finite (part_of k i rd) = true -> close (B2R (part_of k i rd)) (B2R (main_of k i rd)) ->
  is_finite (part_of k i c) = true /\ B2R (part_of k i c) = B2R (part_of k i rd).
Proof.
  destruct (scale_formula rd s) as (c' & H & _ & _ & V). rewrite H. intros [= <-] Fs Hs Fm Fp C. rewrite V.
  set (p := part_of k i rd) in *. set (m := main_of k i rd) in *. pose proof (close_exact p m C) as X.
  assert (L : Rabs (rnd (B2R p - B2R m)) < big f).
  { rewrite X. pose proof (abs_B2R_lt_emax _ _ p) as Bp. pose proof (abs_B2R_lt_emax _ _ m) as Bm. unfold big.
    apply Rabs_lt_inv in Bp, Bm. apply Rabs_lt. destruct C; lra. }
  destruct (sub_val p m Fp Fm L) as [F1 V1]. destruct (one_mult s _ Fs Hs F1) as [F2 V2].
  destruct (add_key f m _ Fm F2) as (_ & K & Fin). rewrite V2, V1, X in K, Fin. replace (B2R m + (B2R p - B2R m)) with (B2R p) in K, Fin by ring.
  rewrite rnd_B in K, Fin. assert (L' : Rabs (B2R p) < big f) by apply abs_B2R_lt_emax. rewrite Rlt_bool_true in Fin by exact L'.
  split; [assumption|]. now apply finite_of_key.
Qed.
Lemma scale_one_near (rd c : RayDifferential B) s k i : rd_scale (f_float f) rd s = Done c -> is_finite s = true -> B2R s = 1 ->
  is_finite (part_of k i c) = true -> Rabs (B2R (part_of k i c) - B2R (part_of k i rd)) <= u * (3 * Rabs (B2R (part_of k i rd)) + 2 * Rabs (B2R (main_of k i rd))).
Proof.
  destruct (scale_formula rd s) as (c' & H & _ & _ & V). rewrite H. intros [= <-] Fs Hs Fc. rewrite V in *.
  set (p := part_of k i rd) in *. set (m := main_of k i rd) in *.
  pose proof (fin_add f _ _ Fc) as (Fm & F2 & V3). pose proof (fin_mult f _ _ F2) as (_ & F4 & _).
  pose proof (fin_sub f _ _ F4) as (Fp & _ & V1). destruct (one_mult s _ Fs Hs F4) as [_ V2]. rewrite V3, V2.
  destruct (rnd_plus f (B2R m) (B2R (f_sub p m)) (fmt_B f m) (fmt_B f _)) as (d2 & D2 & ->).
  destruct (rnd_plus f (B2R p) (- B2R m) (fmt_B f p) (generic_format_opp _ _ _ (fmt_B f m))) as (d1 & D1 & E1).
  unfold Rminus in V1. rewrite V1, E1. pose proof (u_pos f) as Up. pose proof (u_small f) as Us.
  replace ((B2R m + (B2R p + - B2R m) * (1 + d1)) * (1 + d2) - B2R p) with (B2R p * d2 + (B2R p + - B2R m) * (d1 * (1 + d2))) by ring.
  assert (D3 : Rabs (d1 * (1 + d2)) <= 2 * u).
  { rewrite Rabs_mult. replace (2 * u) with (u * 2) by ring. apply Rmult_le_compat; auto using Rabs_pos.
    eapply Rle_trans; [apply Rabs_triang|]. rewrite Rabs_R1. lra. }
  eapply Rle_trans; [apply Rabs_triang|]. rewrite !(Rabs_mult (B2R p) d2), (Rabs_mult (B2R p + - B2R m)).
  assert (S : Rabs (B2R p + - B2R m) <= Rabs (B2R p) + Rabs (B2R m)) by (eapply Rle_trans; [apply Rabs_triang|]; rewrite Rabs_Ropp; lra).
  assert (Rabs (B2R p) * Rabs d2 <= Rabs (B2R p) * u) by (apply Rmult_le_compat_l; [apply Rabs_pos|assumption]).
  assert (Rabs (B2R p + - B2R m) * Rabs (d1 * (1 + d2)) <= (Rabs (B2R p) + Rabs (B2R m)) * (2 * u)) by (apply Rmult_le_compat; auto using Rabs_pos).
  lra.
Qed.

(** ** offset followed by lerp *)
Lemma div_val (x y : B) : is_finite x = true -> is_finite y = true -> B2R y <> 0 -> Rabs (rnd (B2R x / B2R y)) < big f ->
  is_finite (f_div x y) = true /\ B2R (f_div x y) = rnd (B2R x / B2R y).
Proof.
  intros Fx Fy Ny L. destruct (div_key f x y Fx Fy Ny) as (_ & K & Fin). rewrite Rlt_bool_true in Fin by exact L.
  split; [assumption|]. now apply finite_of_key.
Qed.
Lemma eta_u : eta <= u.
Proof.
  unfold half_tiny, half_ulp. assert (bpow radix2 (3 - femax f - fprec f) <= bpow radix2 (- fprec f)) by (apply bpow_le; destruct f; cbn; lia).
  pose proof (bpow_gt_0 radix2 (3 - femax f - fprec f)). lra.
Qed.
Lemma back_coord (a b p d : B) : is_finite a = true -> is_finite b = true -> is_finite p = true -> is_finite (f_sub b a) = true ->
  B2R a < B2R b -> B2R a <= B2R p <= B2R b -> lerp (f_float f) (f_div (f_sub p a) (f_sub b a)) a b = Done d ->
  is_finite d = true /\ Rabs (B2R d - B2R p) <= 14 * u * Rmax (Rabs (B2R a)) (Rabs (B2R b)) + 3 * eta.
Proof.
  intros Fa Fb Fp Fd Hab Hp HL. pose proof (fin_sub f b a Fd) as (_ & _ & V2).
  assert (L1 : 0 <= rnd (B2R p - B2R a) <= rnd (B2R b - B2R a)) by (split; [apply rnd_nonneg; lra|apply rnd_le; lra]).
  assert (P2 : 0 < rnd (B2R b - B2R a)) by (now apply rnd_sub_pos).
  assert (Lb : Rabs (rnd (B2R p - B2R a)) < big f).
  { pose proof (abs_B2R_lt_emax _ _ (f_sub b a)) as G. rewrite V2 in G. rewrite Rabs_pos_eq in * by lra. unfold big. lra. }
  destruct (sub_val p a Fp Fa Lb) as [F1 V1].
  set (r1 := rnd (B2R p - B2R a)) in *. set (r2 := rnd (B2R b - B2R a)) in *.
  assert (Q : 0 <= r1 / r2 <= 1).
  { split; [apply Rmult_le_pos; [lra|apply Rlt_le, Rinv_0_lt_compat, P2]|]. apply (Rmult_le_reg_r r2); [assumption|]. unfold Rdiv.
    rewrite Rmult_assoc, Rinv_l, Rmult_1_r, Rmult_1_l by lra. lra. }
  assert (Q' : 0 <= rnd (r1 / r2) <= 1).
  { split; [now apply rnd_nonneg|]. apply Rle_trans with (rnd 1); [now apply rnd_le|]. rewrite rnd_id by apply fmt_1. lra. }
  assert (L3 : Rabs (rnd (B2R (f_sub p a) / B2R (f_sub b a))) < big f).
  { rewrite V1, V2, Rabs_pos_eq by lra. apply Rle_lt_trans with (bpow radix2 0); [cbn; lra|]. unfold big. apply bpow_lt. destruct f; cbn; lia. }
  destruct (div_val (f_sub p a) (f_sub b a) F1 Fd ltac:(rewrite V2; lra) L3) as [F3 V3]. rewrite V1, V2 in V3.
  set (t := f_div (f_sub p a) (f_sub b a)) in *.
  destruct (lerp_dist f t a b d F3 Fa Fb ltac:(rewrite V3; exact Q') HL) as [Fr D]. split; [assumption|].
  destruct (rnd_plus f (B2R p) (- B2R a) (fmt_B f p) (generic_format_opp _ _ _ (fmt_B f a))) as (d1 & D1 & E1).
  destruct (rnd_plus f (B2R b) (- B2R a) (fmt_B f b) (generic_format_opp _ _ _ (fmt_B f a))) as (d2 & D2 & E2).
  destruct (rnd_any f (r1 / r2)) as (d3 & e3 & D3 & H3 & E3).
  pose proof (u_pos f) as Up. pose proof (u_small f) as Us. pose proof eta_u as Eu. pose proof (eta_pos f) as Ep.
  set (w := B2R b - B2R a) in *. set (x := B2R p - B2R a) in *. set (m := Rmax (Rabs (B2R a)) (Rabs (B2R b))) in *.
  assert (R1 : r1 = x * (1 + d1)) by exact E1. assert (R2 : r2 = w * (1 + d2)) by exact E2.
  apply Rabs_le_inv in D1, D2, D3, H3.
  assert (W0 : 0 < w) by (unfold w; lra). assert (X0 : 0 <= x <= w) by (unfold x, w; lra).
  assert (Wm : w <= 2 * m).
  { unfold w, m. pose proof (Rmax_l (Rabs (B2R a)) (Rabs (B2R b))). pose proof (Rmax_r (Rabs (B2R a)) (Rabs (B2R b))).
    pose proof (Rle_abs (B2R b)). pose proof (Rle_abs (- B2R a)) as N. rewrite Rabs_Ropp in N. lra. }
  set (g := (1 + d1) * (1 + d3) / (1 + d2)).
  assert (G : Rabs (g - 1) <= 4 * u).
  { unfold g. replace ((1 + d1) * (1 + d3) / (1 + d2) - 1) with ((d1 + d3 + d1 * d3 - d2) / (1 + d2)) by (field; lra).
    unfold Rdiv. rewrite Rabs_mult, (Rabs_pos_eq (/ (1 + d2))) by (apply Rlt_le, Rinv_0_lt_compat; lra).
    apply (Rmult_le_reg_r (1 + d2)); [lra|]. rewrite Rmult_assoc, Rinv_l, Rmult_1_r by lra. apply Rabs_le.
    assert (- (u * u) <= d1 * d3 <= u * u) by nra. split; nra. }
  assert (T : B2R t * w = x * g + e3 * w).
  { rewrite V3, E3, R1, R2. unfold g. field. lra. }
  assert (S : Rabs ((1 - B2R t) * B2R a + B2R t * B2R b - B2R p) <= 10 * u * m).
  { replace ((1 - B2R t) * B2R a + B2R t * B2R b - B2R p) with (B2R t * w - x) by (unfold w, x; ring). rewrite T.
    replace (x * g + e3 * w - x) with (x * (g - 1) + e3 * w) by ring. eapply Rle_trans; [apply Rabs_triang|].
    rewrite !Rabs_mult, (Rabs_pos_eq x), (Rabs_pos_eq w) by lra.
    assert (x * Rabs (g - 1) <= w * (4 * u)) by (apply Rmult_le_compat; auto using Rabs_pos; lra).
    assert (Rabs e3 * w <= u * w) by (apply Rmult_le_compat_r; [lra|]; apply Rabs_le; lra).
    apply Rle_trans with (w * (5 * u)); [lra|]. replace (10 * u * m) with (2 * m * (5 * u)) by ring. apply Rmult_le_compat_r; lra. }
  replace (B2R d - B2R p) with ((B2R d - ((1 - B2R t) * B2R a + B2R t * B2R b)) + ((1 - B2R t) * B2R a + B2R t * B2R b - B2R p)) by ring.
  eapply Rle_trans; [apply Rabs_triang|]. lra.
Qed.
Lemma same_coord (a b p d : B) : is_finite a = true -> is_finite b = true -> is_finite p = true ->
  B2R a = B2R b -> B2R a <= B2R p <= B2R b -> lerp (f_float f) (f_sub p a) a b = Done d -> is_finite d = true /\ B2R d = B2R p.
Proof.
  intros Fa Fb Fp Hab Hp HL. assert (E : B2R p - B2R a = 0) by lra.
  destruct (sub_val p a Fp Fa) as [F1 V1]; [rewrite E, rnd_0, Rabs_R0; apply bpow_gt_0|]. rewrite E, rnd_0 in V1.
  destruct (lerp_ends f (f_sub p a) a b F1 Fa Fb) as (d' & HL' & H0 & _). rewrite HL in HL'. injection HL' as <-.
  destruct (H0 V1) as [Fd Vd]. split; [assumption|lra].
Qed.
Lemma finite_between (a p b : B) : is_finite a = true -> is_finite b = true -> Bleb a p = true -> Bleb p b = true ->
  is_finite p = true /\ B2R a <= B2R p <= B2R b.
Proof.
  intros Fa Fb H1 H2. assert (Fp : is_finite p = true).
  { destruct p as [s|s| |s mm e h]; try reflexivity; destruct a as [sa|sa| |sa ma ea ha]; try discriminate; destruct b as [sb|sb| |sb mb eb hb]; try discriminate;
      destruct s; try destruct sa; try destruct sb; discriminate. }
  split; [assumption|]. rewrite Bleb_correct in H1, H2 by assumption.
  destruct (Rle_bool_spec (B2R a) (B2R p)); [|discriminate]. destruct (Rle_bool_spec (B2R p) (B2R b)); [|discriminate]. now split.
Qed.
Definition off_coord (a b p : B) : B := if Bltb a b then f_div (f_sub p a) (f_sub b a) else f_sub p a.
Lemma offset_coord (b : Bounds3 B) p : exists o, b3_offset (f_elem f) b p = Done o /\
  forall i, vcoord i o = off_coord (coord i (b_min b)) (coord i (b_max b)) (coord i p).
Proof.
  unfold b3_offset, p3_sub, mk3, lift2, off_coord. cbn [e_sub e_div e_lt f_elem obind vx vy vz].
  destruct (Bltb (px (b_min b)) (px (b_max b))) eqn:Lx; cbn [obind vx vy vz];
  destruct (Bltb (py (b_min b)) (py (b_max b))) eqn:Ly; cbn [obind vx vy vz];
  destruct (Bltb (pz (b_min b)) (pz (b_max b))) eqn:Lz; cbn [obind vx vy vz];
    (eexists; split; [reflexivity|]; intros []; cbn [vcoord coord vx vy vz]; rewrite ?Lx, ?Ly, ?Lz; reflexivity).
Qed.
Theorem offset_back (b : Bounds3 B) p : bfinite b -> (forall i, is_finite (f_sub (coord i (b_max b)) (coord i (b_min b))) = true) ->
  inb (tle (TFloat f)) b p -> exists o w, b3_offset (f_elem f) b p = Done o /\ b3_lerp (f_float f) b (p3_from_v3 o) = Done w /\
  forall i, is_finite (coord i w) = true /\
    Rabs (B2R (coord i w) - B2R (coord i p)) <= 14 * u * Rmax (Rabs (B2R (coord i (b_min b)))) (Rabs (B2R (coord i (b_max b)))) + 3 * eta.
Proof.
  intros [Fl Fh] Fe Hin. destruct (offset_coord b p) as (o & Ho & Co). destruct (b_lerp_coord f b (p3_from_v3 o)) as (w & Hw & Cw).
  exists o, w. split; [assumption|]. split; [assumption|]. intros i.
  assert (Ei : coord i (p3_from_v3 o) = vcoord i o) by (destruct i; reflexivity).
  pose proof (Cw i) as L. rewrite Ei, Co in L. destruct (Hin i) as [H1 H2]. cbn [tle] in H1, H2.
  assert (Fa : is_finite (coord i (b_min b)) = true) by apply Fl. assert (Fb : is_finite (coord i (b_max b)) = true) by apply Fh.
  destruct (finite_between _ _ _ Fa Fb H1 H2) as [Fp Hp]. unfold off_coord in L.
  destruct (Bltb (coord i (b_min b)) (coord i (b_max b))) eqn:Q.
  - apply bltb_R in Q; [|assumption|assumption]. now apply back_coord.
  - rewrite Bltb_correct in Q by assumption. destruct (Rlt_bool_spec (B2R (coord i (b_min b))) (B2R (coord i (b_max b)))); [discriminate|].
    destruct (same_coord _ _ _ _ Fa Fb Fp ltac:(lra) Hp L) as [Fd Vd]. split; [assumption|]. rewrite Vd.
    replace (B2R (coord i p) - B2R (coord i p)) with 0 by ring. rewrite Rabs_R0. pose proof (u_pos f). pose proof (eta_pos f).
    pose proof (Rmax_l (Rabs (B2R (coord i (b_min b)))) (Rabs (B2R (coord i (b_max b))))). pose proof (Rabs_pos (B2R (coord i (b_min b)))). nra.
Qed.
End R.
Definition far f : flt f := f_of_int f (2 ^ (fprec f + 1)).
Definition huge f : flt f := f_div (f_of_int f (-1)) (ratio f 1 (2 ^ (femax f - 1))).
Definition rd_with f (m p : flt f) : RayDifferential (flt f) :=
  let z := f_of_int f 0 in mkRD (ray_new_infinite (f_float f) (P3 m z z) (V3 z z z)) true (P3 p z z) (P3 z z z) (V3 z z z) (V3 z z z).
Definition scaled f m p s := get_done (rd_scale (f_float f) (rd_with f m p) s) (rd_with f m p).
Lemma one_changes f : exists rd c, (forall k i, is_finite (part_of k i rd) = true /\ is_finite (main_of k i rd) = true) /\
  rd_scale (f_float f) rd (f_of_int f 1) = Done c /\ B2R (part_of XOrigin AX rd) = 1 /\ B2R (part_of XOrigin AX c) = 0.
Proof.
  exists (rd_with f (far f) (f_of_int f 1)), (scaled f (far f) (f_of_int f 1) (f_of_int f 1)).
  split; [intros k i; split; destruct f, k, i; vm_compute; reflexivity|]. split; [reflexivity|]. split; [apply one_val|].
  assert (X : B2SF (part_of XOrigin AX (scaled f (far f) (f_of_int f 1) (f_of_int f 1))) = SpecFloat.S754_zero false) by (destruct f; vm_compute; reflexivity).
  destruct (part_of XOrigin AX _); try discriminate X. reflexivity.
Qed.
Lemma zero_changes f : exists rd c, (forall k i, is_finite (part_of k i rd) = true /\ is_finite (main_of k i rd) = true) /\
  rd_scale (f_float f) rd (f_of_int f 0) = Done c /\ is_nan (part_of XOrigin AX c) = true.
Proof.
  exists (rd_with f (huge f) (Bopp (huge f))), (scaled f (huge f) (Bopp (huge f)) (f_of_int f 0)).
  split; [intros k i; split; destruct f, k, i; vm_compute; reflexivity|]. split; [reflexivity|]. destruct f; vm_compute; reflexivity.
Qed.
Definition back_max f : flt f := f_of_int f (match f with F32 => 41 | F64 => 49 end).
Definition back_box f : Bounds3 (flt f) := let z := f_of_int f 0 in B3 (P3 z z z) (P3 (back_max f) z z).
Definition back_pt f : Point3 (flt f) := let z := f_of_int f 0 in P3 (f_of_int f 1) z z.
Definition back_off f : Vector3 (flt f) := get_done (b3_offset (f_elem f) (back_box f) (back_pt f)) (v3_from_p3 (back_pt f)).
Definition back_res f : Point3 (flt f) := get_done (b3_lerp (f_float f) (back_box f) (p3_from_v3 (back_off f))) (back_pt f).
Lemma offset_not_back f : exists (b : Bounds3 (flt f)) p o w, bfinite b /\ inb (tle (TFloat f)) b p /\ b3_offset (f_elem f) b p = Done o /\
  b3_lerp (f_float f) b (p3_from_v3 o) = Done w /\ B2R (px w) < B2R (px p).
Proof.
  exists (back_box f), (back_pt f), (back_off f), (back_res f).
  split; [split; intros []; destruct f; vm_compute; reflexivity|]. split; [intros []; split; destruct f; vm_compute; reflexivity|].
  split; [apply (done_get (b3_offset (f_elem f) (back_box f) (back_pt f))); destruct f; vm_compute; reflexivity|].
  split; [apply (done_get (b3_lerp (f_float f) (back_box f) (p3_from_v3 (back_off f)))); reflexivity|].
  apply bltb_R; destruct f; vm_compute; reflexivity.
Qed.
Lemma lerp_example : let t := f_div (f32 1) (f32 4) in is_finite t = true /\ 0 <= B2R t <= 1 /\
  omap B2SF (lerp (f_float F32) t (f32 2) (f32 6)) = Done (B2SF (f32 3)).
Proof.
  intros t. split; [vm_compute; reflexivity|]. split; [|vm_compute; reflexivity].
  rewrite <- (proj1 (zero_val F32)) at 1. rewrite <- (proj1 (one_val F32)). split; apply Rlt_le, bltb_R; vm_compute; reflexivity.
Qed.
Lemma offset_example : let b := B3 (P3 (f32 0) (f32 0) (f32 0)) (P3 (f32 4) (f32 2) (f32 3)) in bfinite b /\
  (forall i, is_finite (f_sub (coord i (b_max b)) (coord i (b_min b))) = true) /\ inb (tle (TFloat F32)) b (P3 (f32 1) (f32 2) (f32 0)).
Proof.
  split; [split; intros []; vm_compute; reflexivity|]. split; [intros []; vm_compute; reflexivity|]. intros []; split; vm_compute; reflexivity.
Qed.
Lemma rd_example : let rd := rd_with F32 (f32 2) (f32 3) in
  (forall k i, is_finite (part_of k i rd) = true /\ is_finite (main_of k i rd) = true) /\
  exists c, rd_scale (f_float F32) rd (f32 1) = Done c /\ is_finite (part_of XOrigin AX c) = true.
Proof.
  intros rd. split; [intros k i; split; destruct k, i; vm_compute; reflexivity|].
  exists (scaled F32 (f32 2) (f32 3) (f32 1)). split; [reflexivity|vm_compute; reflexivity].
Qed.
