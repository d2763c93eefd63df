(** Proofs about C138: lerp from the other end, and half-way. *)
From Coq Require Import ZArith Reals Lia Lra.
From Flocq Require Import Core.Core IEEE754.BinarySingleNaN.
From Verif Require Import Base Elem FloatInst GeoModel MatModel GeoSpec ArithSpec MatSpec OpsSpec FloatErrSpec UnitSpec FloatUnit OrderProofs MatThms.
From Verif Require Import FloatCore FloatThms FloatErr FloatErrThms InvFloatEx FloatLerp BoxThms.
Local Open Scope mon_scope.
Local Open Scope R_scope.

Lemma result_inj {A} (a b : A) : Done a = Done b -> b = a. Proof. congruence. Qed.

Section H.
Context (f : fmt).
Notation B := (flt f).
Notation fexp := (SpecFloat.fexp (fprec f) (femax f)).
Notation rnd := (FloatCore.rnd f).
Notation u := (half_ulp f).
Notation E := (femax f).
Notation one := (f_of_int f 1).
Notation bp := (bpow radix2).

(** ** Multiples of half the distance between one and the next float *)
Definition on_grid (r : R) : Prop := exists k : Z, r = IZR k * u.
Lemma u_one : IZR (2 ^ fprec f) * u = 1.
Proof. unfold half_ulp. change 2%Z with (radix_val radix2) at 1. rewrite IZR_Zpower by (destruct f; discriminate). rewrite <- bpow_plus, Z.add_opp_diag_r. reflexivity. Qed.
Lemma grid_comp r : on_grid r -> on_grid (1 - r).
Proof. intros [k ->]. exists (2 ^ fprec f - k)%Z. rewrite minus_IZR, Rmult_minus_distr_r, u_one. reflexivity. Qed.
Lemma grid_fmt r : on_grid r -> 0 <= r <= 1 -> fmt_real f r.
Proof.
  intros [k ->] H. pose proof (u_pos f) as Hu.
  destruct (Rle_lt_or_eq_dec _ _ (proj2 H)) as [L| ->]; [|apply fmt_1].
  apply (generic_format_FLT radix2 (SpecFloat.emin (fprec f) (femax f)) (fprec f)). exists (Float radix2 k (- fprec f)).
  - unfold F2R. reflexivity.
  - cbn [Fnum]. rewrite <- u_one in L. apply Rmult_lt_reg_r in L; [|assumption]. apply lt_IZR in L.
    assert (0 <= k)%Z by (apply le_IZR; destruct (Rle_or_lt 0 (IZR k)); [assumption|nra]). cbn [radix_val radix2]. rewrite Z.abs_eq; assumption.
  - cbn [Fexp]. unfold SpecFloat.emin. destruct f; cbn; lia.
Qed.
Lemma fmt_half : fmt_real f (1 / 2).
Proof.
  apply grid_fmt; [|lra]. exists (2 ^ (fprec f - 1))%Z. rewrite <- u_one.
  replace (2 ^ fprec f)%Z with (2 * 2 ^ (fprec f - 1))%Z by (destruct f; reflexivity). rewrite mult_IZR. lra.
Qed.
Lemma fmt_grid r : fmt_real f r -> 1 / 2 <= r -> on_grid r.
Proof.
  intros F H. unfold fmt_real, generic_format in F.
  assert (M : (0 <= mag radix2 r)%Z).
  { apply Z.le_trans with (mag radix2 (1 / 2)); [|apply mag_le; lra]. replace (1 / 2) with (bp (-1)) by (change (bp (-1)) with (/ 2); lra). rewrite mag_bpow. lia. }
  set (c := cexp radix2 fexp r) in *. set (m := Ztrunc (scaled_mantissa radix2 fexp r)) in *.
  assert (Hc : (- fprec f <= c)%Z) by (unfold c, cexp, SpecFloat.fexp; lia).
  exists (m * 2 ^ (c + fprec f))%Z. rewrite F at 1. unfold F2R, half_ulp. cbn [Fnum Fexp]. rewrite mult_IZR. change 2%Z with (radix_val radix2) at 1.
  rewrite IZR_Zpower by lia. rewrite Rmult_assoc, <- bpow_plus. do 2 f_equal. lia.
Qed.
Lemma weight_back t : is_finite t = true -> 0 <= B2R t <= 1 -> (rnd (1 - weight f t) = B2R t <-> on_grid (B2R t)).
Proof.
  intros Ft Ht. pose proof (weight_01 f t Ft Ht) as Hw. split.
  - intros H. destruct (Rle_or_lt (1 / 2) (weight f t)) as [L|L].
    + assert (G : on_grid (1 - weight f t)) by (apply grid_comp, fmt_grid; [apply rnd_fmt|assumption]).
      rewrite <- H. rewrite rnd_id; [assumption|]. apply grid_fmt; [assumption|lra].
    + apply fmt_grid; [apply fmt_B|]. destruct (Rle_or_lt (1 / 2) (B2R t)) as [L'|L']; [assumption|]. exfalso.
      assert (1 / 2 <= weight f t); [|lra]. unfold weight. rewrite <- (rnd_id f (1 / 2)) by apply fmt_half.
      apply rnd_le. lra.
  - intros G. unfold weight. rewrite (rnd_id f (1 - B2R t)) by (apply grid_fmt; [now apply grid_comp|lra]).
    replace (1 - (1 - B2R t)) with (B2R t) by ring. apply rnd_B.
Qed.
Lemma rnd_Rabs r : rnd (Rabs r) = Rabs (rnd r).
Proof. unfold FloatCore.rnd. apply round_NE_abs, fexp_valid. Qed.
Lemma fin_eqb (x y : B) : is_finite x = true -> is_finite y = true -> (Beqb x y = true <-> B2R x = B2R y).
Proof.
  intros Fx Fy. rewrite Beqb_correct by assumption. destruct (Req_bool_spec (B2R x) (B2R y)); split; auto; discriminate.
Qed.
(** ** From the other end *)
Theorem lerp_backwards (t : B) : is_finite t = true -> 0 <= B2R t <= 1 ->
  ((forall a b : B, is_finite a = true -> is_finite b = true ->
    exists d d', lerp (f_float f) t a b = Done d /\ lerp (f_float f) (f_sub one t) b a = Done d' /\ Beqb d d' = true) <-> on_grid (B2R t)).
Proof.
  intros Ft Ht. destruct (comp_val f t Ft Ht) as (Fx & Vx & Hx & _). fold (weight f t) in Vx, Hx.
  assert (Hx' : 0 <= B2R (f_sub one t) <= 1) by now rewrite Vx.
  assert (W : weight f (f_sub one t) = rnd (1 - weight f t)) by (unfold weight at 1; now rewrite Vx).
  rewrite <- (weight_back t Ft Ht). split.
  - intros H. destruct (one_val f) as [V1 F1]. destruct (zero_val f) as [V0 F0].
    destruct (H (f_of_int f 0) one F0 F1) as (d & d' & L1 & L2 & Q).
    destruct (lerp_val f t _ _ Ft F0 F1 Ht) as (x & X1 & X2 & X3). destruct (lerp_val f _ _ _ Fx F1 F0 Hx') as (y & Y1 & Y2 & Y3).
    rewrite L1 in X1. apply result_inj in X1. subst x. rewrite L2 in Y1. apply result_inj in Y1. subst y.
    apply fin_eqb in Q; [|assumption|assumption]. rewrite X3, Y3 in Q. unfold mix in Q. rewrite W, Vx, V0, V1, !Rmult_0_r, !Rmult_1_r, rnd_0, Rplus_0_l, Rplus_0_r in Q.
    rewrite !rnd_B, !(rnd_id f (rnd _)) in Q by apply rnd_fmt. now symmetry.
  - intros H a b Fa Fb.
    destruct (lerp_val f t _ _ Ft Fa Fb Ht) as (x & X1 & X2 & X3). destruct (lerp_val f _ _ _ Fx Fb Fa Hx') as (y & Y1 & Y2 & Y3).
    exists x, y. split; [assumption|]. split; [assumption|]. apply fin_eqb; [assumption|assumption|]. rewrite X3, Y3. unfold mix.
    rewrite W, H, Vx, (Rplus_comm (rnd (B2R t * B2R b))). reflexivity.
Qed.
Theorem points_backwards (t : B) (p q : Point3 B) : is_finite t = true -> 0 <= B2R t <= 1 -> on_grid (B2R t) -> pfinite p -> pfinite q ->
  exists w w', p3_lerp (f_float f) t p q = Done w /\ p3_lerp (f_float f) (f_sub one t) q p = Done w' /\ forall i, Beqb (coord i w) (coord i w') = true.
Proof.
  intros Ft Ht G Hp Hq. destruct (p_lerp_coord f t p q) as (w & W1 & W2). destruct (p_lerp_coord f (f_sub one t) q p) as (w' & W1' & W2').
  exists w, w'. split; [assumption|]. split; [assumption|]. intros i.
  destruct (proj2 (lerp_backwards t Ft Ht) G _ _ (Hp i) (Hq i)) as (d & d' & L1 & L2 & Q).
  rewrite W2 in L1. apply result_inj in L1. rewrite W2' in L2. apply result_inj in L2. now subst.
Qed.
(** ** Half-way *)
Lemma half_exact (a : B) : not_tiny f (B2R a / 2) -> rnd (B2R a / 2) = B2R a / 2.
Proof.
  intros H. pose proof (rnd_up f (B2R a / 2) 1 ltac:(lia) H) as R. change (bp 1) with 2 in R.
  replace (B2R a / 2 * 2) with (B2R a) in R by field. rewrite rnd_B in R. lra.
Qed.
Lemma weight_half t : B2R t = 1 / 2 -> weight f t = 1 / 2.
Proof. intros H. unfold weight. rewrite H. replace (1 - 1 / 2) with (1 / 2) by lra. rewrite <- H. apply rnd_B. Qed.
Theorem lerp_half (t a b : B) : is_finite t = true -> B2R t = 1 / 2 -> is_finite a = true -> is_finite b = true ->
  not_tiny f (B2R a / 2) -> not_tiny f (B2R b / 2) ->
  exists d, lerp (f_float f) t a b = Done d /\ is_finite d = true /\ B2R d = nearest f ((B2R a + B2R b) / 2).
Proof.
  intros Ft Ht Fa Fb Ha Hb. destruct (lerp_val f t a b Ft Fa Fb ltac:(lra)) as (d & D1 & D2 & D3). exists d. split; [assumption|]. split; [assumption|].
  rewrite D3. unfold mix. rewrite (weight_half t Ht), Ht. replace (1 / 2 * B2R a) with (B2R a / 2) by field. replace (1 / 2 * B2R b) with (B2R b / 2) by field.
  rewrite !half_exact by assumption. change (nearest f) with rnd. f_equal. field.
Qed.
Theorem half_between (t a b d : B) : is_finite t = true -> B2R t = 1 / 2 -> is_finite a = true -> is_finite b = true ->
  not_tiny f (B2R a / 2) -> not_tiny f (B2R b / 2) -> lerp (f_float f) t a b = Done d -> Rmin (B2R a) (B2R b) <= B2R d <= Rmax (B2R a) (B2R b).
Proof.
  intros Ft Ht Fa Fb Ha Hb L. destruct (lerp_half t a b Ft Ht Fa Fb Ha Hb) as (d' & D1 & _ & D3). rewrite L in D1. apply result_inj in D1. subst d'.
  rewrite D3. change (nearest f) with rnd. pose proof (Rmin_l (B2R a) (B2R b)). pose proof (Rmin_r (B2R a) (B2R b)).
  pose proof (Rmax_l (B2R a) (B2R b)). pose proof (Rmax_r (B2R a) (B2R b)). split.
  - rewrite <- (rnd_id f (Rmin _ _)) by (unfold Rmin; destruct (Rle_dec _ _); apply fmt_B). apply rnd_le. lra.
  - rewrite <- (rnd_id f (Rmax _ _)) by (unfold Rmax; destruct (Rle_dec _ _); apply fmt_B). apply rnd_le. lra.
Qed.
(** The mean as the bounding sphere takes it. *)
Lemma mean_val (a b : B) : is_finite (f_add a b) = true ->
  is_finite (f_div (f_add a b) (f_of_int f 2)) = true /\ B2R (f_div (f_add a b) (f_of_int f 2)) = rnd ((B2R a + B2R b) / 2).
Proof.
  intros F. destruct (add_fin f a b F) as [Fa Fb]. destruct (fin_add f a b F) as (_ & _ & V). destruct (two_val f) as [V2 F2].
  destruct (div_key f (f_add a b) (f_of_int f 2) F F2 ltac:(rewrite V2; lra)) as (_ & K & Q). rewrite V2 in K, Q.
  assert (R : rnd (B2R (f_add a b) / 2) = rnd ((B2R a + B2R b) / 2)).
  { rewrite V. destruct (Rle_or_lt (bp (3 - E)) (Rabs (B2R a + B2R b))) as [L|L].
    - pose proof (rnd_up f ((B2R a + B2R b) / 2) 1 ltac:(lia)) as R. change (bp 1) with 2 in R.
      replace ((B2R a + B2R b) / 2 * 2) with (B2R a + B2R b) in R by field. rewrite R.
      + replace (rnd ((B2R a + B2R b) / 2) * 2 / 2) with (rnd ((B2R a + B2R b) / 2)) by field. apply rnd_id, rnd_fmt.
      + right. unfold Rdiv. rewrite Rabs_mult, (Rabs_pos_eq (/ 2)) by lra. replace (3 - E)%Z with (2 - E + 1)%Z in L by lia. rewrite bpow_plus in L.
        change (bp 1) with 2 in L. lra.
    - rewrite (rnd_id f (B2R a + B2R b)); [reflexivity|].
      apply (Plus_error.FLT_format_plus_small radix2 (SpecFloat.emin (fprec f) (femax f)) (fprec f)); try apply fmt_B. unfold SpecFloat.emin.
      replace (fprec f + (3 - femax f - fprec f))%Z with (3 - E)%Z by lia. lra. }
  rewrite R in K, Q.
  assert (L : Rabs (rnd ((B2R a + B2R b) / 2)) < big f).
  { rewrite <- R. apply Rle_lt_trans with (Rabs (B2R (f_add a b))); [|apply (abs_B2R_lt_emax _ _ (f_add a b))].
    rewrite <- (rnd_B f (f_add a b)) at 2. rewrite <- !rnd_Rabs. apply rnd_le. unfold Rdiv. rewrite Rabs_mult, (Rabs_pos_eq (/ 2)) by lra.
    pose proof (Rabs_pos (B2R (f_add a b))). lra. }
  rewrite Rlt_bool_true in Q by assumption. split; [assumption|]. now apply finite_of_key.
Qed.
Theorem centre_half (b : Bounds3 B) (t : Point3 B) : bfinite b -> pfinite t -> (forall i, B2R (coord i t) = 1 / 2) ->
  (forall i, not_tiny f (B2R (coord i (b_min b)) / 2)) -> (forall i, not_tiny f (B2R (coord i (b_max b)) / 2)) ->
  (forall i, is_finite (f_add (coord i (b_min b)) (coord i (b_max b))) = true) ->
  exists c r w, bounding_sphere (f_float f) b = Done (c, r) /\ b3_lerp (f_float f) b t = Done w /\ forall i, Beqb (coord i c) (coord i w) = true.
Proof.
  intros [Flo Fhi] Ft Ht Hlo Hhi Hs. destruct (b_lerp_coord f b t) as (w & W1 & W2). rewrite sphere_float. cbv zeta.
  set (c := P3 _ _ _). 
  assert (X : exists r, (if b3_inside (f_elem f) b c then d <~ p3_sub (f_elem f) c (b_max b) ;; v3_len (f_float f) (f_elem f) (fun x => x) d else Done (f_of_int f 0)) = Done r)
    by (destruct (b3_inside (f_elem f) b c); eexists; reflexivity).
  destruct X as [r X]. rewrite X. exists c, r, w. split; [reflexivity|]. split; [assumption|]. intros i.
  destruct (lerp_half (coord i t) _ _ (Ft i) (Ht i) (Flo i) (Fhi i) (Hlo i) (Hhi i)) as (d & D1 & D2 & D3). rewrite W2 in D1. apply result_inj in D1. subst d.
  destruct (mean_val _ _ (Hs i)) as [M1 M2].
  assert (C : coord i c = f_div (f_add (coord i (b_min b)) (coord i (b_max b))) (f_of_int f 2)) by (destruct i; reflexivity).
  rewrite C. apply fin_eqb; [assumption|assumption|]. now rewrite D3, M2.
Qed.
(** The point half-way between two points of a box is in the box. *)
Theorem half_inside (b : Bounds3 B) (t : B) (p q : Point3 B) : is_finite t = true -> B2R t = 1 / 2 -> pfinite p -> pfinite q ->
  (forall i, not_tiny f (B2R (coord i p) / 2)) -> (forall i, not_tiny f (B2R (coord i q) / 2)) ->
  b3_inside (f_elem f) b p = true -> b3_inside (f_elem f) b q = true ->
  exists w, p3_lerp (f_float f) t p q = Done w /\ b3_inside (f_elem f) b w = true.
Proof.
  intros Ft Ht Fp Fq Hp Hq Ip Iq. destruct (p_lerp_coord f t p q) as (w & W1 & W2). exists w. split; [assumption|].
  change (f_elem f) with (elem (TFloat f)) in *. apply (BoxThms.inside_thm (TFloat f)) in Ip, Iq. apply (BoxThms.inside_thm (TFloat f)).
  intros i. destruct (Ip i) as [P1 P2], (Iq i) as [Q1 Q2]. cbn [tle] in *.
  destruct (lerp_half t _ _ Ft Ht (Fp i) (Fq i) (Hp i) (Hq i)) as (d & D1 & D2 & _). pose proof (half_between t _ _ _ Ft Ht (Fp i) (Fq i) (Hp i) (Hq i) D1) as [L1 L2].
  rewrite W2 in D1. apply result_inj in D1. subst d.
  assert (K : forall x y : B, is_finite x = true -> is_finite y = true -> B2R x <= B2R y -> Bleb x y = true).
  { intros x y Fx Fy H. rewrite Bleb_correct by assumption. now apply Rle_bool_true. }
  assert (Y : forall x y z : B, Bleb x y = true -> Bleb y z = true -> Bleb x z = true) by (intros x y z; exact (BoxThms.tle_trans (TFloat f) x y z)).
  split.
  - unfold Rmin in L1. destruct (Rle_dec _ _); [apply (Y _ (coord i p))|apply (Y _ (coord i q))]; auto.
  - unfold Rmax in L2. destruct (Rle_dec _ _); [apply (Y _ (coord i q))|apply (Y _ (coord i p))]; auto.
Qed.
End H.

(** ** Cases outside *)
Definition half f : flt f := ratio f 1 2.
Lemma half_val f : is_finite (half f) = true /\ B2R (half f) = 1 / 2.
Proof.
  assert (F : is_finite (half f) = true) by (destruct f; vm_compute; reflexivity). split; [assumption|].
  destruct (one_val f) as [V1 F1]. destruct (two_val f) as [V2 F2].
  destruct (div_key f (f_of_int f 1) (f_of_int f 2) F1 F2 ltac:(rewrite V2; lra)) as (_ & K & _). rewrite V1, V2 in K.
  rewrite (rnd_id f (1 / 2)) in K by apply fmt_half. apply (finite_of_key f _ _ K F). rewrite Rabs_pos_eq by lra.
  pose proof (abs_B2R_lt_emax _ _ (f_of_int f 1)) as L. rewrite V1, Rabs_pos_eq in L by lra. unfold big. lra.
Qed.
Theorem backwards_refuted f : exists t a b d d' : flt f, is_finite t = true /\ is_finite a = true /\ is_finite b = true /\ 0 < B2R t < 1 /\
  lerp (f_float f) t a b = Done d /\ lerp (f_float f) (f_sub (f_of_int f 1) t) b a = Done d' /\ B2R d <> B2R d'.
Proof.
  set (t := ratio f 1 10). set (z := f_of_int f 0). set (o := f_of_int f 1).
  exists t, z, o, (lerped f t z o), (lerped f (f_sub o t) o z).
  split; [destruct f; vm_compute; reflexivity|]. split; [destruct f; vm_compute; reflexivity|]. split; [destruct f; vm_compute; reflexivity|].
  split; [|split; [reflexivity|split; [reflexivity|]]].
  - rewrite <- (proj1 (zero_val f)) at 1. rewrite <- (proj1 (one_val f)). split; apply bltb_R; destruct f; vm_compute; reflexivity.
  - intros H. apply fin_eqb in H; [|destruct f; vm_compute; reflexivity|destruct f; vm_compute; reflexivity]. destruct f; vm_compute in H; discriminate.
Qed.
Definition tiny f : flt f := match f return flt f with F32 => @B754_finite 24 128 false 1 (-149) eq_refl | F64 => @B754_finite 53 1024 false 1 (-1074) eq_refl end.
Theorem tiny_refuted f : exists t a d : flt f, is_finite t = true /\ B2R t = 1 / 2 /\ is_finite a = true /\ 0 < B2R a /\ lerp (f_float f) t a a = Done d /\ B2R d = 0.
Proof.
  exists (half f), (tiny f), (lerped f (half f) (tiny f) (tiny f)). destruct (half_val f) as [H1 H2].
  split; [assumption|]. split; [assumption|]. split; [destruct f; reflexivity|].
  split; [rewrite <- (proj1 (zero_val f)); apply bltb_R; destruct f; vm_compute; reflexivity|]. split; [reflexivity|].
  rewrite <- (proj1 (zero_val f)). apply fin_eqb; destruct f; vm_compute; reflexivity.
Qed.
Theorem overflow_refuted f : exists (b : Bounds3 (flt f)) t c r w, bfinite b /\ normalised (tle (TFloat f)) b /\ pfinite t /\ (forall i, B2R (coord i t) = 1 / 2) /\
  bounding_sphere (f_float f) b = Done (c, r) /\ b3_lerp (f_float f) b t = Done w /\
  forall i, is_finite (coord i c) = false /\ Beqb (coord i w) (coord i (b_min b)) = true.
Proof.
  set (x := match f return flt f with F32 => @B754_finite 24 128 false 16777215 104 eq_refl | F64 => @B754_finite 53 1024 false 9007199254740991 971 eq_refl end).
  set (p := P3 x x x). set (h := P3 (half f) (half f) (half f)).
  set (m := f_div (f_add x x) (f_of_int f 2)). set (d := lerped f (half f) x x).
  exists (B3 p p), h, (P3 m m m), (f_of_int f 0), (P3 d d d). destruct (half_val f) as [H1 H2].
  split; [split; intros []; destruct f; reflexivity|]. split; [intros []; destruct f; vm_compute; reflexivity|].
  split; [intros []; exact H1|]. split; [intros []; exact H2|].
  split; [destruct f; vm_compute; reflexivity|]. split; [reflexivity|].
  intros []; split; destruct f; vm_compute; reflexivity.
Qed.
(** ** Examples *)
Lemma grid_quarter f : is_finite (ratio f 3 4) = true /\ on_grid f (B2R (ratio f 3 4)) /\ 0 <= B2R (ratio f 3 4) <= 1.
Proof.
  assert (L : 1 / 2 <= B2R (ratio f 3 4) <= 1).
  { rewrite <- (proj2 (half_val f)), <- (proj1 (one_val f)). split; apply Rlt_le, bltb_R; destruct f; vm_compute; reflexivity. }
  split; [destruct f; vm_compute; reflexivity|]. split; [apply fmt_grid; [apply fmt_B|lra]|lra].
Qed.
Lemma not_tiny_int f k : (1 <= k <= 100)%Z -> not_tiny f (B2R (f_of_int f k) / 2).
Proof.
  intros Hk. right. 
  assert (V : B2R (f_of_int f k) = IZR k) by (apply int_correct; destruct f; cbn; lia). rewrite V.
  apply Rle_trans with (bpow radix2 (-1)); [apply bpow_le; destruct f; cbn; lia|]. change (bpow radix2 (-1)) with (/ 2).
  assert (1 <= IZR k) by (apply IZR_le; lia). rewrite Rabs_pos_eq; lra.
Qed.
Lemma upper_grid f (t : flt f) : is_finite t = true -> 1 / 2 <= B2R t -> on_grid f (B2R t).
Proof. intros _ H. apply fmt_grid; [apply fmt_B|assumption]. Qed.
Lemma box_meets f : let n := f_of_int f in let b := B3 (P3 (n 1%Z) (n 2%Z) (n 3%Z)) (P3 (n 2%Z) (n 8%Z) (n 30%Z)) in
  bfinite b /\ (forall i, is_finite (f_add (coord i (b_min b)) (coord i (b_max b))) = true).
Proof. split; [split|]; intros []; destruct f; vm_compute; reflexivity. Qed.
