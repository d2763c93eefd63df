(** Proofs about C116: a change of unit by a power of two. *)
From Coq Require Import ZArith Reals Lia Lra Bool List.
From Flocq Require Import Core.Core IEEE754.BinarySingleNaN Mult_error Plus_error.
From Verif Require Import Base Elem FloatInst GeoModel MatModel GeoSpec ArithSpec MatSpec OpsSpec SignSpec MirSpec UnitSpec OrderProofs MatThms.
From Verif Require Import FloatErrSpec FloatCore FloatThms FloatErr.
Import ListNotations.
Local Open Scope mon_scope.
Local Open Scope R_scope.

Section U.
Context (f : fmt).
Notation E := (f_elem f).
Notation B := (flt f).
Notation zero := (f_of_int f 0).
Notation fexp := (SpecFloat.fexp (fprec f) (femax f)).
Notation bp := (bpow radix2).
Notation scaled := (scaled f).
Notation not_tiny := (not_tiny f).

(** ** Rounding *)
Lemma fexp_up m e : (0 <= e)%Z -> (3 - femax f <= m)%Z -> fexp (m + e) = (fexp m + e)%Z.
Proof. unfold SpecFloat.fexp, SpecFloat.emin. lia. Qed.
Lemma rnd_up r e : (0 <= e)%Z -> not_tiny r -> rnd f (r * bp e) = rnd f r * bp e.
Proof.
  intros He [->|H]; [now rewrite Rmult_0_l, (rnd_0 f), Rmult_0_l|].
  destruct (Req_dec r 0) as [->|N]; [now rewrite Rmult_0_l, (rnd_0 f), Rmult_0_l|].
  assert (M : (3 - femax f <= mag radix2 r)%Z) by (replace (3 - femax f)%Z with (2 - femax f + 1)%Z by lia; now apply mag_ge_bpow; replace (2 - femax f + 1 - 1)%Z with (2 - femax f)%Z by lia).
  unfold rnd, round, scaled_mantissa, cexp. rewrite mag_mult_bpow by assumption. rewrite (fexp_up _ _ He M).
  replace (r * bp e * bp (- (fexp (mag radix2 r) + e))) with (r * bp (- fexp (mag radix2 r))).
  - unfold F2R. cbn [Fnum Fexp]. rewrite bpow_plus. ring.
  - rewrite Z.opp_add_distr, bpow_plus. replace (r * bp e * (bp (- fexp (mag radix2 r)) * bp (- e))) with (r * bp (- fexp (mag radix2 r)) * (bp e * bp (- e))) by ring.
    rewrite <- bpow_plus, Z.add_opp_diag_r. cbn [bpow]. ring.
Qed.
Lemma rnd_up_sum x y e : (0 <= e)%Z -> fmt_real f x -> fmt_real f y -> rnd f ((x + y) * bp e) = rnd f (x + y) * bp e.
Proof.
  intros He Hx Hy. destruct (Rle_or_lt (bp (2 - femax f)) (Rabs (x + y))) as [L|L]; [apply rnd_up; auto; now right|].
  assert (F : fmt_real f (x + y)).
  { apply (Plus_error.FLT_format_plus_small radix2 (SpecFloat.emin (fprec f) (femax f)) (fprec f)); auto. unfold SpecFloat.emin.
    apply Rlt_le. eapply Rlt_le_trans; [exact L|]. apply bpow_le. lia. }
  rewrite (rnd_id f _ F). apply rnd_id. apply (Mult_error.mult_bpow_pos_exact_FLT radix2 (SpecFloat.emin (fprec f) (femax f)) (fprec f)); auto.
Qed.

(** ** Operations *)
Lemma bp_pos e : 0 < bp e. Proof. apply bpow_gt_0. Qed.
Lemma bp_ge1 e : (0 <= e)%Z -> 1 <= bp e. Proof. intros H. change 1 with (bp 0). now apply bpow_le. Qed.
Lemma add_fin (x y : B) : is_finite (f_add x y) = true -> is_finite x = true /\ is_finite y = true.
Proof. destruct x as [s|s| |s m e Hx], y as [s'|s'| |s' m' e' Hy]; cbn; auto; try discriminate. destruct s, s'; discriminate. Qed.
Lemma sub_fin (x y : B) : is_finite (f_sub x y) = true -> is_finite x = true /\ is_finite y = true.
Proof. destruct x as [s|s| |s m e Hx], y as [s'|s'| |s' m' e' Hy]; cbn; auto; try discriminate. destruct s, s'; discriminate. Qed.
Lemma mult_fin (x y : B) : is_finite (f_mult x y) = true -> is_finite x = true /\ is_finite y = true.
Proof. destruct x as [s|s| |s m e Hx], y as [s'|s'| |s' m' e' Hy]; cbn; auto; discriminate. Qed.
Lemma scaled_fin k (x y : B) : scaled k x y -> is_finite y = true -> is_finite x = true /\ B2R y = B2R x * bp k.
Proof. intros [(H1 & _ & H2)|[H1 ->]] H; [auto|congruence]. Qed.
(** A rounded result, and the larger one. *)
Lemma from_key (z z' : B) r e : (0 <= e)%Z -> is_nan z = false /\ key f z = sat f (rnd f r) /\ is_finite z = Rlt_bool (Rabs (rnd f r)) (big f) ->
  is_nan z' = false /\ key f z' = sat f (rnd f (r * bp e)) /\ is_finite z' = Rlt_bool (Rabs (rnd f (r * bp e))) (big f) ->
  rnd f (r * bp e) = rnd f r * bp e -> is_finite z' = true -> scaled e z z'.
Proof.
  intros He (N & K & Q) (N' & K' & Q') R F. rewrite F in Q'. symmetry in Q'. rewrite R in *.
  destruct (Rlt_bool_spec (Rabs (rnd f r * bp e)) (big f)) as [L|L]; [|discriminate].
  assert (L0 : Rabs (rnd f r) < big f).
  { eapply Rle_lt_trans; [|exact L]. rewrite Rabs_mult, (Rabs_pos_eq (bp e)) by (apply Rlt_le, bp_pos).
    rewrite <- (Rmult_1_r (Rabs (rnd f r))) at 1. apply Rmult_le_compat_l; [apply Rabs_pos|now apply bp_ge1]. }
  rewrite Rlt_bool_true in Q by assumption. left. split; [exact Q|]. split; [exact F|].
  rewrite <- (key_finite f z Q), <- (key_finite f z' F), K, K', !sat_in by assumption. reflexivity.
Qed.
Lemma add_up k (x x' y y' : B) : (0 <= k)%Z -> scaled k x x' -> scaled k y y' -> is_finite (f_add x' y') = true -> scaled k (f_add x y) (f_add x' y').
Proof.
  intros Hk Hx Hy F. destruct (add_fin _ _ F) as [Fx' Fy']. destruct (scaled_fin _ _ _ Hx Fx') as [Fx Vx]. destruct (scaled_fin _ _ _ Hy Fy') as [Fy Vy].
  pose proof (add_key f x' y' Fx' Fy') as K'. rewrite Vx, Vy, <- Rmult_plus_distr_r in K'.
  apply (from_key _ _ _ _ Hk (add_key f x y Fx Fy) K'); [|exact F]. apply rnd_up_sum; auto; apply fmt_B.
Qed.
Lemma sub_up k (x x' y y' : B) : (0 <= k)%Z -> scaled k x x' -> scaled k y y' -> is_finite (f_sub x' y') = true -> scaled k (f_sub x y) (f_sub x' y').
Proof.
  intros Hk Hx Hy F. destruct (sub_fin _ _ F) as [Fx' Fy']. destruct (scaled_fin _ _ _ Hx Fx') as [Fx Vx]. destruct (scaled_fin _ _ _ Hy Fy') as [Fy Vy].
  pose proof (sub_key f x' y' Fx' Fy') as K'. rewrite Vx, Vy, <- Rmult_minus_distr_r in K'.
  apply (from_key _ _ _ _ Hk (sub_key f x y Fx Fy) K'); [|exact F]. apply rnd_up_sum; auto; [apply fmt_B|]. rewrite <- B2R_Bopp. apply fmt_B.
Qed.
Lemma mult_up j k (x x' y y' : B) : (0 <= j + k)%Z -> scaled j x x' -> scaled k y y' -> not_tiny (B2R x * B2R y) -> is_finite (f_mult x' y') = true ->
  scaled (j + k) (f_mult x y) (f_mult x' y').
Proof.
  intros Hk Hx Hy T F. destruct (mult_fin _ _ F) as [Fx' Fy']. destruct (scaled_fin _ _ _ Hx Fx') as [Fx Vx]. destruct (scaled_fin _ _ _ Hy Fy') as [Fy Vy].
  pose proof (mult_key f x' y' Fx' Fy') as K'. rewrite Vx, Vy in K'.
  replace (B2R x * bp j * (B2R y * bp k)) with (B2R x * B2R y * bp (j + k)) in K' by (rewrite bpow_plus; ring).
  apply (from_key _ _ _ _ Hk (mult_key f x y Fx Fy) K'); [|exact F]. now apply rnd_up.
Qed.
Lemma div_up j k (x x' y y' : B) : (0 <= j - k)%Z -> scaled j x x' -> scaled k y y' -> is_finite x' = true -> is_finite y' = true -> B2R y <> 0 -> not_tiny (B2R x / B2R y) ->
  is_finite (f_div x' y') = true -> scaled (j - k) (f_div x y) (f_div x' y').
Proof.
  intros Hk Hx Hy Fx' Fy' Ny T F. destruct (scaled_fin _ _ _ Hx Fx') as [Fx Vx]. destruct (scaled_fin _ _ _ Hy Fy') as [Fy Vy].
  assert (Ny' : B2R y' <> 0) by (rewrite Vy; apply Rmult_integral_contrapositive_currified; [assumption|apply Rgt_not_eq, bp_pos]).
  pose proof (div_key f x' y' Fx' Fy' Ny') as K'. rewrite Vx, Vy in K'.
  replace (B2R x * bp j / (B2R y * bp k)) with (B2R x / B2R y * bp (j - k)) in K'.
  2:{ unfold Zminus. rewrite bpow_plus, bpow_opp. pose proof (bp_pos k). field. split; [lra|assumption]. }
  apply (from_key _ _ _ _ Hk (div_key f x y Fx Fy Ny) K'); [|exact F]. now apply rnd_up.
Qed.
(** A quotient of two lengths does not change at all. *)
Lemma div_same k (x x' y y' : B) : scaled k x x' -> scaled k y y' -> is_finite x' = true -> is_finite y' = true -> B2R y <> 0 ->
  Beqb (f_div x y) (f_div x' y') = true.
Proof.
  intros Hx Hy Fx' Fy' Ny. destruct (scaled_fin _ _ _ Hx Fx') as [Fx Vx]. destruct (scaled_fin _ _ _ Hy Fy') as [Fy Vy].
  assert (Ny' : B2R y' <> 0) by (rewrite Vy; apply Rmult_integral_contrapositive_currified; [assumption|apply Rgt_not_eq, bp_pos]).
  destruct (div_key f x' y' Fx' Fy' Ny') as (N' & K' & _). destruct (div_key f x y Fx Fy Ny) as (N & K & _). rewrite Vx, Vy in K'.
  replace (B2R x * bp k / (B2R y * bp k)) with (B2R x / B2R y) in K' by (pose proof (bp_pos k); field; split; [lra|assumption]).
  apply eqb_key. split; [assumption|]. split; [assumption|congruence].
Qed.
Lemma opp_scaled k (x x' : B) : scaled k x x' -> scaled k (Bopp x) (Bopp x').
Proof. intros [(H1 & H2 & H3)|[H ->]]; [left|right]; rewrite ?is_finite_Bopp, ?B2R_Bopp; auto. repeat split; auto. rewrite H3. ring. Qed.
Lemma abs_scaled k (x x' : B) : scaled k x x' -> scaled k (Babs x) (Babs x').
Proof.
  intros [(H1 & H2 & H3)|[H ->]]; [left|right]; rewrite ?is_finite_Babs, ?B2R_Babs; auto. repeat split; auto. rewrite H3, Rabs_mult. f_equal.
  apply Rabs_pos_eq, Rlt_le, bp_pos.
Qed.
Lemma sqrt_up k (x x' : B) : (0 <= k)%Z -> scaled (k + k) x x' -> scaled k (Bsqrt mode_NE x) (Bsqrt mode_NE x').
Proof.
  intros Hk [(H1 & H2 & H3)|[H ->]].
  2:{ destruct x as [|[]| |]; try discriminate; right; split; reflexivity. }
  destruct (Bsqrt_correct _ _ (fprec_gt_0 f) (fprec_lt_emax f) mode_NE x) as (V & Q & _). destruct (Bsqrt_correct _ _ (fprec_gt_0 f) (fprec_lt_emax f) mode_NE x') as (V' & Q' & _).
  change (round radix2 _ _ (sqrt (B2R x))) with (rnd f (sqrt (B2R x))) in V. change (round radix2 _ _ (sqrt (B2R x'))) with (rnd f (sqrt (B2R x'))) in V'.
  destruct (Rle_or_lt 0 (B2R x)) as [P|P].
  - left. assert (P' : 0 <= B2R x') by (rewrite H3; apply Rmult_le_pos; [assumption|apply Rlt_le, bp_pos]).
    assert (Fin : forall z : B, is_finite z = true -> 0 <= B2R z -> match z with B754_zero _ => true | B754_finite false _ _ _ => true | _ => false end = true).
    { intros [s|s| |s m e Hz] Fz Pz; try discriminate; auto. destruct s; auto. exfalso. assert (F2R (Float radix2 (Z.neg m) e) < 0) by (apply F2R_lt_0; cbn; lia). cbn in *. lra. }
    rewrite Fin in Q by assumption. rewrite Fin in Q' by assumption. split; [exact Q|]. split; [exact Q'|]. rewrite V, V'.
    assert (S : sqrt (B2R x') = sqrt (B2R x) * bp k).
    { rewrite H3, bpow_plus, sqrt_mult by (auto; apply Rlt_le, Rmult_lt_0_compat; apply bp_pos). now rewrite sqrt_square by (apply Rlt_le, bp_pos). }
    rewrite S. apply rnd_up; [assumption|]. destruct (Req_dec (B2R x) 0) as [->|N]; [left; apply sqrt_0|right].
    rewrite Rabs_pos_eq by apply sqrt_pos. rewrite <- (sqrt_square (bp (2 - femax f))) by (apply Rlt_le, bp_pos). rewrite <- bpow_plus. apply sqrt_le_1_alt.
    pose proof (fmt_B f x) as G. assert (A : bp (SpecFloat.emin (fprec f) (femax f)) <= Rabs (B2R x)).
    { apply (generic_format_ge_bpow radix2 fexp); [|now apply Rabs_pos_lt|now apply generic_format_abs]. intros e. unfold SpecFloat.fexp. lia. }
    rewrite Rabs_pos_eq in A by assumption. eapply Rle_trans; [|exact A]. apply bpow_le. unfold SpecFloat.emin. destruct f; cbn; lia.
  - right. assert (P' : B2R x' < 0) by (rewrite H3; pose proof (bp_pos (k + k)); nra).
    assert (Neg : forall z : B, is_finite z = true -> B2R z < 0 -> Bsqrt mode_NE z = B754_nan).
    { intros [s|s| |s m e Hz] Fz Pz; try discriminate; [cbn in Pz; lra|]. destruct s; [reflexivity|]. exfalso.
      assert (0 < F2R (Float radix2 (Z.pos m) e)) by (apply F2R_gt_0; cbn; lia). cbn in *. lra. }
    rewrite !Neg by assumption. split; reflexivity.
Qed.

(** ** Comparisons *)
Lemma cmp_scaled k (x x' y y' : B) : scaled k x x' -> scaled k y y' -> Bcompare x y = Bcompare x' y'.
Proof.
  intros Hx Hy. destruct (is_nan x) eqn:Nx.
  { destruct Hx as [(Fx & _)|[_ ->]]; [destruct x; discriminate|]. destruct x; try discriminate. reflexivity. }
  destruct (is_nan y) eqn:Ny.
  { destruct Hy as [(Fy & _)|[_ ->]]; [destruct y; discriminate|]. destruct y; try discriminate. destruct x, x'; reflexivity. }
  assert (NN : forall z z' : B, scaled k z z' -> is_nan z = false -> is_nan z' = false).
  { intros z z' [(_ & Q & _)|[_ ->]] N; [destruct z'; (reflexivity || discriminate)|exact N]. }
  pose proof (NN _ _ Hx Nx) as Nx'. pose proof (NN _ _ Hy Ny) as Ny'. rewrite !(cmp_key f) by assumption. f_equal.
  destruct Hx as [(Fx & Fx' & Vx)|[Fx ->]], Hy as [(Fy & Fy' & Vy)|[Fy ->]].
  - rewrite !(key_finite f) by assumption. rewrite Vx, Vy. symmetry. apply Rcompare_mult_r, bp_pos.
  - destruct (key_inf_big f y Ny Fy) as [-> | ->].
    + rewrite !Rcompare_Lt; auto; apply (key_lt_big f); assumption.
    + rewrite !Rcompare_Gt; auto; apply (key_lt_big f); assumption.
  - destruct (key_inf_big f x Nx Fx) as [-> | ->].
    + rewrite !Rcompare_Gt; auto; apply (key_lt_big f); assumption.
    + rewrite !Rcompare_Lt; auto; apply (key_lt_big f); assumption.
  - reflexivity.
Qed.
Lemma lt_scaled k (x x' y y' : B) : scaled k x x' -> scaled k y y' -> Bltb x y = Bltb x' y'.
Proof. intros Hx Hy. rewrite !ltb_cmp. now rewrite (cmp_scaled k x x' y y'). Qed.
Lemma le_scaled k (x x' y y' : B) : scaled k x x' -> scaled k y y' -> Bleb x y = Bleb x' y'.
Proof. intros Hx Hy. rewrite !leb_cmp. now rewrite (cmp_scaled k x x' y y'). Qed.

(** ** Points, vectors and boxes *)
Notation scaled_pt := (scaled_pt f).
Notation scaled_vec := (scaled_vec f).
Notation scaled_box := (scaled_box f).
Lemma pt3 k p q : scaled k (px p) (px q) -> scaled k (py p) (py q) -> scaled k (pz p) (pz q) -> scaled_pt k p q. Proof. intros ? ? ? []; assumption. Qed.
Lemma vec3 k p q : scaled k (vx p) (vx q) -> scaled k (vy p) (vy q) -> scaled k (vz p) (vz q) -> scaled_vec k p q. Proof. intros ? ? ? []; assumption. Qed.
Lemma pt_coords k p q : scaled_pt k p q -> scaled k (px p) (px q) /\ scaled k (py p) (py q) /\ scaled k (pz p) (pz q).
Proof. intros H. exact (conj (H AX) (conj (H AY) (H AZ))). Qed.
Lemma vec_coords k p q : scaled_vec k p q -> scaled k (vx p) (vx q) /\ scaled k (vy p) (vy q) /\ scaled k (vz p) (vz q).
Proof. intros H. exact (conj (H AX) (conj (H AY) (H AZ))). Qed.
Definition smin (x y : B) : B := if Bltb y x then y else x.
Definition smax (x y : B) : B := if Bltb x y then y else x.
Lemma smin_scaled k x x' y y' : scaled k x x' -> scaled k y y' -> scaled k (smin x y) (smin x' y').
Proof. intros Hx Hy. unfold smin. rewrite (lt_scaled k y y' x x') by assumption. destruct (Bltb y' x'); assumption. Qed.
Lemma smax_scaled k x x' y y' : scaled k x x' -> scaled k y y' -> scaled k (smax x y) (smax x' y').
Proof. intros Hx Hy. unfold smax. rewrite (lt_scaled k x x' y y') by assumption. destruct (Bltb x' y'); assumption. Qed.
Definition lo3 p q : Point3 B := P3 (smin (px p) (px q)) (smin (py p) (py q)) (smin (pz p) (pz q)).
Definition hi3 p q : Point3 B := P3 (smax (px p) (px q)) (smax (py p) (py q)) (smax (pz p) (pz q)).
Lemma lo3_scaled k p p' q q' : scaled_pt k p p' -> scaled_pt k q q' -> scaled_pt k (lo3 p q) (lo3 p' q').
Proof. intros Hp Hq []; apply smin_scaled; first [apply (Hp AX)|apply (Hp AY)|apply (Hp AZ)|apply (Hq AX)|apply (Hq AY)|apply (Hq AZ)]. Qed.
Lemma hi3_scaled k p p' q q' : scaled_pt k p p' -> scaled_pt k q q' -> scaled_pt k (hi3 p q) (hi3 p' q').
Proof. intros Hp Hq []; apply smax_scaled; first [apply (Hp AX)|apply (Hp AY)|apply (Hp AZ)|apply (Hq AX)|apply (Hq AY)|apply (Hq AZ)]. Qed.
Lemma new_is p q : b3_new E p q = Done (B3 (lo3 p q) (hi3 p q)). Proof. reflexivity. Qed.
Lemma new_scaled k p p' q q' : scaled_pt k p p' -> scaled_pt k q q' -> both (scaled_box k) (b3_new E p q) (b3_new E p' q').
Proof. intros Hp Hq. rewrite !new_is. do 2 eexists. split; [reflexivity|]. split; [reflexivity|]. split; [now apply lo3_scaled|now apply hi3_scaled]. Qed.

Lemma order_scaled k (a a' b b' : Bounds3 B) (p p' q q' : Point3 B) (v v' : Vector3 B) :
  scaled_box k a a' -> scaled_box k b b' -> scaled_pt k p p' -> scaled_pt k q q' -> scaled_vec k v v' ->
  (both (scaled_box k) (b3_new E p q) (b3_new E p' q') /\ both (scaled_box k) (b3_union E a b) (b3_union E a' b') /\
   both (scaled_box k) (b3_union_pt E a p) (b3_union_pt E a' p') /\ both (scaled_box k) (b3_intersect E a b) (b3_intersect E a' b')) /\
  (b3_overlaps E a b = b3_overlaps E a' b' /\ b3_inside E a p = b3_inside E a' p' /\ b3_inside_exclusive E a p = b3_inside_exclusive E a' p') /\
  (both (scaled k) (v3_min_component E v) (v3_min_component E v') /\ both (scaled k) (v3_max_component E v) (v3_max_component E v') /\
   v3_max_dimension E v = v3_max_dimension E v' /\ both (scaled_vec k) (v3_neg E v) (v3_neg E v') /\ both (scaled_pt k) (p3_abs E p) (p3_abs E p')) /\
  (both (scaled_pt k) (p3_min E p q) (p3_min E p' q') /\ both (scaled_pt k) (p3_max E p q) (p3_max E p' q')).
Proof.
  intros [Ha1 Ha2] [Hb1 Hb2] Hp Hq Hv.
  destruct (pt_coords _ _ _ Ha1) as (L1 & L2 & L3). destruct (pt_coords _ _ _ Ha2) as (H1 & H2 & H3). destruct (pt_coords _ _ _ Hb1) as (M1 & M2 & M3).
  destruct (pt_coords _ _ _ Hb2) as (N1 & N2 & N3). destruct (pt_coords _ _ _ Hp) as (Q1 & Q2 & Q3). destruct (vec_coords _ _ _ Hv) as (K1 & K2 & K3).
  assert (D : forall (A : Type) (R : A -> A -> Prop) x y, R x y -> both R (Done x) (Done y)) by (intros A R x y H; exists x, y; auto).
  split; [|split; [|split]].
  - split; [now apply new_scaled|]. split; [|split].
    + change (both (scaled_box k) (b3_new E (lo3 (b_min a) (b_min b)) (hi3 (b_max a) (b_max b))) (b3_new E (lo3 (b_min a') (b_min b')) (hi3 (b_max a') (b_max b')))).
      apply new_scaled; [now apply lo3_scaled|now apply hi3_scaled].
    + change (both (scaled_box k) (b3_new E (lo3 (b_min a) p) (hi3 (b_max a) p)) (b3_new E (lo3 (b_min a') p') (hi3 (b_max a') p'))).
      apply new_scaled; [now apply lo3_scaled|now apply hi3_scaled].
    + change (both (scaled_box k) (b3_new E (hi3 (b_min a) (b_min b)) (lo3 (b_max a) (b_max b))) (b3_new E (hi3 (b_min a') (b_min b')) (lo3 (b_max a') (b_max b')))).
      apply new_scaled; [now apply hi3_scaled|now apply lo3_scaled].
  - unfold b3_overlaps, b3_inside, b3_inside_exclusive. cbn [e_le e_lt f_elem].
    repeat match goal with |- context [Bleb ?x ?y] => match goal with Hx : scaled k x ?x', Hy : scaled k y ?y' |- _ => rewrite (le_scaled k x x' y y' Hx Hy) end end.
    repeat match goal with |- context [Bltb ?x ?y] => match goal with Hx : scaled k x ?x', Hy : scaled k y ?y' |- _ => rewrite (lt_scaled k x x' y y' Hx Hy) end end.
    repeat match goal with |- _ /\ _ => split end; reflexivity.
  - split; [|split; [|split; [|split]]].
    + apply (D _ (scaled k) (smin (smin (vx v) (vy v)) (vz v)) (smin (smin (vx v') (vy v')) (vz v'))). now repeat apply smin_scaled.
    + apply (D _ (scaled k) (smax (smax (vx v) (vy v)) (vz v)) (smax (smax (vx v') (vy v')) (vz v'))). now repeat apply smax_scaled.
    + unfold v3_max_dimension. cbn [e_lt f_elem]. rewrite (lt_scaled k (vy v) (vy v') (vx v) (vx v')), (lt_scaled k (vz v) (vz v') (vx v) (vx v')), (lt_scaled k (vz v) (vz v') (vy v) (vy v')) by assumption. reflexivity.
    + apply (D _ (scaled_vec k) (V3 (Bopp (vx v)) (Bopp (vy v)) (Bopp (vz v))) (V3 (Bopp (vx v')) (Bopp (vy v')) (Bopp (vz v')))). apply vec3; now apply opp_scaled.
    + apply (D _ (scaled_pt k) (P3 (Babs (px p)) (Babs (py p)) (Babs (pz p))) (P3 (Babs (px p')) (Babs (py p')) (Babs (pz p')))). apply pt3; now apply abs_scaled.
  - split; [apply (D _ (scaled_pt k) (lo3 p q) (lo3 p' q')); now apply lo3_scaled|apply (D _ (scaled_pt k) (hi3 p q) (hi3 p' q')); now apply hi3_scaled].
Qed.

(** Sums, coordinate by coordinate. *)
Notation up_pt := (up_pt f).
Notation up_vec := (up_vec f).
Lemma sums_scaled k (p p' q q' : Point3 B) (u u' v v' : Vector3 B) (a a' : Bounds3 B) : (0 <= k)%Z ->
  scaled_pt k p p' -> scaled_pt k q q' -> scaled_vec k u u' -> scaled_vec k v v' -> scaled_box k a a' ->
  both (up_pt k) (p3_add E p v) (p3_add E p' v') /\ both (up_pt k) (p3_sub_v E p v) (p3_sub_v E p' v') /\ both (up_vec k) (p3_sub E p q) (p3_sub E p' q') /\
  both (up_vec k) (v3_add E u v) (v3_add E u' v') /\ both (up_vec k) (v3_sub E u v) (v3_sub E u' v') /\ both (up_vec k) (b3_diagonal E a) (b3_diagonal E a').
Proof.
  intros Hk Hp Hq Hu Hv [Ha1 Ha2]. repeat match goal with |- _ /\ _ => split end; do 2 eexists; (split; [reflexivity|]); (split; [reflexivity|]); intros i F; pose proof (Hp i) as X1; pose proof (Hq i) as X2;
    pose proof (Hu i) as X3; pose proof (Hv i) as X4; pose proof (Ha1 i) as X5; pose proof (Ha2 i) as X6; destruct i;
    first [apply add_up|apply sub_up]; assumption.
Qed.
Lemma expand_scaled k (a a' : Bounds3 B) d d' : (0 <= k)%Z -> scaled_box k a a' -> scaled k d d' -> bfinite a' -> is_finite d' = true ->
  upto_overflow bfinite (scaled_box k) (b3_expand E a d) (b3_expand E a' d').
Proof.
  intros Hk [Ha1 Ha2] Hd Fa Fd.
  set (lo z (c : B) := P3 (f_sub (px z) c) (f_sub (py z) c) (f_sub (pz z) c)). set (hi z (c : B) := P3 (f_add (px z) c) (f_add (py z) c) (f_add (pz z) c)).
  change (upto_overflow bfinite (scaled_box k) (Done (B3 (lo3 (lo (b_min a) d) (hi (b_max a) d)) (hi3 (lo (b_min a) d) (hi (b_max a) d))))
    (Done (B3 (lo3 (lo (b_min a') d') (hi (b_max a') d')) (hi3 (lo (b_min a') d') (hi (b_max a') d'))))).
  do 2 eexists. split; [reflexivity|]. split; [reflexivity|]. intros [F1 F2]. cbn [b_min b_max] in F1, F2.
  assert (FF : forall x y : B, is_nan x = false -> is_nan y = false -> is_finite (smin x y) = true -> is_finite (smax x y) = true -> is_finite x = true /\ is_finite y = true).
  { intros x y Nx Ny. unfold smin, smax. destruct (Bltb y x) eqn:A, (Bltb x y) eqn:C; auto; intros G1 G2.
    - exfalso. apply (ltb_key f) in A, C. lra.
    - destruct (is_finite y) eqn:Fy; [auto|]. exfalso.
      destruct (key_inf_big f y Ny Fy) as [K|K]; pose proof (key_lt_big f x G1) as L.
      + assert (Bltb x y = true) by (apply ltb_key; repeat split; auto; lra). congruence.
      + assert (Bltb y x = true) by (apply ltb_key; repeat split; auto; lra). congruence. }
  assert (Z : forall i, is_finite (coord i (lo (b_min a') d')) = true /\ is_finite (coord i (hi (b_max a') d')) = true).
  { intros i. specialize (F1 i). specialize (F2 i). destruct Fa as [Fa1 Fa2]. specialize (Fa1 i). specialize (Fa2 i).
    destruct i; cbn [coord lo hi lo3 hi3 px py pz] in *; apply FF; try assumption; try (apply (sub_key f); assumption); apply (add_key f); assumption. }
  assert (S1 : scaled_pt k (lo (b_min a) d) (lo (b_min a') d')) by (intros i; pose proof (proj1 (Z i)) as Q; pose proof (Ha1 i); destruct i; apply sub_up; assumption).
  assert (S2 : scaled_pt k (hi (b_max a) d) (hi (b_max a') d')) by (intros i; pose proof (proj2 (Z i)) as Q; pose proof (Ha2 i); destruct i; apply add_up; assumption).
  split; [now apply lo3_scaled|now apply hi3_scaled].
Qed.

(** Ratios. *)
Lemma scaled_zero k (x x' : B) : scaled k x x' -> is_finite x = true -> (B2R x = 0 <-> B2R x' = 0).
Proof.
  intros [(_ & _ & V)|[F _]] Fx; [|congruence]. rewrite V. split; [intros ->; ring|]. intros H. apply Rmult_integral in H as [H|H]; [exact H|].
  pose proof (bp_pos k). lra.
Qed.
Lemma ratio_scaled k (m m' M M' c c' : B) : (0 <= k)%Z -> scaled k m m' -> scaled k M M' -> scaled k c c' -> Bltb m M = true ->
  is_finite (f_sub M' m') = true -> is_finite (f_sub c' m') = true -> Beqb (f_div (f_sub c m) (f_sub M m)) (f_div (f_sub c' m') (f_sub M' m')) = true.
Proof.
  intros Hk Hm HM Hc L F1 F2. apply (div_same k); [now apply sub_up|now apply sub_up|exact F2|exact F1|].
  pose proof (sub_up k _ _ _ _ Hk HM Hm F1) as S. destruct (scaled_fin _ _ _ S F1) as [Fs _].
  destruct (sub_fin _ _ Fs) as [FM Fm]. apply (ltb_key f) in L as (_ & _ & L). rewrite !(key_finite f) in L by assumption.
  destruct (sub_key f M m FM Fm) as (_ & K & _). rewrite (key_finite f _ Fs) in K. rewrite K. pose proof (rnd_sub_pos f m M L) as P.
  unfold sat. pose proof (bpow_gt_0 radix2 (femax f)). unfold big in *. apply Rgt_not_eq. unfold Rmax, Rmin. repeat destruct (Rle_dec _ _); lra.
Qed.
Lemma offset_coord (b : Bounds3 B) p v i : b3_offset E b p = Done v ->
  vcoord i v = if Bltb (coord i (b_min b)) (coord i (b_max b)) then f_div (f_sub (coord i p) (coord i (b_min b))) (f_sub (coord i (b_max b)) (coord i (b_min b)))
    else f_sub (coord i p) (coord i (b_min b)).
Proof.
  unfold b3_offset. cbn [p3_sub mk3 obind lift2 e_sub e_lt e_div f_elem vx vy vz].
  destruct (Bltb (px (b_min b)) (px (b_max b))) eqn:X; cbn [obind lift2 e_sub e_div f_elem vx vy vz];
  destruct (Bltb (py (b_min b)) (py (b_max b))) eqn:Y; cbn [obind lift2 e_sub e_div f_elem vx vy vz];
  destruct (Bltb (pz (b_min b)) (pz (b_max b))) eqn:Z; cbn [obind lift2 e_sub e_div f_elem vx vy vz]; intros [= <-];
  destruct i; cbn [coord vcoord vx vy vz]; rewrite ?X, ?Y, ?Z; reflexivity.
Qed.
Lemma offset_done (b : Bounds3 B) p : exists v, b3_offset E b p = Done v.
Proof.
  unfold b3_offset. cbn [p3_sub mk3 obind lift2 e_sub e_lt e_div f_elem vx vy vz].
  destruct (Bltb (px (b_min b)) (px (b_max b))); cbn [obind lift2 e_sub e_div f_elem vx vy vz];
  destruct (Bltb (py (b_min b)) (py (b_max b))); cbn [obind lift2 e_sub e_div f_elem vx vy vz];
  destruct (Bltb (pz (b_min b)) (pz (b_max b))); cbn [obind lift2 e_sub e_div f_elem vx vy vz]; eexists; reflexivity.
Qed.
Lemma offset_pair k (m m' M M' c c' x x' : B) : (0 <= k)%Z -> scaled k m m' -> scaled k M M' -> scaled k c c' ->
  x = (if Bltb m M then f_div (f_sub c m) (f_sub M m) else f_sub c m) -> x' = (if Bltb m' M' then f_div (f_sub c' m') (f_sub M' m') else f_sub c' m') ->
  is_finite (f_sub M' m') = true -> is_finite (f_sub c' m') = true -> if Bltb m M then Beqb x x' = true else scaled k x x'.
Proof.
  intros Hk Hm HM Hc -> -> F1 F2. rewrite <- (lt_scaled k _ _ _ _ Hm HM). destruct (Bltb m M) eqn:L; [now apply (ratio_scaled k)|now apply sub_up].
Qed.
Lemma ratios_scaled k (a a' : Bounds3 B) (p p' : Point3 B) d' w' : (0 <= k)%Z -> scaled_box k a a' -> scaled_pt k p p' ->
  b3_diagonal E a' = Done d' -> p3_sub E p' (b_min a') = Done w' ->
  (vfinite d' -> b3_maximum_extent E a = b3_maximum_extent E a') /\
  both (fun o o' => forall i, is_finite (vcoord i d') = true -> is_finite (vcoord i w') = true ->
    if Bltb (coord i (b_min a)) (coord i (b_max a)) then Beqb (vcoord i o) (vcoord i o') = true else scaled k (vcoord i o) (vcoord i o'))
    (b3_offset E a p) (b3_offset E a' p').
Proof.
  intros Hk [Ha1 Ha2] Hp [= <-] [= <-]. split.
  - intros F. unfold b3_maximum_extent. cbn [b3_diagonal p3_sub mk3 obind lift2 e_sub e_lt f_elem vx vy vz].
    pose proof (sub_up k _ _ _ _ Hk (Ha2 AX) (Ha1 AX) (F AX)) as X. pose proof (sub_up k _ _ _ _ Hk (Ha2 AY) (Ha1 AY) (F AY)) as Y.
    pose proof (sub_up k _ _ _ _ Hk (Ha2 AZ) (Ha1 AZ) (F AZ)) as Z. cbn [coord] in *.
    rewrite (lt_scaled k _ _ _ _ Y X), (lt_scaled k _ _ _ _ Z X), (lt_scaled k _ _ _ _ Z Y). reflexivity.
  - destruct (offset_done a p) as [o Ho]. destruct (offset_done a' p') as [o' Ho']. exists o, o'. split; [exact Ho|]. split; [exact Ho'|].
    intros i F1 F2. apply (offset_pair k (coord i (b_min a)) (coord i (b_min a')) (coord i (b_max a)) (coord i (b_max a')) (coord i p) (coord i p')); auto;
      [exact (offset_coord _ _ _ i Ho)|exact (offset_coord _ _ _ i Ho')|destruct i; exact F1|destruct i; exact F2].
Qed.

(** Products. *)
Lemma scaled_same (x : B) : scaled 0 x x.
Proof. destruct (is_finite x) eqn:F; [left|right; auto]. repeat split; auto. cbn [bpow]. ring. Qed.
Lemma mult_up0 k (t x x' : B) : (0 <= k)%Z -> scaled k x x' -> not_tiny (B2R t * B2R x) -> is_finite (f_mult t x') = true -> scaled k (f_mult t x) (f_mult t x').
Proof. intros Hk Hx T F. exact (mult_up 0 k t t x x' Hk (scaled_same t) Hx T F). Qed.
Lemma dot_up j k x1 x1' x2 x2' x3 x3' y1 y1' y2 y2' y3 y3' : (0 <= j + k)%Z -> scaled j x1 x1' -> scaled j x2 x2' -> scaled j x3 x3' ->
  scaled k y1 y1' -> scaled k y2 y2' -> scaled k y3 y3' -> not_tiny (B2R x1 * B2R y1) -> not_tiny (B2R x2 * B2R y2) -> not_tiny (B2R x3 * B2R y3) ->
  is_finite (f_add (f_add (f_mult x1' y1') (f_mult x2' y2')) (f_mult x3' y3')) = true ->
  scaled (j + k) (f_add (f_add (f_mult x1 y1) (f_mult x2 y2)) (f_mult x3 y3)) (f_add (f_add (f_mult x1' y1') (f_mult x2' y2')) (f_mult x3' y3')).
Proof.
  intros Hk X1 X2 X3 Y1 Y2 Y3 T1 T2 T3 F. destruct (add_fin _ _ F) as [F1 F2]. destruct (add_fin _ _ F1) as [F3 F4].
  apply add_up; auto; [apply add_up; auto|]; apply mult_up; auto.
Qed.
Lemma diff_up j k x1 x1' x2 x2' y1 y1' y2 y2' : (0 <= j + k)%Z -> scaled j x1 x1' -> scaled j x2 x2' ->
  scaled k y1 y1' -> scaled k y2 y2' -> not_tiny (B2R x1 * B2R y1) -> not_tiny (B2R x2 * B2R y2) ->
  is_finite (f_sub (f_mult x1' y1') (f_mult x2' y2')) = true ->
  scaled (j + k) (f_sub (f_mult x1 y1) (f_mult x2 y2)) (f_sub (f_mult x1' y1') (f_mult x2' y2')).
Proof. intros Hk X1 X2 Y1 Y2 T1 T2 F. destruct (sub_fin _ _ F) as [F1 F2]. apply sub_up; auto; apply mult_up; auto. Qed.
Lemma products_scaled j k (u u' v v' : Vector3 B) : (0 <= j + k)%Z -> scaled_vec j u u' -> scaled_vec k v v' ->
  (forall i i', not_tiny (B2R (vcoord i u) * B2R (vcoord i' v))) ->
  upto_overflow (fun x => is_finite x = true) (scaled (j + k)) (v3_dot E u v) (v3_dot E u' v') /\ both (up_vec (j + k)) (v3_cross E u v) (v3_cross E u' v').
Proof.
  intros Hk Hu Hv T. destruct (vec_coords _ _ _ Hu) as (U1 & U2 & U3). destruct (vec_coords _ _ _ Hv) as (K1 & K2 & K3).
  split; do 2 eexists; (split; [reflexivity|]); (split; [reflexivity|]).
  - intros F. apply dot_up; auto; [apply (T AX AX)|apply (T AY AY)|apply (T AZ AZ)].
  - intros i F. destruct i; apply diff_up; auto;
      first [apply (T AX AX)|apply (T AX AY)|apply (T AX AZ)|apply (T AY AX)|apply (T AY AY)|apply (T AY AZ)|apply (T AZ AX)|apply (T AZ AY)|apply (T AZ AZ)].
Qed.
Lemma length_scaled k (v v' : Vector3 B) l' : (0 <= k)%Z -> scaled_vec k v v' -> (forall i, not_tiny (B2R (vcoord i v) * B2R (vcoord i v))) ->
  v3_len_sq E v' = Done l' -> is_finite l' = true ->
  both (scaled (k + k)) (v3_len_sq E v) (v3_len_sq E v') /\ both (scaled k) (v3_len (f_float f) E (fun x => x) v) (v3_len (f_float f) E (fun x => x) v').
Proof.
  intros Hk Hv T [= <-] F. destruct (vec_coords _ _ _ Hv) as (K1 & K2 & K3).
  assert (S : scaled (k + k) (f_add (f_add (f_mult (vx v) (vx v)) (f_mult (vy v) (vy v))) (f_mult (vz v) (vz v)))
    (f_add (f_add (f_mult (vx v') (vx v')) (f_mult (vy v') (vy v'))) (f_mult (vz v') (vz v')))).
  { apply dot_up; auto; [lia|apply (T AX)|apply (T AY)|apply (T AZ)]. }
  split; do 2 eexists; (split; [reflexivity|]); (split; [reflexivity|]); [exact S|]. now apply sqrt_up.
Qed.
(** Multiples: the factor has no unit. *)
Lemma multiples_scaled k (v v' : Vector3 B) (r r' : Ray B) (t : B) : (0 <= k)%Z -> scaled_vec k v v' -> scaled_pt k (r_o r) (r_o r') -> scaled_vec k (r_d r) (r_d r') ->
  (forall i, not_tiny (B2R t * B2R (vcoord i v))) -> (forall i, not_tiny (B2R t * B2R (vcoord i (r_d r)))) ->
  both (up_vec k) (v3_mul E v t) (v3_mul E v' t) /\ both (up_pt k) (ray_at (f_float f) r t) (ray_at (f_float f) r' t).
Proof.
  intros Hk Hv Ho Hd T1 T2. split; do 2 eexists; (split; [reflexivity|]); (split; [reflexivity|]); intros i F.
  - pose proof (Hv i). pose proof (T1 i). destruct i; apply mult_up0; assumption.
  - pose proof (Ho i). pose proof (Hd i). pose proof (T2 i). destruct i; apply add_up; auto; apply mult_up0; auto; now apply add_fin in F.
Qed.
Lemma lerp_scaled k (a a' b b' t : B) : (0 <= k)%Z -> scaled k a a' -> scaled k b b' -> not_tiny (B2R (f_sub (f_of_int f 1) t) * B2R a) -> not_tiny (B2R t * B2R b) ->
  upto_overflow (fun x => is_finite x = true) (scaled k) (lerp (f_float f) t a b) (lerp (f_float f) t a' b').
Proof.
  intros Hk Ha Hb T1 T2. do 2 eexists. split; [reflexivity|]. split; [reflexivity|]. intros F. destruct (add_fin _ _ F) as [F1 F2]. apply add_up; auto; now apply mult_up0.
Qed.
Lemma lerps_scaled k (p p' q q' : Point3 B) (t : B) : (0 <= k)%Z -> scaled_pt k p p' -> scaled_pt k q q' ->
  (forall i, not_tiny (B2R (f_sub (f_of_int f 1) t) * B2R (coord i p)) /\ not_tiny (B2R t * B2R (coord i q))) ->
  both (up_pt k) (p3_lerp (f_float f) t p q) (p3_lerp (f_float f) t p' q').
Proof.
  intros Hk Hp Hq T. do 2 eexists. split; [reflexivity|]. split; [reflexivity|]. intros i F. pose proof (Hp i). pose proof (Hq i). destruct (T i) as [T1 T2].
  destruct i; destruct (add_fin _ _ F) as [F1 F2]; apply add_up; auto; now apply mult_up0.
Qed.
Lemma transform_scaled k (v v' : Vector3 B) (t : Transform B) : (0 <= k)%Z -> scaled_vec k v v' ->
  (forall r c, not_tiny (B2R (mget (t_m t) r (match c with AX => I0 | AY => I1 | AZ => I2 end)) * B2R (vcoord c v))) ->
  both (up_vec k) (v3_transform (f_float f) (fun x => x) v t) (v3_transform (f_float f) (fun x => x) v' t).
Proof.
  intros Hk Hv T. destruct (vec_coords _ _ _ Hv) as (K1 & K2 & K3). do 2 eexists. split; [reflexivity|]. split; [reflexivity|].
  intros i F. destruct i; apply (dot_up 0 k); auto; try apply scaled_same; try apply (T I0 AX); try apply (T I0 AY); try apply (T I0 AZ);
    try apply (T I1 AX); try apply (T I1 AY); try apply (T I1 AZ); try apply (T I2 AX); try apply (T I2 AY); apply (T I2 AZ).
Qed.

(** ** The coordinate system *)
Lemma beq_scaled (x y : B) : Beqb x y = true -> scaled 0 x y.
Proof.
  intros H. apply (eqb_key f) in H as (Nx & Ny & K). pose proof (key_inj f x y Nx Ny K) as F. destruct (is_finite x) eqn:Fx.
  - left. symmetry in F. repeat split; auto. rewrite !(key_finite f) in K by auto. cbn [bpow]. rewrite K. ring.
  - right. split; [assumption|]. destruct x as [|[]| |], y as [|[]| |]; try discriminate; try reflexivity; cbn in K; pose proof (bpow_gt_0 radix2 (femax f)); unfold big in *; lra.
Qed.
Lemma rnd_bp r e : (2 - femax f <= e)%Z -> Rabs r <= bp e -> Rabs (rnd f r) <= bp e.
Proof.
  intros He H. unfold rnd. apply abs_round_le_generic; [apply fexp_valid|apply valid_rnd_N| |exact H].
  apply generic_format_bpow. pose proof (fprec_gt_0 f). unfold Prec_gt_0, SpecFloat.fexp, SpecFloat.emin in *. lia.
Qed.
Lemma rnd_pos r : 0 < r -> not_tiny r -> 0 < rnd f r.
Proof.
  intros P [->|H]; [lra|]. rewrite Rabs_pos_eq in H by lra. apply Rlt_le_trans with (rnd f (bp (2 - femax f))); [|now apply rnd_le].
  rewrite rnd_id; [apply bp_pos|]. apply generic_format_bpow. pose proof (fprec_gt_0 f). unfold Prec_gt_0, SpecFloat.fexp, SpecFloat.emin in *. lia.
Qed.
Definition norm2 (x z : B) : B := Bsqrt mode_NE (f_add (f_mult x x) (f_mult z z)).
Lemma norm2_scaled k x x' z z' : (0 <= k)%Z -> scaled k x x' -> scaled k z z' -> is_finite x' = true -> is_finite z' = true ->
  Rabs (B2R x') <= bp (femax f / 2 - 1) -> Rabs (B2R z') <= bp (femax f / 2 - 1) -> not_tiny (B2R x * B2R x) -> not_tiny (B2R z * B2R z) -> B2R x <> 0 \/ B2R z <> 0 ->
  scaled k (norm2 x z) (norm2 x' z') /\ is_finite (norm2 x' z') = true /\ B2R (norm2 x z) <> 0.
Proof.
  intros Hk Hx Hz Fx' Fz' Lx Lz Tx Tz N0.
  assert (Sq : forall w : B, is_finite w = true -> Rabs (B2R w) <= bp (femax f / 2 - 1) -> is_finite (f_mult w w) = true /\ Rabs (B2R (f_mult w w)) <= bp (femax f - 2)).
  { intros w Fw Lw. destruct (mult_key f w w Fw Fw) as (_ & K & Q).
    assert (L : Rabs (rnd f (B2R w * B2R w)) <= bp (femax f - 2)).
    { apply rnd_bp; [destruct f; cbn; lia|]. rewrite Rabs_mult. apply Rle_trans with (bp (femax f / 2 - 1) * bp (femax f / 2 - 1)).
      - apply Rmult_le_compat; auto using Rabs_pos.
      - rewrite <- bpow_plus. apply bpow_le. destruct f; vm_compute; discriminate. }
    assert (L2 : Rabs (rnd f (B2R w * B2R w)) < big f) by (eapply Rle_lt_trans; [exact L|]; unfold big; apply bpow_lt; lia).
    rewrite Rlt_bool_true in Q by exact L2. split; [exact Q|]. rewrite <- (key_finite f _ Q), K, sat_in by exact L2. exact L. }
  destruct (Sq x' Fx' Lx) as [F1 L1]. destruct (Sq z' Fz' Lz) as [F2 L2].
  assert (F3 : is_finite (f_add (f_mult x' x') (f_mult z' z')) = true).
  { destruct (add_key f _ _ F1 F2) as (_ & _ & Q). rewrite Q. apply Rlt_bool_true. apply Rle_lt_trans with (bp (femax f - 1)).
    - apply rnd_bp; [destruct f; cbn; lia|]. eapply Rle_trans; [apply Rabs_triang|]. replace (femax f - 1)%Z with (femax f - 2 + 1)%Z by lia. rewrite bpow_plus. change (bp 1) with 2. lra.
    - unfold big. apply bpow_lt. lia. }
  pose proof (mult_up k k _ _ _ _ ltac:(lia) Hx Hx Tx F1) as S1. pose proof (mult_up k k _ _ _ _ ltac:(lia) Hz Hz Tz F2) as S2.
  pose proof (add_up (k + k) _ _ _ _ ltac:(lia) S1 S2 F3) as S3. split; [now apply sqrt_up|].
  destruct (scaled_fin _ _ _ S3 F3) as [F0 _]. destruct (add_fin _ _ F0) as [G1 G2]. destruct (mult_fin _ _ G1) as [Fx _]. destruct (mult_fin _ _ G2) as [Fz _].
  assert (P1 : forall w : B, is_finite w = true -> is_finite (f_mult w w) = true -> B2R (f_mult w w) = rnd f (B2R w * B2R w)).
  { intros w Fw G. destruct (mult_key f w w Fw Fw) as (_ & K & Q). rewrite G in Q. symmetry in Q. destruct (Rlt_bool_spec (Rabs (rnd f (B2R w * B2R w))) (big f)); [|discriminate].
    now rewrite <- (key_finite f _ G), K, sat_in. }
  assert (P2 : 0 < B2R (f_add (f_mult x x) (f_mult z z))).
  { destruct (add_key f _ _ G1 G2) as (_ & K & Q). rewrite F0 in Q. symmetry in Q.
    destruct (Rlt_bool_spec (Rabs (rnd f (B2R (f_mult x x) + B2R (f_mult z z)))) (big f)); [|discriminate].
    rewrite <- (key_finite f _ F0), K, sat_in by assumption.
    assert (A1 : 0 <= B2R (f_mult x x)) by (rewrite P1 by assumption; apply rnd_nonneg; nra). assert (A2 : 0 <= B2R (f_mult z z)) by (rewrite P1 by assumption; apply rnd_nonneg; nra).
    destruct N0 as [N0|N0].
    - apply Rlt_le_trans with (rnd f (B2R (f_mult x x))); [|apply rnd_le; lra]. rewrite rnd_B, P1 by assumption. apply rnd_pos; [nra|assumption].
    - apply Rlt_le_trans with (rnd f (B2R (f_mult z z))); [|apply rnd_le; lra]. rewrite rnd_B, P1 by assumption. apply rnd_pos; [nra|assumption]. }
  set (s := f_add (f_mult x x) (f_mult z z)) in *. set (s' := f_add (f_mult x' x') (f_mult z' z')) in *.
  destruct (Bsqrt_correct _ _ (fprec_gt_0 f) (fprec_lt_emax f) mode_NE s) as (V & Q & _). destruct (Bsqrt_correct _ _ (fprec_gt_0 f) (fprec_lt_emax f) mode_NE s') as (_ & Q' & _).
  change (round radix2 _ _ (sqrt (B2R s))) with (rnd f (sqrt (B2R s))) in V. split.
  - unfold norm2. fold s'. rewrite Q'. assert (P3 : 0 < B2R s') by (destruct (scaled_fin _ _ _ S3 F3) as [_ ->]; apply Rmult_lt_0_compat; [assumption|apply bp_pos]).
    destruct s' as [sg|sg| |sg m e Hs]; try discriminate; auto. destruct sg; auto. exfalso. assert (F2R (Float radix2 (Z.neg m) e) < 0) by (apply F2R_lt_0; cbn; lia). cbn in *. lra.
  - unfold norm2. fold s. rewrite V. destruct (rnd_sqrt f (B2R s) (fmt_B f s)) as (d & Hd & ->). pose proof (sqrt_lt_R0 _ P2).
    assert (half_ulp f < 1) by (unfold half_ulp; change 1 with (bp 0); apply bpow_lt; destruct f; cbn; lia).
    apply Rabs_le_inv in Hd. apply Rgt_not_eq. apply Rmult_lt_0_compat; lra.
Qed.
Definition frame (v : Vector3 B) : Vector3 B :=
  if Bltb (Babs (vy v)) (Babs (vx v)) then V3 (f_div (Bopp (vz v)) (norm2 (vx v) (vz v))) (f_div zero (norm2 (vx v) (vz v))) (f_div (vx v) (norm2 (vx v) (vz v)))
  else V3 (f_div zero (norm2 (vy v) (vz v))) (f_div (vz v) (norm2 (vy v) (vz v))) (f_div (Bopp (vy v)) (norm2 (vy v) (vz v))).
Lemma frame_is v : coordinate_system (f_float f) v = (v3 <~ v3_cross E v (frame v) ;; !(frame v, v3)).
Proof. unfold coordinate_system, frame. cbn [e_abs e_neg e_lt f_float fl_elem f_elem obind]. destruct (Bltb (Babs (vy v)) (Babs (vx v))); reflexivity. Qed.
Lemma scaled_0 k : scaled k zero zero.
Proof. left. destruct (zero_val f) as [V F]. rewrite V. repeat split; auto. ring. Qed.
Lemma face_forward_scaled j k (u u' v v' : Vector3 B) : (0 <= j + k)%Z -> scaled_vec j u u' -> scaled_vec k v v' ->
  (forall i i', not_tiny (B2R (vcoord i u) * B2R (vcoord i' v))) -> (forall d', v3_dot E u' v' = Done d' -> is_finite d' = true) ->
  both (scaled_vec j) (v3_face_forward E u v) (v3_face_forward E u' v').
Proof.
  intros Hk Hu Hv T F. destruct (products_scaled j k u u' v v' Hk Hu Hv T) as [(d & d' & E1 & E2 & S) _].
  specialize (S (F d' E2)). unfold v3_face_forward. rewrite E1, E2. cbn [obind e_lt f_elem e_from_int].
  rewrite (lt_scaled (j + k) d d' zero zero S (scaled_0 _)).
  destruct (vec_coords _ _ _ Hu) as (U1 & U2 & U3). destruct (Bltb d' zero); do 2 eexists; (split; [reflexivity|]); (split; [reflexivity|]); [|exact Hu].
  apply vec3; now apply opp_scaled.
Qed.
Lemma frame_scaled k (v v' : Vector3 B) : (0 <= k)%Z -> scaled_vec k v v' -> vfinite v' -> (forall i, Rabs (B2R (vcoord i v')) <= bp (femax f / 2 - 1)) ->
  (forall i, not_tiny (B2R (vcoord i v) * B2R (vcoord i v))) -> (exists i, B2R (vcoord i v) <> 0) ->
  exists u u' w w', coordinate_system (f_float f) v = Done (u, w) /\ coordinate_system (f_float f) v' = Done (u', w') /\
    (forall i, Beqb (vcoord i u) (vcoord i u') = true) /\
    ((forall i i', not_tiny (B2R (vcoord i v) * B2R (vcoord i' u))) -> up_vec k w w').
Proof.
  intros Hk Hv Fv Lv Tv [j Nj]. rewrite !frame_is. exists (frame v), (frame v'). do 2 eexists. split; [reflexivity|]. split; [reflexivity|].
  destruct (vec_coords _ _ _ Hv) as (K1 & K2 & K3). pose proof (Fv AX) as F1. pose proof (Fv AY) as F2. pose proof (Fv AZ) as F3.
  pose proof (Lv AX) as L1. pose proof (Lv AY) as L2. pose proof (Lv AZ) as L3. pose proof (Tv AX) as T1. pose proof (Tv AY) as T2. pose proof (Tv AZ) as T3. cbn [vcoord] in *.
  assert (G : forall i, Beqb (vcoord i (frame v)) (vcoord i (frame v')) = true).
  { unfold frame. rewrite (lt_scaled k _ _ _ _ (abs_scaled _ _ _ K2) (abs_scaled _ _ _ K1)).
    destruct (scaled_fin _ _ _ K1 F1) as [E1 _]. destruct (scaled_fin _ _ _ K2 F2) as [E2 _].
    destruct (Bltb (Babs (vy v')) (Babs (vx v'))) eqn:C; rewrite <- (lt_scaled k _ _ _ _ (abs_scaled _ _ _ K2) (abs_scaled _ _ _ K1)) in C.
    - apply (ltb_key f) in C as (_ & _ & C). rewrite !(key_finite f), !B2R_Babs in C by (now rewrite is_finite_Babs).
      assert (N : B2R (vx v) <> 0) by (intros Q; rewrite Q, Rabs_R0 in C; pose proof (Rabs_pos (B2R (vy v))); lra).
      destruct (norm2_scaled k _ _ _ _ Hk K1 K3 F1 F3 L1 L3 T1 T3 (or_introl N)) as (S & Fn & Nn).
      intros []; apply (div_same k); auto using scaled_0, opp_scaled; (now rewrite is_finite_Bopp) || apply (zero_val f).
    - assert (N : B2R (vy v) <> 0 \/ B2R (vz v) <> 0).
      { destruct j; cbn [vcoord] in Nj; auto. left. intros Q. assert (Bltb (Babs (vy v)) (Babs (vx v)) = true); [|congruence].
        apply ltb_key. rewrite !(key_finite f), !B2R_Babs by (now rewrite is_finite_Babs). rewrite Q, Rabs_R0.
        split; [destruct (vy v); try reflexivity; discriminate E2|]. split; [destruct (vx v); try reflexivity; discriminate E1|]. now apply Rabs_pos_lt. }
      destruct (norm2_scaled k _ _ _ _ Hk K2 K3 F2 F3 L2 L3 T2 T3 N) as (S & Fn & Nn).
      intros []; apply (div_same k); auto using scaled_0, opp_scaled; (now rewrite is_finite_Bopp) || apply (zero_val f). }
  split; [exact G|]. intros T. assert (H0 : scaled_vec 0 (frame v) (frame v')) by (intros i; apply beq_scaled, G).
  destruct (products_scaled k 0 v v' (frame v) (frame v') ltac:(lia) Hv H0 T) as [_ (w & w' & Ew & Ew' & R)]. rewrite Z.add_0_r in R.
  injection Ew as <-. injection Ew' as <-. exact R.
Qed.
(** ** Centre, area, volume *)
Lemma centre_scaled k (a a' : Bounds3 B) : (0 <= k)%Z -> scaled_box k a a' -> (forall i, not_tiny (B2R (f_add (coord i (b_min a)) (coord i (b_max a))) / 2)) ->
  exists c r c' r', bounding_sphere (f_float f) a = Done (c, r) /\ bounding_sphere (f_float f) a' = Done (c', r') /\
    forall i, is_finite (f_add (coord i (b_min a')) (coord i (b_max a'))) = true -> scaled k (coord i c) (coord i c').
Proof.
  intros Hk [Ha1 Ha2] T.
  set (ce (b : Bounds3 B) := P3 (f_div (f_add (px (b_min b)) (px (b_max b))) (f_of_int f 2)) (f_div (f_add (py (b_min b)) (py (b_max b))) (f_of_int f 2)) (f_div (f_add (pz (b_min b)) (pz (b_max b))) (f_of_int f 2))).
  assert (D : forall b, exists r, bounding_sphere (f_float f) b = Done (ce b, r)).
  { intros b. unfold bounding_sphere. cbn [p3_add p3_div mk3 obind lift2 e_add e_div e_from_int f_float fl_elem f_elem px py pz v3_from_p3 vx vy vz]. fold (ce b).
    match goal with |- context [if ?c then _ else _] => destruct c end; eexists; reflexivity. }
  destruct (D a) as [r Hr]. destruct (D a') as [r' Hr']. exists (ce a), r, (ce a'), r'. split; [exact Hr|]. split; [exact Hr'|]. clear Hr Hr' D.
  assert (V2 : is_finite (f_of_int f 2) = true /\ B2R (f_of_int f 2) = 2) by (destruct f; split; vm_compute; try reflexivity; lra).
  assert (S2 : scaled 0 (f_of_int f 2) (f_of_int f 2)) by apply scaled_same. destruct V2 as [F2 V2].
  assert (G : forall x x' : B, scaled k x x' -> is_finite x' = true -> not_tiny (B2R x / 2) -> scaled k (f_div x (f_of_int f 2)) (f_div x' (f_of_int f 2))).
  { intros x x' Hx Fx Tx. replace k with (k - 0)%Z by lia. apply div_up; auto; rewrite ?V2; try lra; [lia| |].
    - exact Tx.
    - destruct (div_key f x' (f_of_int f 2) Fx F2 ltac:(rewrite V2; lra)) as (_ & _ & Q). rewrite Q, V2. apply Rlt_bool_true.
      pose proof (key_lt_big f x' Fx) as L. rewrite (key_finite f x' Fx) in L. apply Rle_lt_trans with (Rabs (B2R x')).
      + unfold rnd. apply abs_round_le_generic; [apply fexp_valid|apply valid_rnd_N|apply generic_format_abs, fmt_B|]. unfold Rdiv. rewrite Rabs_mult, (Rabs_pos_eq (/ 2)) by lra. pose proof (Rabs_pos (B2R x')). lra.
      + apply Rabs_lt. exact L. }
  intros i F. pose proof (T i) as Ti. pose proof (add_up k _ _ _ _ Hk (Ha1 i) (Ha2 i) F) as S. destruct i; apply G; assumption.
Qed.

Lemma measures_scaled k (a a' : Bounds3 B) d : (0 <= k)%Z -> scaled_box k a a' -> b3_diagonal E a = Done d ->
  (forall i i', not_tiny (B2R (vcoord i d) * B2R (vcoord i' d))) -> not_tiny (B2R (f_mult (vx d) (vy d)) * B2R (vz d)) ->
  upto_overflow (fun x => is_finite x = true) (scaled (2 * k)) (b3_surface_area E a) (b3_surface_area E a') /\
  upto_overflow (fun x => is_finite x = true) (scaled (3 * k)) (b3_volume E a) (b3_volume E a').
Proof.
  intros Hk Ha [= <-] T T3. destruct Ha as [Ha1 Ha2]. cbn [vx vy vz] in T3.
  pose proof (T AX AY) as TXY. pose proof (T AX AZ) as TXZ. pose proof (T AY AZ) as TYZ. cbn [vcoord vx vy vz] in TXY, TXZ, TYZ. clear T.
  pose proof (sub_up k _ _ _ _ Hk (Ha2 AX) (Ha1 AX)) as X. pose proof (sub_up k _ _ _ _ Hk (Ha2 AY) (Ha1 AY)) as Y.
  pose proof (sub_up k _ _ _ _ Hk (Ha2 AZ) (Ha1 AZ)) as Z. cbn [coord] in X, Y, Z.
  split; do 2 eexists; (split; [reflexivity|]); (split; [reflexivity|]); intros F.
  - cbn [p3_sub mk3 obind lift2 e_sub f_elem vx vy vz] in F |- *.
    set (x := f_sub (px (b_max a)) (px (b_min a))) in *. set (y := f_sub (py (b_max a)) (py (b_min a))) in *. set (z := f_sub (pz (b_max a)) (pz (b_min a))) in *.
    set (x' := f_sub (px (b_max a')) (px (b_min a'))) in *. set (y' := f_sub (py (b_max a')) (py (b_min a'))) in *. set (z' := f_sub (pz (b_max a')) (pz (b_min a'))) in *.
    destruct (mult_fin _ _ F) as [_ F0]. destruct (add_fin _ _ F0) as [F1 F2]. destruct (add_fin _ _ F1) as [F3 F4]. destruct (mult_fin _ _ F3) as [Fx Fy]. destruct (mult_fin _ _ F2) as [_ Fz].
    assert (S : scaled (k + k) (f_add (f_add (f_mult x y) (f_mult x z)) (f_mult y z)) (f_add (f_add (f_mult x' y') (f_mult x' z')) (f_mult y' z'))).
    { apply add_up; auto; [lia|apply add_up; auto; [lia| |]|]; apply mult_up; auto; lia. }
    replace (2 * k)%Z with (k + k)%Z by lia. clear -S F Hk. set (w := f_add (f_add (f_mult x y) (f_mult x z)) (f_mult y z)) in *. set (w' := f_add (f_add (f_mult x' y') (f_mult x' z')) (f_mult y' z')) in *.
    assert (V2 : is_finite (f_of_int f 2) = true /\ B2R (f_of_int f 2) = 2) by (destruct f; split; vm_compute; try reflexivity; lra). destruct V2 as [F2 V2].
    destruct (mult_fin _ _ F) as [_ Fw']. destruct (scaled_fin _ _ _ S Fw') as [Fw Vw].
    pose proof (mult_key f (f_of_int f 2) w F2 Fw) as K. pose proof (mult_key f (f_of_int f 2) w' F2 Fw') as K'. rewrite V2 in K, K'. rewrite Vw in K'.
    replace (2 * (B2R w * bp (k + k))) with (2 * B2R w * bp (k + k)) in K' by ring. assert (Hkk : (0 <= k + k)%Z) by lia. apply (from_key _ _ _ _ Hkk K K'); [|exact F].
    replace (2 * B2R w) with (B2R w + B2R w) by ring. apply rnd_up_sum; [lia|apply fmt_B|apply fmt_B].
  - cbn [p3_sub mk3 obind lift2 e_sub f_elem vx vy vz] in F |- *. destruct (mult_fin _ _ F) as [F1 Fz]. destruct (mult_fin _ _ F1) as [Fx Fy].
    replace (3 * k)%Z with (k + k + k)%Z by lia. apply mult_up; auto; [lia|]. apply mult_up; auto; lia.
Qed.
End U.

(** ** Cases *)
Definition tiny32 : flt F32 := @SF2B 24 128 (SpecFloat.S754_finite false 1 (-149)) eq_refl.
Definition half32 : flt F32 := f_div (f32 1) (f32 2).
Lemma tiny_case : exists (x x' t : flt F32), scaled F32 1 x x' /\ is_finite t = true /\ is_finite (f_mult t x') = true /\ B2R (f_mult t x) = 0 /\ B2R (f_mult t x') <> 0.
Proof.
  exists tiny32, (f_add tiny32 tiny32), half32. assert (V : B2R tiny32 = bpow radix2 (-149)) by (unfold tiny32; cbn; unfold F2R; cbn; lra).
  assert (W : B2SF (f_add tiny32 tiny32) = SpecFloat.S754_finite false 2 (-149)) by (vm_compute; reflexivity).
  assert (VW : B2R (f_add tiny32 tiny32) = bpow radix2 (-149) * bpow radix2 1) by (rewrite <- SF2R_B2SF, W; cbn [SF2R]; unfold F2R; cbn [Fnum Fexp]; rewrite Rmult_comm; f_equal; cbn; lra).
  split; [left; split; [reflexivity|split; [rewrite <- is_finite_SF_B2SF, W; reflexivity|now rewrite VW, V]]|]. split; [vm_compute; reflexivity|].
  assert (Q : B2SF (f_mult half32 (f_add tiny32 tiny32)) = SpecFloat.S754_finite false 1 (-149)) by (vm_compute; reflexivity).
  assert (Q' : B2SF (f_mult half32 tiny32) = SpecFloat.S754_zero false) by (vm_compute; reflexivity).
  split; [rewrite <- is_finite_SF_B2SF, Q; reflexivity|]. rewrite <- !SF2R_B2SF, Q, Q'. split; [reflexivity|]. cbn [SF2R]. apply Rgt_not_eq. apply F2R_gt_0. cbn. lia.
Qed.

Definition scaledb (k : Z) (x y : flt F32) : bool := match B2SF x, B2SF y with
  | SpecFloat.S754_zero _, SpecFloat.S754_zero _ => true
  | SpecFloat.S754_finite s m e, SpecFloat.S754_finite s' m' e' => Bool.eqb s s' && Pos.eqb m m' && Z.eqb e' (e + k)
  | _, _ => false end.
Lemma scaledb_ok k x y : scaledb k x y = true -> scaled F32 k x y.
Proof.
  unfold scaledb. intros H. left. rewrite <- !is_finite_SF_B2SF, <- !SF2R_B2SF. destruct (B2SF x) as [s|s| |s m e], (B2SF y) as [s'|s'| |s' m' e']; try discriminate H.
  - repeat split. cbn. ring.
  - rewrite !andb_true_iff in H. destruct H as [[H1 H2] H3]. apply Bool.eqb_prop in H1. apply Pos.eqb_eq in H2. apply Z.eqb_eq in H3. subst.
    repeat split. cbn [SF2R]. unfold F2R. cbn [Fnum Fexp]. rewrite bpow_plus. ring.
Qed.
Definition prodb (x y : flt F32) : bool := match B2SF x, B2SF y with
  | SpecFloat.S754_zero _, _ | _, SpecFloat.S754_zero _ => true
  | SpecFloat.S754_finite _ _ e, SpecFloat.S754_finite _ _ e' => Z.leb (-126) (e + e')
  | _, _ => false end.
Lemma prodb_ok x y : prodb x y = true -> not_tiny F32 (B2R x * B2R y).
Proof.
  unfold prodb. rewrite <- !SF2R_B2SF. destruct (B2SF x) as [s|s| |s m e], (B2SF y) as [s'|s'| |s' m' e']; intros H; try discriminate H; try (left; cbn [SF2R]; ring).
  right. cbn [SF2R]. rewrite Rabs_mult, <- !F2R_Zabs, !abs_cond_Zopp. unfold F2R. cbn [Fnum Fexp].
  apply Z.leb_le in H. apply Rle_trans with (bpow radix2 e * bpow radix2 e'); [rewrite <- bpow_plus; apply bpow_le; exact H|].
  apply Rmult_le_compat; try apply Rlt_le, bpow_gt_0.
  - rewrite <- (Rmult_1_l (bpow radix2 e)) at 1. apply Rmult_le_compat_r; [apply Rlt_le, bpow_gt_0|]. apply IZR_le. lia.
  - rewrite <- (Rmult_1_l (bpow radix2 e')) at 1. apply Rmult_le_compat_r; [apply Rlt_le, bpow_gt_0|]. apply IZR_le. lia.
Qed.
Lemma unit_case : let v := V3 (f32 1) (f32 2) (f32 3) in let v' := V3 (f32 1024) (f32 2048) (f32 3072) in
  let u := V3 (f32 4) (f32 (-5)) (f32 0) in let u' := V3 (f32 4096) (f32 (-5120)) (f32 0) in
  let a := bx (f32 0) (f32 (-1)) (f32 2) (f32 3) (f32 1) (f32 4) in let a' := bx (f32 0) (f32 (-1024)) (f32 2048) (f32 3072) (f32 1024) (f32 4096) in
  let p := P3 (f32 1) (f32 0) (f32 3) in let p' := P3 (f32 1024) (f32 0) (f32 3072) in let t := f_div (f32 1) (f32 3) in
  (scaled_vec F32 10 v v' /\ scaled_vec F32 10 u u' /\ scaled_box F32 10 a a' /\ scaled_pt F32 10 p p') /\
  ((forall i i', not_tiny F32 (B2R (vcoord i u) * B2R (vcoord i' v))) /\ (forall i i', not_tiny F32 (B2R (vcoord i v) * B2R (vcoord i' v))) /\ (forall i, not_tiny F32 (B2R t * B2R (vcoord i v)))) /\
  (b3_inside_exclusive (f_elem F32) a p = true /\ b3_inside_exclusive (f_elem F32) a' p' = true /\ is_finite t = true).
Proof.
  cbv zeta. split; [split; [|split; [|split; [split|]]]; intros []; apply scaledb_ok; vm_compute; reflexivity|]. split.
  - split; [intros [] []; apply prodb_ok; vm_compute; reflexivity|]. split; [intros [] []; apply prodb_ok; vm_compute; reflexivity|].
    intros []; apply prodb_ok; vm_compute; reflexivity.
  - split; [vm_compute; reflexivity|]. split; vm_compute; reflexivity.
Qed.
Definition halfb (x : flt F32) : bool := match B2SF x with
  | SpecFloat.S754_zero _ => true | SpecFloat.S754_finite _ _ e => Z.leb (-125) e | _ => false end.
Lemma halfb_ok x : halfb x = true -> not_tiny F32 (B2R x / 2).
Proof.
  unfold halfb. rewrite <- !SF2R_B2SF. destruct (B2SF x) as [s|s| |s m e]; intros H; try discriminate H; [left; cbn [SF2R]; field|].
  right. cbn [SF2R]. unfold Rdiv. rewrite Rabs_mult, <- F2R_Zabs, abs_cond_Zopp. rewrite (Rabs_pos_eq (/ 2)) by Lra.lra. unfold F2R. cbn [Fnum Fexp].
  apply Z.leb_le in H. apply Rle_trans with (bpow radix2 (e - 1)); [apply bpow_le; cbn [femax]; lia|].
  unfold Z.sub. rewrite (bpow_plus radix2 e). replace (bpow radix2 (- 1)) with (/ 2) by (cbn; reflexivity).
  apply Rmult_le_compat_r; [Lra.lra|].
  rewrite <- (Rmult_1_l (bpow radix2 e)) at 1. apply Rmult_le_compat_r; [apply Rlt_le, bpow_gt_0|]. apply IZR_le. lia.
Qed.
Lemma unit_case_more : let v := V3 (f32 1) (f32 2) (f32 3) in let v' := V3 (f32 1024) (f32 2048) (f32 3072) in
  let a := bx (f32 0) (f32 (-1)) (f32 2) (f32 3) (f32 1) (f32 4) in let a' := bx (f32 0) (f32 (-1024)) (f32 2048) (f32 3072) (f32 1024) (f32 4096) in
  let p := P3 (f32 1) (f32 0) (f32 3) in let q := P3 (f32 5) (f32 (-7)) (f32 0) in let t := f_div (f32 1) (f32 3) in let d := V3 (f32 3) (f32 2) (f32 2) in
  let M := fun r c => f32 (match r, c with I0, I0 => 2 | I0, I1 => -1 | I1, I1 => 5 | I2, I0 => 3 | I2, I2 => 1 | I3, I3 => 1 | _, _ => 0 end) in
  (scaled F32 10 (f32 1) (f32 1024) /\ bfinite a') /\
  ((forall i i', not_tiny F32 (B2R (vcoord i d) * B2R (vcoord i' d))) /\ not_tiny F32 (B2R (f_mult (vx d) (vy d)) * B2R (vz d)) /\
   omap (fun w => (B2SF (vx w), B2SF (vy w), B2SF (vz w))) (b3_diagonal (f_elem F32) a) = Done (B2SF (vx d), B2SF (vy d), B2SF (vz d))) /\
  (forall i, not_tiny F32 (B2R (f_sub (f_of_int F32 1) t) * B2R (coord i p)) /\ not_tiny F32 (B2R t * B2R (coord i q))) /\
  (forall r c, not_tiny F32 (B2R (M r (match c with AX => I0 | AY => I1 | AZ => I2 end)) * B2R (vcoord c v))) /\
  (forall i, not_tiny F32 (B2R (f_add (coord i (b_min a)) (coord i (b_max a))) / 2)) /\
  (vfinite v' /\ (forall i, Rabs (B2R (vcoord i v')) <= bpow radix2 (femax F32 / 2 - 1)) /\ (exists i, B2R (vcoord i v) <> 0)).
Proof.
  cbv zeta. split; [split; [apply scaledb_ok; vm_compute; reflexivity|split; intros []; vm_compute; reflexivity]|].
  split; [split; [intros [] []; apply prodb_ok; vm_compute; reflexivity|split; [apply prodb_ok; vm_compute; reflexivity|vm_compute; reflexivity]]|].
  split; [intros []; split; apply prodb_ok; vm_compute; reflexivity|].
  split; [intros [] []; apply prodb_ok; vm_compute; reflexivity|].
  split; [intros []; apply halfb_ok; vm_compute; reflexivity|].
  split; [intros []; vm_compute; reflexivity|]. split.
  - intros i. assert (B : B2R (vcoord i (V3 (f32 1024) (f32 2048) (f32 3072))) = match i with AX => 1024 | AY => 2048 | AZ => 3072 end).
    2: { rewrite B. apply Rle_trans with (bpow radix2 12); [|apply bpow_le; vm_compute; discriminate]. change (bpow radix2 12) with 4096. destruct i; rewrite Rabs_pos_eq; Lra.lra. }
    destruct i; cbn [vcoord vx vy vz]; apply (int_correct F32); vm_compute; discriminate.
  - exists AX. cbn [vcoord vx vy vz]. unfold f32. rewrite (proj1 (one_val F32)). Lra.lra.
Qed.
