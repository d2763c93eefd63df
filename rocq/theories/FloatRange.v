(** Proofs about C117: where overflow is impossible. *)
From Coq Require Import ZArith Reals Lia Lra Bool List.
From Flocq Require Import Core.Core IEEE754.BinarySingleNaN.
From Verif Require Import Base Elem FloatInst GeoModel MatModel GeoSpec ArithSpec MatSpec OpsSpec RangeSpec OrderProofs.
From Verif Require Import FloatErrSpec FloatCore FloatThms FloatErr OpsThms.
Import ListNotations.
Local Open Scope mon_scope.
Local Open Scope R_scope.

Section U.
Context (f : fmt).
Notation E := (f_elem f).
Notation B := (flt f).
Notation zero := (f_of_int f 0).
Notation fexp := (SpecFloat.fexp (fprec f) (femax f)).
Notation bp := (bpow radix2).
Notation atmost := (atmost f).

Lemma bp_pos e : 0 < bp e. Proof. apply bpow_gt_0. Qed.
Lemma fmt_small c k : (0 <= c <= 64)%Z -> (0 <= k)%Z -> fmt_real f (IZR c * bp k).
Proof.
  intros Hc Hk. unfold fmt_real. apply generic_format_FLT. exists (Float radix2 c k); cbn [Fnum Fexp]; [reflexivity| |].
  - change (radix2 ^ fprec f)%Z with (2 ^ fprec f)%Z. assert (P : (64 < 2 ^ fprec f)%Z) by (destruct f; reflexivity). lia.
  - unfold SpecFloat.emin. destruct f; cbn; lia.
Qed.
Definition fits (c k : Z) : Prop := (0 <= c <= 64)%Z /\ (0 <= k)%Z /\ IZR c * bp k < big f.
Lemma fits_by c n k : (0 <= c <= 64)%Z -> (0 <= k)%Z -> (0 <= n)%Z -> (c < 2 ^ n)%Z -> (n + k <= femax f)%Z -> fits c k.
Proof.
  intros Hc Hk Hn L H. split; [exact Hc|]. split; [exact Hk|]. unfold big. apply Rlt_le_trans with (bp (n + k)); [|now apply bpow_le].
  rewrite bpow_plus. apply Rmult_lt_compat_r; [apply bp_pos|]. rewrite <- IZR_Zpower by exact Hn. apply IZR_lt. exact L.
Qed.
Lemma rnd_small c k r : fits c k -> Rabs r <= IZR c * bp k -> Rabs (rnd f r) <= IZR c * bp k.
Proof.
  intros (Hc & Hk & _) H. unfold rnd. apply abs_round_le_generic; [apply fexp_valid|apply valid_rnd_N|apply fmt_small; auto|exact H].
Qed.
Lemma from_key (z : B) c k r : fits c k -> Rabs r <= IZR c * bp k ->
  is_nan z = false /\ key f z = sat f (rnd f r) /\ is_finite z = Rlt_bool (Rabs (rnd f r)) (big f) -> atmost c k z.
Proof.
  intros F H (_ & K & Q). pose proof (rnd_small _ _ _ F H) as L. assert (L' : Rabs (rnd f r) < big f) by (eapply Rle_lt_trans; [exact L|apply F]).
  rewrite (Rlt_bool_true _ _ L') in Q. split; [exact Q|]. rewrite <- (key_finite f z Q), K, sat_in by exact L'. exact L.
Qed.
Lemma add_am c d k (x y : B) : atmost c k x -> atmost d k y -> fits (c + d) k -> atmost (c + d) k (f_add x y).
Proof.
  intros [Fx Hx] [Fy Hy] F. eapply from_key; [exact F| |apply add_key; auto]. rewrite plus_IZR.
  pose proof (Rabs_triang (B2R x) (B2R y)). lra.
Qed.
Lemma sub_am c d k (x y : B) : atmost c k x -> atmost d k y -> fits (c + d) k -> atmost (c + d) k (f_sub x y).
Proof.
  intros [Fx Hx] [Fy Hy] F. eapply from_key; [exact F| |apply sub_key; auto]. rewrite plus_IZR.
  pose proof (Rabs_triang (B2R x) (- B2R y)) as T. rewrite Rabs_Ropp in T. unfold Rminus. lra.
Qed.
Lemma mul_am c d j k (x y : B) : atmost c j x -> atmost d k y -> fits (c * d) (j + k) -> atmost (c * d) (j + k) (f_mult x y).
Proof.
  intros [Fx Hx] [Fy Hy] F. eapply from_key; [exact F| |apply mult_key; auto]. rewrite mult_IZR, bpow_plus, Rabs_mult.
  replace (IZR c * IZR d * (bp j * bp k)) with ((IZR c * bp j) * (IZR d * bp k)) by ring. apply Rmult_le_compat; auto using Rabs_pos.
Qed.
Lemma am_le c d k (x : B) : (c <= d)%Z -> atmost c k x -> atmost d k x.
Proof. intros L [F H]. split; auto. eapply Rle_trans; [exact H|]. apply Rmult_le_compat_r; [apply Rlt_le, bp_pos|]. now apply IZR_le. Qed.
Lemma am_up c j k (x : B) : (0 <= c)%Z -> (j <= k)%Z -> atmost c j x -> atmost c k x.
Proof. intros Hc L [F H]. split; auto. eapply Rle_trans; [exact H|]. apply Rmult_le_compat_l; [now apply IZR_le|]. now apply bpow_le. Qed.
Lemma opp_am c k (x : B) : atmost c k x -> atmost c k (Bopp x).
Proof. intros [F H]. split; [now rewrite is_finite_Bopp|]. now rewrite B2R_Bopp, Rabs_Ropp. Qed.
Lemma half_am c k (x : B) : fits c k -> atmost (2 * c) k x -> atmost c k (f_div x (f_of_int f 2)).
Proof.
  intros F [Fx Hx]. destruct (two_val f) as [T FT]. eapply from_key; [exact F| |apply div_key; auto; rewrite T; lra].
  rewrite T. unfold Rdiv. rewrite Rabs_mult, (Rabs_pos_eq (/ 2)) by lra. rewrite mult_IZR in Hx. lra.
Qed.
Lemma sqrt_am c k (x : B) : fits c k -> atmost (c * c) (k + k) x -> fnn f x -> atmost c k (Bsqrt mode_NE x).
Proof.
  intros F [Fx Hx] P. pose proof (Bsqrt_correct _ _ (fprec_gt_0 f) (fprec_lt_emax f) mode_NE x) as (HR & HF & _).
  assert (P0 : 0 <= B2R x) by (destruct P as [_ P]; now rewrite key_finite in P).
  assert (Q : is_finite (Bsqrt mode_NE x) = true).
  { rewrite HF. destruct x as [s|s| |[] m e Hb]; auto. exfalso. cbn in P0. assert (F2R (Float radix2 (Z.neg m) e) < 0) by (apply F2R_lt_0; reflexivity). cbn in *; lra. }
  split; [exact Q|]. rewrite HR. change (Rabs (rnd f (sqrt (B2R x))) <= IZR c * bp k). apply rnd_small; [exact F|].
  rewrite Rabs_pos_eq by apply sqrt_pos. rewrite (Rabs_pos_eq _ P0), mult_IZR, bpow_plus in Hx.
  assert (N : 0 <= IZR c * bp k) by (apply Rmult_le_pos; [apply IZR_le, F|apply Rlt_le, bp_pos]).
  rewrite <- (sqrt_square (IZR c * bp k)) by exact N. apply sqrt_le_1_alt. lra.
Qed.

(** ** Sums *)
Lemma sums_range k (p q : Point3 B) (u v : Vector3 B) (b : Bounds3 B) (d : B) : (0 <= k)%Z -> (k + 2 <= femax f)%Z ->
  atmost_pt f 1 k p -> atmost_pt f 1 k q -> atmost_vec f 1 k u -> atmost_vec f 1 k v -> atmost_box f 1 k b -> atmost 1 k d ->
  (gives (atmost_pt f 2 k) (p3_add E p v) /\ gives (atmost_pt f 2 k) (p3_sub_v E p v) /\ gives (atmost_vec f 2 k) (p3_sub E p q)) /\
  (gives (atmost_vec f 2 k) (v3_add E u v) /\ gives (atmost_vec f 2 k) (v3_sub E u v)) /\
  (gives (atmost_box f 2 k) (b3_expand E b d) /\ gives (atmost_vec f 2 k) (b3_diagonal E b)).
Proof.
  intros Hk L Hp Hq Hu Hv [H1 H2] Hd. assert (F : fits (1 + 1) k) by (apply (fits_by _ 2); lia).
  assert (A : forall x y : B, atmost 1 k x -> atmost 1 k y -> atmost 2 k (f_add x y)) by (intros; now apply (add_am 1 1)).
  assert (S : forall x y : B, atmost 1 k x -> atmost 1 k y -> atmost 2 k (f_sub x y)) by (intros; now apply (sub_am 1 1)).
  assert (MM : forall x y : B, atmost 2 k x -> atmost 2 k y -> atmost 2 k (if Bltb x y then x else y)) by (intros x y; destruct (Bltb x y); auto).
  split; [split; [|split]|split; split].
  1-5: eexists; (split; [reflexivity|]); intros i; pose proof (Hp i); pose proof (Hq i); pose proof (Hu i); pose proof (Hv i); destruct i; (apply A || apply S); assumption.
  - eexists. split; [reflexivity|]. split; intros i; pose proof (H1 i); pose proof (H2 i); destruct i; cbn;
      match goal with |- context [Bltb ?a ?b] => destruct (Bltb a b) end; (apply A || apply S); assumption.
  - eexists. split; [reflexivity|]. intros i; pose proof (H1 i); pose proof (H2 i); destruct i; apply S; assumption.
Qed.
(** ** Products *)
Lemma prod3_am j k (a b c x y z : B) : (0 <= j)%Z -> (0 <= k)%Z -> (j + k + 2 <= femax f)%Z ->
  atmost 1 j a -> atmost 1 j b -> atmost 1 j c -> atmost 1 k x -> atmost 1 k y -> atmost 1 k z ->
  atmost 3 (j + k) (f_add (f_add (f_mult a x) (f_mult b y)) (f_mult c z)).
Proof.
  intros Hj Hk L. intros. assert (F1 : fits (1 * 1) (j + k)) by (apply (fits_by _ 1); lia). assert (F2 : fits (1 + 1) (j + k)) by (apply (fits_by _ 2); lia).
  assert (F3 : fits (2 + 1) (j + k)) by (apply (fits_by _ 2); lia).
  apply (add_am 2 1); auto; [apply (add_am 1 1); auto|]; now apply (mul_am 1 1).
Qed.
Lemma products_range j k (u v : Vector3 B) : (0 <= j)%Z -> (0 <= k)%Z -> (j + k + 2 <= femax f)%Z -> atmost_vec f 1 j u -> atmost_vec f 1 k v ->
  gives (atmost 3 (j + k)) (v3_dot E u v) /\ gives (atmost_vec f 2 (j + k)) (v3_cross E u v).
Proof.
  intros Hj Hk L Hu Hv. assert (F1 : fits (1 * 1) (j + k)) by (apply (fits_by _ 1); lia). assert (F2 : fits (1 + 1) (j + k)) by (apply (fits_by _ 2); lia).
  split; eexists; (split; [reflexivity|]).
  - apply prod3_am; auto; [apply (Hu AX)|apply (Hu AY)|apply (Hu AZ)|apply (Hv AX)|apply (Hv AY)|apply (Hv AZ)].
  - pose proof (Hu AX). pose proof (Hu AY). pose proof (Hu AZ). pose proof (Hv AX). pose proof (Hv AY). pose proof (Hv AZ).
    intros []; apply (sub_am 1 1); auto; apply (mul_am 1 1); auto.
Qed.
Lemma fin_nn (x : B) : is_finite x = true -> is_nan x = false. Proof. apply fin_nan. Qed.
Lemma length_range k (v : Vector3 B) : (0 <= k)%Z -> (2 * k + 2 <= femax f)%Z -> atmost_vec f 1 k v ->
  gives (atmost 3 (2 * k)) (v3_len_sq E v) /\ gives (atmost 2 k) (v3_len (f_float f) E (fun x => x) v).
Proof.
  intros Hk L Hv. replace (2 * k)%Z with (k + k)%Z in * by lia.
  assert (S : atmost 3 (k + k) (f_add (f_add (f_mult (vx v) (vx v)) (f_mult (vy v) (vy v))) (f_mult (vz v) (vz v)))).
  { apply prod3_am; auto; apply (Hv AX) || apply (Hv AY) || apply (Hv AZ). }
  split; eexists; (split; [reflexivity|]); [exact S|]. apply sqrt_am; [apply (fits_by _ 2); lia|now apply (am_le 3)|].
  apply fnn_add; [apply fnn_add|]; apply fnn_sq, fin_nan; [apply (Hv AX)|apply (Hv AY)|apply (Hv AZ)].
Qed.
Lemma measures_range k (b : Bounds3 B) : (0 <= k)%Z -> atmost_box f 1 k b ->
  ((2 * k + 5 <= femax f)%Z -> gives (atmost 24 (2 * k)) (b3_surface_area E b)) /\
  ((3 * k + 4 <= femax f)%Z -> gives (atmost 8 (3 * k)) (b3_volume E b)).
Proof.
  intros Hk [H1 H2].
  assert (D : (k + 2 <= femax f)%Z -> forall i, atmost 2 k (f_sub (coord i (b_max b)) (coord i (b_min b)))).
  { intros L i. apply (sub_am 1 1); auto. apply (fits_by _ 2); lia. }
  split; intros L; eexists; (split; [reflexivity|]); assert (L2 : (k + 2 <= femax f)%Z) by lia; pose proof (D L2 AX) as DX; pose proof (D L2 AY) as DY; pose proof (D L2 AZ) as DZ.
  - replace (2 * k)%Z with (0 + (k + k))%Z by lia. apply (mul_am 2 12 0); [| |apply (fits_by _ 5); lia].
    + change (atmost 2 0 (f_of_int f 2)). destruct (two_val f) as [T FT]. split; [exact FT|]. rewrite T, Rabs_pos_eq by lra. cbn. lra.
    + assert (F4 : fits (2 * 2) (k + k)) by (apply (fits_by _ 3); lia). apply (add_am 8 4); [apply (add_am 4 4)| |]; try (apply (fits_by _ 4); lia); now apply (mul_am 2 2).
  - replace (3 * k)%Z with (k + k + k)%Z by lia. apply (mul_am 4 2); [apply (mul_am 2 2)| |]; auto; first [apply (fits_by _ 3); lia|apply (fits_by _ 4); lia].
Qed.
Lemma sphere_range k (b : Bounds3 B) : (0 <= k)%Z -> (2 * k + 4 <= femax f)%Z -> atmost_box f 1 k b ->
  gives (fun s => atmost_pt f 1 k (fst s) /\ atmost 4 k (snd s)) (bounding_sphere (f_float f) b).
Proof.
  intros Hk L [H1 H2]. assert (F1 : fits 1 k) by (apply (fits_by _ 1); lia). assert (F2 : fits (1 + 1) k) by (apply (fits_by _ 2); lia).
  set (ce := fun i => f_div (f_add (coord i (b_min b)) (coord i (b_max b))) (f_of_int f 2)).
  assert (C : forall i, atmost 1 k (ce i)) by (intros i; apply half_am; auto; now apply (add_am 1 1)).
  set (di := fun i => f_sub (ce i) (coord i (b_max b))). assert (D : forall i, atmost 2 k (di i)) by (intros i; apply (sub_am 1 1); auto).
  set (sq := f_add (f_add (f_mult (di AX) (di AX)) (f_mult (di AY) (di AY))) (f_mult (di AZ) (di AZ))).
  assert (Q : atmost 12 (k + k) sq).
  { assert (F4 : fits (2 * 2) (k + k)) by (apply (fits_by _ 3); lia). apply (add_am 8 4); [apply (add_am 4 4)| |]; try (apply (fits_by _ 4); lia); now apply (mul_am 2 2). }
  exists (P3 (ce AX) (ce AY) (ce AZ), if b3_inside E b (P3 (ce AX) (ce AY) (ce AZ)) then Bsqrt mode_NE sq else zero). split.
  - unfold bounding_sphere. cbn [p3_add p3_div mk3 obind lift2 e_add e_div e_from_int f_float fl_elem f_elem px py pz v3_from_p3 vx vy vz].
    change (fl_elem (f_float f)) with E. fold (ce AX) (ce AY) (ce AZ). cbv beta.
    match goal with |- context [b3_inside ?a ?b ?c] => change (b3_inside a b c) with (b3_inside E b (P3 (ce AX) (ce AY) (ce AZ))) end.
    destruct (b3_inside E b (P3 (ce AX) (ce AY) (ce AZ))); reflexivity.
  - split; [intros []; apply C|]. cbn [snd]. destruct (b3_inside _ _ _).
    + apply sqrt_am; [apply (fits_by _ 3); lia|now apply (am_le 12)|]. apply fnn_add; [apply fnn_add|]; apply fnn_sq, fin_nan, D.
    + destruct (zero_val f) as [Z0 FZ]. split; [exact FZ|]. rewrite Z0, Rabs_R0. pose proof (bp_pos k). lra.
Qed.
(** ** Multiples, rays, matrices *)
Lemma multiples_range j k (v : Vector3 B) (r : Ray B) (rd : RayDifferential B) (t : B) : (0 <= j)%Z -> (0 <= k)%Z -> (j + k + 2 <= femax f)%Z -> atmost 1 j t ->
  (atmost_vec f 1 k v -> gives (atmost_vec f 1 (j + k)) (v3_mul E v t)) /\
  (atmost_pt f 1 k (r_o r) -> atmost_vec f 1 k (r_d r) -> gives (atmost_pt f 2 (j + k)) (ray_at (f_float f) r t)) /\
  (atmost_pt f 1 k (r_o (rd_ray rd)) -> atmost_vec f 1 k (r_d (rd_ray rd)) -> atmost_pt f 1 k (rx_origin rd) -> atmost_pt f 1 k (ry_origin rd) ->
    atmost_vec f 1 k (rx_direction rd) -> atmost_vec f 1 k (ry_direction rd) ->
    gives (fun s => atmost_pt f 3 (j + k) (rx_origin s) /\ atmost_pt f 3 (j + k) (ry_origin s) /\
      atmost_vec f 3 (j + k) (rx_direction s) /\ atmost_vec f 3 (j + k) (ry_direction s)) (rd_scale (f_float f) rd t)).
Proof.
  intros Hj Hk L Ht. assert (F1 : fits (1 * 1) (j + k)) by (apply (fits_by _ 1); lia). assert (F2 : fits (1 + 1) (j + k)) by (apply (fits_by _ 2); lia).
  assert (F2k : fits (1 + 1) k) by (apply (fits_by _ 2); lia). assert (F2m : fits (1 * 2) (j + k)) by (apply (fits_by _ 2); lia).
  assert (F3 : fits (1 + 2) (j + k)) by (apply (fits_by _ 2); lia).
  assert (U : forall x : B, atmost 1 k x -> atmost 1 (j + k) x) by (intros x; apply am_up; lia).
  split; [|split].
  - intros Hv. eexists. split; [reflexivity|]. intros i. pose proof (Hv i). destruct i; now apply (mul_am 1 1).
  - intros Ho Hd. eexists. split; [reflexivity|]. intros i. pose proof (Ho i). pose proof (Hd i). destruct i; apply (add_am 1 1); auto; now apply (mul_am 1 1).
  - intros Ho Hd X1 X2 Y1 Y2. eexists. split; [reflexivity|]. cbn [rx_origin ry_origin rx_direction ry_direction].
    split; [|split; [|split]]; intros i; pose proof (Ho i); pose proof (Hd i); pose proof (X1 i); pose proof (X2 i); pose proof (Y1 i); pose proof (Y2 i);
      destruct i; (apply (add_am 1 2); auto; apply (mul_am 1 2); auto; now apply (sub_am 1 1)).
Qed.
Lemma matrices_range j k (a b : Matrix4 B) (v : Vector3 B) : (0 <= j)%Z -> (0 <= k)%Z -> (j + k + 3 <= femax f)%Z -> atmost_mat f 1 j a -> atmost_mat f 1 k b -> atmost_vec f 1 k v ->
  gives (atmost_mat f 4 (j + k)) (m4_mul E a b) /\ gives (atmost_mat f 2 (j + k)) (m4_add E a b) /\
  forall ai, gives (atmost_vec f 3 (j + k)) (v3_transform (f_float f) (fun x => x) v (mkT a ai)).
Proof.
  intros Hj Hk L Ha Hb Hv. assert (F : forall c, (0 <= c <= 4)%Z -> fits c (j + k)) by (intros c Hc; apply (fits_by _ 3); lia).
  assert (Z0 : atmost 0 (j + k) zero).
  { destruct (zero_val f) as [Z0 FZ]. split; [exact FZ|]. rewrite Z0, Rabs_R0. lra. }
  split; [|split].
  - eexists. split; [reflexivity|]. intros r s.
    apply (am_le (0 + 1 + 1 + 1 + 1)); [lia|]. pose proof (F (1 * 1)%Z ltac:(lia)).
    assert (G : atmost (0 + 1 + 1 + 1 + 1) (j + k) (f_add (f_add (f_add (f_add zero (f_mult (mget a r I0) (mget b I0 s))) (f_mult (mget a r I1) (mget b I1 s)))
      (f_mult (mget a r I2) (mget b I2 s))) (f_mult (mget a r I3) (mget b I3 s)))).
    { repeat apply add_am; try (apply F; lia); auto; now apply (mul_am 1 1). }
    destruct r, s; exact G.
  - eexists. split; [reflexivity|]. intros r s. assert (G : atmost (1 + 1) (j + k) (f_add (mget a r s) (mget b r s))).
    { apply add_am; [apply (am_up 1 j); auto; lia|apply (am_up 1 k); auto; lia|apply F; lia]. }
    destruct r, s; exact G.
  - intros ai. eexists. split; [reflexivity|]. intros i.
    assert (G : forall r, atmost 3 (j + k) (f_add (f_add (f_mult (mget a r I0) (vx v)) (f_mult (mget a r I1) (vy v))) (f_mult (mget a r I2) (vz v)))).
    { intros r. apply prod3_am; auto; [lia|apply (Hv AX)|apply (Hv AY)|apply (Hv AZ)]. }
    destruct i; apply G.
Qed.
End U.

(** ** Cases *)
Definition amb (c k : Z) (x : flt F32) : bool := match B2SF x with
  | SpecFloat.S754_zero _ => Z.leb 0 c
  | SpecFloat.S754_finite _ m e => Z.leb 0 (e + 200) && Z.leb 0 (k + 200) && Z.leb (Z.pos m * 2 ^ (e + 200)) (c * 2 ^ (k + 200))
  | _ => false end.
Lemma amb_ok c k x : amb c k x = true -> atmost F32 c k x.
Proof.
  unfold amb, atmost. rewrite <- !is_finite_SF_B2SF, <- !SF2R_B2SF. destruct (B2SF x) as [s|s| |s m e]; intros H; try discriminate H.
  - split; [reflexivity|]. cbn [SF2R]. rewrite Rabs_R0. apply Rmult_le_pos; [apply IZR_le; now apply Z.leb_le|apply Rlt_le, bpow_gt_0].
  - rewrite !andb_true_iff, !Z.leb_le in H. destruct H as [[H1 H2] H3]. split; [reflexivity|]. cbn [SF2R]. rewrite <- F2R_Zabs, abs_cond_Zopp. unfold F2R. cbn [Fnum Fexp Z.abs].
    apply IZR_le in H3. rewrite !mult_IZR in H3. change (2 ^ (e + 200))%Z with (radix2 ^ (e + 200))%Z in H3. change (2 ^ (k + 200))%Z with (radix2 ^ (k + 200))%Z in H3.
    rewrite !IZR_Zpower, !bpow_plus in H3 by assumption. pose proof (bpow_gt_0 radix2 200). nra.
Qed.
Lemma range_cases :
  (exists u v : Vector3 (flt F32), atmost_vec F32 1 63 u /\ atmost_vec F32 1 64 v /\ omap B2SF (v3_dot (f_elem F32) u v) = Done (SpecFloat.S754_infinity false)) /\
  (exists u v : Vector3 (flt F32), atmost_vec F32 1 64 u /\ atmost_vec F32 1 64 v /\ omap B2SF (v3_dot (f_elem F32) u v) = Done SpecFloat.S754_nan) /\
  (exists v : Vector3 (flt F32), atmost_vec F32 1 64 v /\ omap B2SF (v3_len (f_float F32) (f_elem F32) (fun x => x) v) = Done (SpecFloat.S754_infinity false)) /\
  (exists b : Bounds3 (flt F32), atmost_box F32 1 62 b /\ omap B2SF (b3_surface_area (f_elem F32) b) = Done (SpecFloat.S754_infinity false)) /\
  (exists b : Bounds3 (flt F32), atmost_box F32 1 42 b /\ omap B2SF (b3_volume (f_elem F32) b) = Done (SpecFloat.S754_infinity false)) /\
  (exists a b : Matrix4 (flt F32), atmost_mat F32 1 63 a /\ atmost_mat F32 1 63 b /\ omap (fun m => B2SF (mget m I0 I0)) (m4_mul (f_elem F32) a b) = Done (SpecFloat.S754_infinity false)).
Proof.
  set (p := fun n => f32 (2 ^ n)). set (m := fun n => f32 (- 2 ^ n)). set (o := f32 0).
  split; [exists (V3 (p 63%Z) (p 63%Z) (p 63%Z)), (V3 (p 64%Z) (p 64%Z) (p 64%Z))|split; [exists (V3 (p 64%Z) (p 64%Z) o), (V3 (p 64%Z) (m 64%Z) o)|split;
    [exists (V3 (p 64%Z) o o)|split; [exists (bx (m 62%Z) (m 62%Z) (m 62%Z) (p 62%Z) (p 62%Z) (p 62%Z))|split; [exists (bx (m 42%Z) (m 42%Z) (m 42%Z) (p 42%Z) (p 42%Z) (p 42%Z))|
    exists (vconst (vconst (p 63%Z))), (vconst (vconst (p 63%Z)))]]]]]; repeat match goal with |- _ /\ _ => split end.
  all: lazymatch goal with
    | |- omap _ _ = _ => vm_compute; reflexivity
    | |- atmost_mat _ _ _ _ => intros [] []; apply amb_ok; vm_compute; reflexivity
    | |- atmost_vec _ _ _ _ => intros []; apply amb_ok; vm_compute; reflexivity
    | |- atmost_box _ _ _ _ => split; intros []; apply amb_ok; vm_compute; reflexivity
    end.
Qed.
Lemma range_case : let v := V3 (f32 3) (f_div (f32 1) (f32 3)) (f32 (-2 ^ 61)) in let a := bx (f32 0) (f32 (-100)) (f32 2) (f32 (2 ^ 41)) (f32 7) (f32 5) in
  let m := W4 (W4 (f32 2) (f32 0) (f32 (-7)) (f32 (2 ^ 60))) (vconst (f32 1)) (vconst (f32 0)) (vconst (f32 100)) in
  (atmost_vec F32 1 61 v /\ atmost_box F32 1 41 a /\ atmost_mat F32 1 61 m /\ atmost F32 1 61 (vz v)) /\
  (2 * 61 + 5 <= femax F32 /\ 2 * 61 + 4 <= femax F32 /\ 61 + 61 + 3 <= femax F32 /\ 3 * 41 + 4 <= femax F32)%Z.
Proof.
  cbv zeta. split; [|cbn; lia]. split; [intros []; apply amb_ok; vm_compute; reflexivity|].
  split; [split; intros []; apply amb_ok; vm_compute; reflexivity|]. split; [intros [] []; apply amb_ok; vm_compute; reflexivity|].
  apply amb_ok; vm_compute; reflexivity.
Qed.
