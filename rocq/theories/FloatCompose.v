(** Proofs about C88: products of translations and of scalings in floats. *)
From Coq Require Import ZArith Reals Lia Lra.
From Flocq Require Import Core.Core IEEE754.BinarySingleNaN.
From Verif Require Import Base Elem FloatInst GeoModel MatModel GeoSpec ArithSpec MatSpec OpsSpec OrderProofs MatThms InvThms FloatCore FloatThms.
Local Open Scope mon_scope.
Local Open Scope R_scope.

Section C.
Context (f : fmt).
Notation E := (f_elem f).
Notation one := (f_of_int f 1).
Notation zero := (f_of_int f 0).
Lemma add_z (x y : flt f) s : isv f x s -> isv f y 0 -> isv f (f_add x y) s.
Proof. intros [FX <-] Y. replace (B2R x) with (B2R x + 0) by ring. apply isv_add; [now split|assumption|rewrite Rplus_0_r; apply fmt_B|rewrite Rplus_0_r; apply B2R_big]. Qed.
Lemma z_add (x y : flt f) s : isv f x 0 -> isv f y s -> isv f (f_add x y) s.
Proof. intros X [FY <-]. replace (B2R y) with (0 + B2R y) by ring. apply isv_add; [assumption|now split|rewrite Rplus_0_l; apply fmt_B|rewrite Rplus_0_l; apply B2R_big]. Qed.
Lemma one_times (x : flt f) : is_finite x = true -> isv f (f_mult one x) (B2R x).
Proof. intros Fx. rewrite mult_1_l by assumption. now split. Qed.
Lemma times_one (x : flt f) : is_finite x = true -> isv f (f_mult x one) (B2R x).
Proof. intros Fx. rewrite mult_1_r by assumption. now split. Qed.
Lemma zero_times (x : flt f) r : isv f x r -> isv f (f_mult zero x) 0.
Proof. intros H. rewrite <- (Rmult_0_l r). apply isv_mult; [apply isv_zero|assumption|rewrite Rmult_0_l; apply fmt_0|rewrite Rmult_0_l; apply big_0]. Qed.
Lemma times_zero (x : flt f) r : isv f x r -> isv f (f_mult x zero) 0.
Proof. intros H. rewrite <- (Rmult_0_r r). apply isv_mult; [assumption|apply isv_zero|rewrite Rmult_0_r; apply fmt_0|rewrite Rmult_0_r; apply big_0]. Qed.
(** Equal operands give equal sums and products, infinite ones included. *)
Lemma add_same (x y x' y' : flt f) r s : isv f x r -> isv f y s -> isv f x' s -> isv f y' r -> Beqb (f_add x y) (f_add x' y') = true.
Proof.
  intros [F1 V1] [F2 V2] [F3 V3] [F4 V4]. destruct (add_key f x y F1 F2) as (N1 & K1 & _). destruct (add_key f x' y' F3 F4) as (N2 & K2 & _).
  apply eqb_key. split; [exact N1|]. split; [exact N2|]. rewrite K1, K2, V1, V2, V3, V4. f_equal. f_equal. ring.
Qed.
Lemma eqb_refl_num (x : flt f) : is_nan x = false -> Beqb x x = true.
Proof. intros H. apply eqb_key. auto. Qed.
Definition TM (v : Vector3 (flt f)) : Matrix4 (flt f) :=
  W4 (W4 one zero zero (vx v)) (W4 zero one zero (vy v)) (W4 zero zero one (vz v)) (W4 zero zero zero one).
Lemma tm_product (u v : Vector3 (flt f)) : vfinite u -> vfinite v -> exists p, m4_mul E (TM u) (TM v) = Done p /\
  forall w, (forall i x y, isv f x (B2R (vcoord i v)) -> isv f y (B2R (vcoord i u)) -> Beqb (f_add x y) (vcoord i w) = true) ->
    m4_eq E p (TM w) = true.
Proof.
  intros Hu Hv.
  pose proof (Hu AX) as Ux. pose proof (Hu AY) as Uy. pose proof (Hu AZ) as Uz.
  pose proof (Hv AX) as Vx. pose proof (Hv AY) as Vy. pose proof (Hv AZ) as Vz. cbn [vcoord] in *.
  eexists. split; [rewrite mul_fill; apply fill_done; intros r c; apply cell_float|].
  intros w Hw. pose proof (Hw AX) as Wx. pose proof (Hw AY) as Wy. pose proof (Hw AZ) as Wz. cbn [vcoord] in *. clear Hw.
  apply m4_eq_iff. intros r c. rewrite mget_mkm. cbv zeta.
  assert (I1 : isv f one 1) by apply isv_one. assert (I0' : isv f zero 0) by apply isv_zero.
  assert (F1 : is_finite one = true) by apply isv_one. assert (F0 : is_finite zero = true) by apply isv_zero.
  assert (O1 : isv f (f_mult one one) 1) by (rewrite mult_1_l by exact F1; exact I1).
  assert (O2 : isv f (f_mult one zero) 0) by (rewrite mult_1_l by exact F0; exact I0').
  assert (Zt : forall x, is_finite x = true -> isv f (f_mult zero x) 0) by (intros x Fx; apply (zero_times x (B2R x)); now split).
  assert (tZ : forall x, is_finite x = true -> isv f (f_mult x zero) 0) by (intros x Fx; apply (times_zero x (B2R x)); now split).
  assert (OT : forall x, is_finite x = true -> isv f (f_mult one x) (B2R x)) by apply one_times.
  assert (TO : forall x, is_finite x = true -> isv f (f_mult x one) (B2R x)) by apply times_one.
  destruct r, c; cbn [TM mget vget w0 w1 w2 w3 e_eq f_elem];
    first [ apply (isv_eqb f _ _ 1); [|exact I1]; repeat first [ exact I1 | exact I0' | now apply O1 | apply z_add; [now repeat first [exact I0'|exact O2|apply Zt|apply tZ|apply z_add]|] | apply add_z ]; now auto
          | apply (isv_eqb f _ _ 0); [|exact I0']; now repeat first [exact I0'|exact O2|apply Zt|apply tZ|apply z_add]
          | idtac ].
  - apply Wx; [|now apply TO]. apply add_z; [|now apply Zt]. apply add_z; [|now apply Zt]. apply z_add; [exact I0'|now apply OT].
  - apply Wy; [|now apply TO]. apply add_z; [|now apply Zt]. apply z_add; [apply z_add; [exact I0'|now apply Zt]|now apply OT].
  - apply Wz; [|now apply TO]. apply z_add; [|now apply OT]. apply z_add; [apply z_add; [exact I0'|now apply Zt]|now apply Zt].
Qed.
Lemma opp_sum (x y a b : flt f) : is_finite a = true -> is_finite b = true -> isv f x (- B2R a) -> isv f y (- B2R b) ->
  Beqb (f_add x y) (Bopp (f_add a b)) = true.
Proof.
  intros Fa Fb [Fx Vx] [Fy Vy]. destruct (add_key f x y Fx Fy) as (N1 & K1 & _). destruct (add_key f a b Fa Fb) as (N2 & K2 & _).
  apply eqb_key. split; [exact N1|]. split; [now rewrite is_nan_Bopp|]. rewrite K1, key_opp, K2, Vx, Vy.
  replace (- B2R a + - B2R b) with (- (B2R a + B2R b)) by ring. rewrite rnd_opp. apply sat_opp.
Qed.
Lemma translate_product (a b : Vector3 (flt f)) : vfinite a -> vfinite b -> exists ta tb s ts,
  t_translate (f_float f) a = Done ta /\ t_translate (f_float f) b = Done tb /\
  v3_add E a b = Done s /\ t_translate (f_float f) s = Done ts /\
  (exists p, m4_mul E (t_m ta) (t_m tb) = Done p /\ m4_eq E p (t_m ts) = true) /\
  (exists q, m4_mul E (t_inv tb) (t_inv ta) = Done q /\ m4_eq E q (t_inv ts) = true).
Proof.
  intros Ha Hb. do 4 eexists. do 4 (split; [reflexivity|]). cbn [t_m t_inv vx vy vz]. split.
  - destruct (tm_product a b Ha Hb) as (p & Ep & H). exists p. split; [exact Ep|].
    apply (H (V3 (f_add (vx a) (vx b)) (f_add (vy a) (vy b)) (f_add (vz a) (vz b)))). intros i x y Hx Hy.
    assert (G : forall u v, is_finite u = true -> is_finite v = true -> isv f x (B2R v) -> isv f y (B2R u) -> Beqb (f_add x y) (f_add u v) = true).
    { intros u v Fu Fv Ix Iy. apply (add_same x y u v (B2R v) (B2R u)); try assumption; now split. }
    destruct i; cbn [vcoord vx vy vz] in *; apply G; first [exact (Ha AX)|exact (Ha AY)|exact (Ha AZ)|exact (Hb AX)|exact (Hb AY)|exact (Hb AZ)|assumption].
  - destruct (tm_product (V3 (Bopp (vx b)) (Bopp (vy b)) (Bopp (vz b))) (V3 (Bopp (vx a)) (Bopp (vy a)) (Bopp (vz a)))) as (q & Eq & H).
    + intros []; cbn [vcoord vx vy vz]; rewrite is_finite_Bopp; first [exact (Hb AX)|exact (Hb AY)|exact (Hb AZ)].
    + intros []; cbn [vcoord vx vy vz]; rewrite is_finite_Bopp; first [exact (Ha AX)|exact (Ha AY)|exact (Ha AZ)].
    + exists q. split; [exact Eq|]. apply (H (V3 (Bopp (f_add (vx a) (vx b))) (Bopp (f_add (vy a) (vy b))) (Bopp (f_add (vz a) (vz b))))).
      intros i x y Hx Hy. destruct i; cbn [vcoord vx vy vz] in *; rewrite B2R_Bopp in Hx, Hy;
        (apply opp_sum; first [exact (Ha AX)|exact (Ha AY)|exact (Ha AZ)|exact (Hb AX)|exact (Hb AY)|exact (Hb AZ)|assumption]).
Qed.
(** Scalings. *)
Lemma mult_same (x y x' y' : flt f) r s : isv f x r -> isv f y s -> isv f x' r -> isv f y' s -> Beqb (f_mult x y) (f_mult x' y') = true.
Proof.
  intros [F1 V1] [F2 V2] [F3 V3] [F4 V4]. destruct (mult_key f x y F1 F2) as (N1 & K1 & _). destruct (mult_key f x' y' F3 F4) as (N2 & K2 & _).
  apply eqb_key. split; [exact N1|]. split; [exact N2|]. now rewrite K1, K2, V1, V2, V3, V4.
Qed.
Lemma eqb_add_z (x y z : flt f) : isv f y 0 -> Beqb x z = true -> Beqb (f_add x y) z = true.
Proof.
  intros Y X. destruct (is_finite x) eqn:Fx.
  - apply eqb_key in X as (N1 & N2 & K). destruct (add_z x y (B2R x) ltac:(now split) Y) as [F V].
    apply eqb_key. split; [now apply fin_nan|]. split; [exact N2|]. rewrite <- K, !key_finite by assumption. exact V.
  - destruct Y as [FY VY]. destruct x as [| | |]; try discriminate Fx; [destruct y; try discriminate FY; exact X|].
    apply eqb_key in X as (N1 & _). discriminate N1.
Qed.
Lemma eqb_z_add (x y z : flt f) : isv f x 0 -> Beqb y z = true -> Beqb (f_add x y) z = true.
Proof.
  intros Y X. destruct (is_finite y) eqn:Fx.
  - apply eqb_key in X as (N1 & N2 & K). destruct (z_add x y (B2R y) Y ltac:(now split)) as [F V].
    apply eqb_key. split; [now apply fin_nan|]. split; [exact N2|]. rewrite <- K, !key_finite by assumption. exact V.
  - destruct Y as [FY VY]. destruct y as [| | |]; try discriminate Fx; [destruct x; try discriminate FY; exact X|].
    apply eqb_key in X as (N1 & _). discriminate N1.
Qed.
Lemma scale_product (a b : Vector3 (flt f)) : vfinite a -> vfinite b -> exists ta tb ts,
  t_scale (f_float f) (vx a) (vy a) (vz a) = Done ta /\ t_scale (f_float f) (vx b) (vy b) (vz b) = Done tb /\
  t_scale (f_float f) (f_mult (vx a) (vx b)) (f_mult (vy a) (vy b)) (f_mult (vz a) (vz b)) = Done ts /\
  exists p, m4_mul E (t_m ta) (t_m tb) = Done p /\ m4_eq E p (t_m ts) = true.
Proof.
  intros Hu Hv. do 3 eexists. do 3 (split; [reflexivity|]). cbn [t_m].
  pose proof (Hu AX) as Ux. pose proof (Hu AY) as Uy. pose proof (Hu AZ) as Uz.
  pose proof (Hv AX) as Vx. pose proof (Hv AY) as Vy. pose proof (Hv AZ) as Vz. cbn [vcoord] in *.
  eexists. split; [rewrite mul_fill; apply fill_done; intros r c; apply cell_float|].
  apply m4_eq_iff. intros r c. rewrite mget_mkm. cbv zeta.
  assert (I1 : isv f one 1) by apply isv_one. assert (I0' : isv f zero 0) by apply isv_zero.
  assert (F1 : is_finite one = true) by apply isv_one. assert (F0 : is_finite zero = true) by apply isv_zero.
  assert (O1 : isv f (f_mult one one) 1) by (rewrite mult_1_l by exact F1; exact I1).
  assert (Zt : forall x, is_finite x = true -> isv f (f_mult zero x) 0) by (intros x Fx; apply (zero_times x (B2R x)); now split).
  assert (tZ : forall x, is_finite x = true -> isv f (f_mult x zero) 0) by (intros x Fx; apply (times_zero x (B2R x)); now split).
  assert (S : forall x y : flt f, is_finite x = true -> is_finite y = true -> Beqb (f_mult x y) (f_mult x y) = true).
  { intros x y Fx Fy. apply (mult_same x y x y (B2R x) (B2R y)); now split. }
  destruct r, c; cbn [mget vget w0 w1 w2 w3 e_eq f_elem e_from_int f_float fl_elem];
    first [ apply (isv_eqb f _ _ 0); [|exact I0']; now repeat first [exact I0'|apply Zt|apply tZ|apply z_add]
          | apply (isv_eqb f _ _ 1); [|exact I1]; apply z_add; [|exact O1]; now repeat first [exact I0'|apply Zt|apply tZ|apply z_add]
          | idtac ].
  - do 3 (apply eqb_add_z; [now apply Zt|]). apply eqb_z_add; [exact I0'|now apply S].
  - do 2 (apply eqb_add_z; [now apply Zt|]). apply eqb_z_add; [apply z_add; [exact I0'|now apply Zt]|now apply S].
  - apply eqb_add_z; [now apply Zt|]. apply eqb_z_add; [apply z_add; [apply z_add; [exact I0'|now apply Zt]|now apply Zt]|now apply S].
Qed.
End C.
