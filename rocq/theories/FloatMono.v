(** Proofs about C113: order survives rounding. *)
From Coq Require Import ZArith Reals Lia Lra.
From Flocq Require Import Core.Core IEEE754.BinarySingleNaN.
From Verif Require Import Base Elem FloatInst GeoModel MatModel GeoSpec ArithSpec MatSpec OpsSpec OrderProofs.
From Verif Require Import FloatCore FloatThms OpsThms TransVec FloatSign.
Local Open Scope mon_scope.
Local Open Scope R_scope.

Section L.
Context (f : fmt).
Notation B := (flt f).
Notation rnd := (FloatCore.rnd f).
Notation key := (OrderProofs.key f).
Notation big := (OrderProofs.big f).
Notation zero := (f_of_int f 0).

Lemma key_range (x : B) : is_nan x = false -> - big <= key x <= big.
Proof.
  intros N. pose proof (big_pos f). destruct (is_finite x) eqn:Fx; [pose proof (key_lt_big f x Fx); lra|destruct (key_inf_big f x N Fx); lra].
Qed.
Lemma leb_trans (a b c : B) : Bleb a b = true -> Bleb b c = true -> Bleb a c = true.
Proof. rewrite !leb_key. intros (H1 & H2 & H3) (H4 & H5 & H6). repeat split; auto. lra. Qed.
Lemma veq_leb (a b c d : B) : veq f a b -> veq f c d -> Bleb a c = true -> Bleb b d = true.
Proof.
  rewrite !veq_key, !leb_key. intros [N1 K1] [N2 K2] (H1 & H2 & H3). rewrite <- N1, <- N2, <- K1, <- K2 by assumption. auto.
Qed.
Lemma opp_leb (a b : B) : Bleb a b = true -> Bleb (Bopp b) (Bopp a) = true.
Proof. rewrite !leb_key, !nan_opp, !key_opp. intros (H1 & H2 & H3). repeat split; auto. lra. Qed.
Lemma zero_key : key zero = 0 /\ is_nan zero = false.
Proof. destruct (zero_val f) as [V F]. split; [now rewrite key_finite|now apply fin_nan]. Qed.
Lemma nonneg_key (a : B) : Bleb zero a = true <-> is_nan a = false /\ 0 <= key a.
Proof. rewrite leb_key. destruct zero_key as [-> ->]. tauto. Qed.
Lemma nonpos_key (a : B) : Bleb a zero = true <-> is_nan a = false /\ key a <= 0.
Proof. rewrite leb_key. destruct zero_key as [-> ->]. tauto. Qed.

(** ** Sums *)
Lemma add_inf (a b : B) : is_finite a && is_finite b = false -> is_nan (f_add a b) = false ->
  (key (f_add a b) = big /\ (key a = big \/ key b = big) /\ key a <> - big /\ key b <> - big) \/
  (key (f_add a b) = - big /\ (key a = - big \/ key b = - big) /\ key a <> big /\ key b <> big).
Proof.
  pose proof (big_pos f) as Bp. intros H N.
  assert (G : forall x : B, is_finite x = true -> key x <> big /\ key x <> - big) by (intros x Fx; pose proof (key_lt_big f x Fx); lra).
  destruct (is_finite a) eqn:Fa; [destruct (is_finite b) eqn:Fb; [discriminate|]|].
  - destruct (G a Fa) as [G1 G2]. destruct b as [|t| |]; try discriminate; [|now destruct a].
    replace (f_add a (B754_infinity t)) with (B754_infinity t : B) by (destruct a; try discriminate; reflexivity).
    destruct t; cbn [OrderProofs.key]; [right|left]; repeat split; auto; lra.
  - destruct a as [|s| |]; try discriminate.
    destruct (is_finite b) eqn:Fb.
    + destruct (G b Fb) as [G1 G2].
      replace (f_add (B754_infinity s) b) with (B754_infinity s : B) by (destruct b; try discriminate; reflexivity).
      destruct s; cbn [OrderProofs.key]; [right|left]; repeat split; auto; lra.
    + destruct b as [|t| |]; try discriminate. destruct s, t; try discriminate; cbn; [right|left]; repeat split; auto; lra.
Qed.
Lemma nan_add (a b : B) : is_nan (f_add a b) = false -> is_nan a = false /\ is_nan b = false.
Proof. destruct a, b; cbn; auto; discriminate. Qed.
Lemma nan_mult (a b : B) : is_nan (f_mult a b) = false -> is_nan a = false /\ is_nan b = false.
Proof. destruct a, b; cbn; auto; discriminate. Qed.
Lemma nan_sub (a b : B) : is_nan (f_sub a b) = false -> is_nan a = false /\ is_nan b = false.
Proof. destruct a, b; cbn; auto; discriminate. Qed.
Lemma nan_div (a b : B) : is_nan (f_div a b) = false -> is_nan a = false /\ is_nan b = false.
Proof. destruct a, b; cbn; auto; discriminate. Qed.

Lemma add_up (a a' b b' : B) : Bleb a a' = true -> Bleb b b' = true -> is_nan (f_add a b) = false -> is_nan (f_add a' b') = false ->
  Bleb (f_add a b) (f_add a' b') = true.
Proof.
  intros H1 H2 N N'. apply leb_key in H1 as (Na & Na' & K1), H2 as (Nb & Nb' & K2). apply leb_key. split; [exact N|]. split; [exact N'|].
  pose proof (big_pos f) as Bp.
  pose proof (key_range _ N) as R1. pose proof (key_range _ N') as R2. pose proof (key_range _ Na). pose proof (key_range _ Na').
  pose proof (key_range _ Nb). pose proof (key_range _ Nb').
  destruct (is_finite a && is_finite b) eqn:Q.
  - apply andb_prop in Q as [Fa Fb]. destruct (is_finite a' && is_finite b') eqn:Q'.
    + apply andb_prop in Q' as [Fa' Fb']. destruct (add_key f a b Fa Fb) as (_ & -> & _). destruct (add_key f a' b' Fa' Fb') as (_ & -> & _).
      rewrite !key_finite in K1, K2 by assumption. apply sat_le, rnd_le. lra.
    + pose proof (key_lt_big f a Fa). pose proof (key_lt_big f b Fb).
      destruct (add_inf a' b' Q' N') as [(K & _)|(K & [C|C] & _)]; lra.
  - destruct (add_inf a b Q N) as [(K & C & D1 & D2)|(K & _)]; [|lra].
    assert (Q' : is_finite a' && is_finite b' = false).
    { destruct (is_finite a') eqn:Fa'; [destruct (is_finite b') eqn:Fb'|]; auto. pose proof (key_lt_big f a' Fa'). pose proof (key_lt_big f b' Fb'). lra. }
    destruct (add_inf a' b' Q' N') as [(K' & _)|(K' & C' & D1' & D2')]; [lra|]. exfalso. destruct C, C'; lra.
Qed.
Lemma sub_up (a a' b b' : B) : Bleb a a' = true -> Bleb b' b = true -> is_nan (f_sub a b) = false -> is_nan (f_sub a' b') = false ->
  Bleb (f_sub a b) (f_sub a' b') = true.
Proof.
  intros H1 H2 N N'. pose proof H2 as (Nb' & Nb & _)%leb_key. rewrite sub_add in N by assumption. rewrite sub_add in N' by assumption.
  rewrite !sub_add by assumption. apply add_up; auto. now apply opp_leb.
Qed.

(** ** Products *)
Lemma mult_inf (a b : B) : is_finite a && is_finite b = false -> is_nan (f_mult a b) = false ->
  (0 < key a * key b /\ key (f_mult a b) = big) \/ (key a * key b < 0 /\ key (f_mult a b) = - big).
Proof.
  pose proof (big_pos f) as Bp. intros H N.
  assert (G : forall (s : bool) m e (p : SpecFloat.bounded (fprec f) (femax f) m e = true), if s then key (B754_finite s m e p : B) < 0 else 0 < key (B754_finite s m e p : B)).
  { intros s m e p. destruct s; cbn [OrderProofs.key B2R cond_Zopp]; [apply F2R_lt_0|apply F2R_gt_0]; reflexivity. }
  destruct a as [s|s| |s m e p], b as [t|t| |t m' e' p']; try discriminate.
  - destruct s, t; cbn; [left|right|right|left]; split; auto; nra.
  - pose proof (G t m' e' p') as G'. destruct s, t; cbn [f_mult Bmult xorb]; [left|right|right|left];
      (split; [|reflexivity]); change (key (B754_infinity true : B)) with (- big); change (key (B754_infinity false : B)) with big; nra.
  - pose proof (G s m e p) as G'. destruct s, t; cbn [f_mult Bmult xorb]; [left|right|right|left];
      (split; [|reflexivity]); change (key (B754_infinity true : B)) with (- big); change (key (B754_infinity false : B)) with big; nra.
Qed.
Lemma mult_up (s a b : B) : Bleb zero s = true -> Bleb a b = true -> is_nan (f_mult s a) = false -> is_nan (f_mult s b) = false ->
  Bleb (f_mult s a) (f_mult s b) = true.
Proof.
  intros Hs H N N'. apply nonneg_key in Hs as [Ns Ks]. apply leb_key in H as (Na & Nb & K). apply leb_key. split; [exact N|]. split; [exact N'|].
  pose proof (big_pos f) as Bp. pose proof (key_range _ N) as R1. pose proof (key_range _ N') as R2.
  destruct (is_finite s && is_finite a) eqn:Q; destruct (is_finite s && is_finite b) eqn:Q'.
  - apply andb_prop in Q as [Fs Fa]. apply andb_prop in Q' as [_ Fb].
    destruct (mult_key f s a Fs Fa) as (_ & -> & _). destruct (mult_key f s b Fs Fb) as (_ & -> & _).
    rewrite !key_finite in * by assumption. apply sat_le, rnd_le. now apply Rmult_le_compat_l.
  - apply andb_prop in Q as [Fs Fa]. destruct (mult_inf s b Q' N') as [(_ & ->)|(C & _)]; [lra|]. exfalso.
    rewrite Fs in Q'. cbn in Q'. destruct (key_inf_big f b Nb Q') as [D|D]; [nra|]. pose proof (key_lt_big f a Fa). lra.
  - apply andb_prop in Q' as [Fs Fb]. destruct (mult_inf s a Q N) as [(C & _)|(_ & ->)]; [|lra]. exfalso.
    rewrite Fs in Q. cbn in Q. destruct (key_inf_big f a Na Q) as [D|D]; [pose proof (key_lt_big f b Fb); lra|nra].
  - destruct (mult_inf s a Q N) as [(C & _)|(_ & ->)]; [|lra]. destruct (mult_inf s b Q' N') as [(_ & ->)|(C' & _)]; [lra|]. exfalso. nra.
Qed.
Lemma mult_nan_comm (a b : B) : is_nan (f_mult a b) = is_nan (f_mult b a).
Proof. pose proof (mult_comm_veq f a b) as H. apply veq_key in H. tauto. Qed.
Lemma mult_up_r (s a b : B) : Bleb zero s = true -> Bleb a b = true -> is_nan (f_mult a s) = false -> is_nan (f_mult b s) = false ->
  Bleb (f_mult a s) (f_mult b s) = true.
Proof.
  intros Hs H N N'. apply (veq_leb (f_mult s a) _ (f_mult s b)); [apply mult_comm_veq|apply mult_comm_veq|].
  rewrite mult_nan_comm in N, N'. now apply mult_up.
Qed.
Lemma mult_nan_opp (a b : B) : is_nan (f_mult (Bopp a) b) = is_nan (f_mult a b).
Proof. pose proof (mult_neg f a b) as H. apply veq_key in H. now rewrite nan_opp in H. Qed.
Lemma nonpos_opp (s : B) : Bleb s zero = true -> Bleb zero (Bopp s) = true.
Proof. rewrite nonpos_key, nonneg_key, nan_opp, key_opp. intros [H1 H2]. split; auto. lra. Qed.
Lemma opp_opp (a : B) : Bopp (Bopp a) = a. Proof. apply Bopp_involutive. Qed.
Lemma mult_down (s a b : B) : Bleb s zero = true -> Bleb a b = true -> is_nan (f_mult s a) = false -> is_nan (f_mult s b) = false ->
  Bleb (f_mult s b) (f_mult s a) = true.
Proof.
  intros Hs H N N'. rewrite <- (opp_opp s).
  apply (veq_leb (Bopp (f_mult (Bopp s) b)) _ (Bopp (f_mult (Bopp s) a))); [apply veq_sym, mult_neg|apply veq_sym, mult_neg|].
  apply opp_leb, mult_up; auto using nonpos_opp; now rewrite mult_nan_opp.
Qed.
Lemma mult_down_r (s a b : B) : Bleb s zero = true -> Bleb a b = true -> is_nan (f_mult a s) = false -> is_nan (f_mult b s) = false ->
  Bleb (f_mult b s) (f_mult a s) = true.
Proof.
  intros Hs H N N'. apply (veq_leb (f_mult s b) _ (f_mult s a)); [apply mult_comm_veq|apply mult_comm_veq|].
  rewrite mult_nan_comm in N, N'. now apply mult_down.
Qed.

(** ** Quotients by a positive number, square roots *)
Lemma div_up (a b d : B) : Bltb zero d = true -> Bleb a b = true -> is_nan (f_div a d) = false -> is_nan (f_div b d) = false ->
  Bleb (f_div a d) (f_div b d) = true.
Proof.
  intros Hd H N N'. apply ltb_key in Hd as (_ & Nd & Kd). destruct zero_key as [Z0 _]. rewrite Z0 in Kd. clear Z0.
  apply leb_key in H as (Na & Nb & K). apply leb_key. split; [exact N|]. split; [exact N'|].
  pose proof (big_pos f) as Bp. pose proof (key_range _ N) as R1. pose proof (key_range _ N') as R2.
  destruct (is_finite d) eqn:Fd.
  - rewrite (key_finite f d Fd) in Kd.
    assert (S : Bsign d = false) by now apply sign_of_pos.
    destruct (is_finite a) eqn:Fa; destruct (is_finite b) eqn:Fb.
    + destruct (div_key f a d Fa Fd ltac:(lra)) as (_ & -> & _). destruct (div_key f b d Fb Fd ltac:(lra)) as (_ & -> & _).
      rewrite !key_finite in K by assumption. apply sat_le, rnd_le. apply Rmult_le_compat_r; [|exact K]. now apply Rlt_le, Rinv_0_lt_compat.
    + destruct (key_inf_big f b Nb Fb) as [D|D]; [|pose proof (key_lt_big f a Fa); lra].
      destruct b as [|t| |]; try discriminate. destruct t; [cbn in D; lra|].
      destruct d as [|?| |s m e p]; try discriminate; [cbn in Kd; lra|]. cbn in S. subst s. cbn. lra.
    + destruct (key_inf_big f a Na Fa) as [D|D]; [pose proof (key_lt_big f b Fb); lra|].
      destruct a as [|t| |]; try discriminate. destruct t; [|cbn in D; lra].
      destruct d as [|?| |s m e p]; try discriminate; [cbn in Kd; lra|]. cbn in S. subst s. cbn [f_div Bdiv xorb OrderProofs.key]. lra.
    + destruct a as [|t| |]; try discriminate. destruct b as [|t'| |]; try discriminate.
      destruct d as [|?| |s m e p]; try discriminate; [cbn in Kd; lra|]. cbn in S. subst s. destruct t, t'; cbn in *; lra.
  - destruct d as [|s| |]; try discriminate. destruct a as [| | |]; try discriminate; destruct b as [| | |]; try discriminate; cbn; lra.
Qed.
Lemma sqrt_up (a b : B) : Bleb zero a = true -> Bleb a b = true -> Bleb (Bsqrt mode_NE a) (Bsqrt mode_NE b) = true.
Proof.
  intros Ha H. assert (Hb : Bleb zero b = true) by exact (leb_trans _ _ _ Ha H).
  apply fnn_le in Ha, Hb. pose proof (fnn_sqrt f a Ha) as [N1 _]. pose proof (fnn_sqrt f b Hb) as [N2 _].
  apply leb_key in H as (Na & Nb & K). apply leb_key. split; [exact N1|]. split; [exact N2|].
  destruct (is_finite b) eqn:Fb.
  - assert (Fa : is_finite a = true).
    { destruct (is_finite a) eqn:Q; auto. rewrite (fnn_inf f a Ha Q) in K. pose proof (key_lt_big f b Fb). cbn in K. lra. }
    destruct (sqrt_correct f a Ha Fa) as [F1 V1]. destruct (sqrt_correct f b Hb Fb) as [F2 V2].
    rewrite !key_finite in * by assumption. rewrite V1, V2. apply (rnd_le f). now apply sqrt_le_1_alt.
  - rewrite (fnn_inf f b Hb Fb). cbn. now apply key_range.
Qed.
Lemma abs_key (a : B) : is_nan (Babs a) = is_nan a /\ (is_nan a = false -> key (Babs a) = Rabs (key a)).
Proof.
  split; [apply is_nan_Babs|]. intros N. pose proof (big_pos f). destruct (is_finite a) eqn:Fa.
  - rewrite !key_finite by (rewrite ?is_finite_Babs; auto). apply B2R_Babs.
  - destruct a as [|[]| |]; try discriminate; cbn; [rewrite Rabs_Ropp|]; rewrite Rabs_pos_eq; lra.
Qed.
Lemma sq_up (a b : B) : Bleb (Babs a) (Babs b) = true -> Bleb (f_mult a a) (f_mult b b) = true.
Proof.
  intros H. apply leb_key in H as (Na & Nb & K). destruct (abs_key a) as [Q1 Q2]. destruct (abs_key b) as [Q3 Q4].
  rewrite Q1 in Na. rewrite Q3 in Nb. rewrite Q2, Q4 in K by assumption.
  pose proof (fnn_sq f a Na) as [N1 _]. pose proof (fnn_sq f b Nb) as [N2 _]. apply leb_key. split; [exact N1|]. split; [exact N2|].
  pose proof (big_pos f). destruct (is_finite b) eqn:Fb.
  - assert (Fa : is_finite a = true).
    { destruct (is_finite a) eqn:Q; auto. pose proof (key_lt_big f b Fb) as L.
      assert (Rabs (key b) < big) by (apply Rabs_def1; lra). destruct (key_inf_big f a Na Q) as [D|D]; rewrite D, ?Rabs_Ropp, (Rabs_pos_eq big) in K; lra. }
    destruct (mult_key f a a Fa Fa) as (_ & -> & _). destruct (mult_key f b b Fb Fb) as (_ & -> & _). rewrite !key_finite in K by assumption.
    apply sat_le, rnd_le. apply Rsqr_le_abs_1 in K. exact K.
  - replace (f_mult b b) with (B754_infinity false : B) by (destruct b as [|[]| |]; try discriminate; reflexivity). cbn. now apply key_range.
Qed.
End L.

(** ** The functions *)
Theorem ray_order f (r : Ray (flt f)) t t' p p' i : ray_at (f_float f) r t = Done p -> ray_at (f_float f) r t' = Done p' ->
  Bleb t t' = true -> is_nan (coord i p) = false -> is_nan (coord i p') = false ->
  (Bleb (f_of_int f 0) (vcoord i (r_d r)) = true -> Bleb (coord i p) (coord i p') = true) /\
  (Bleb (vcoord i (r_d r)) (f_of_int f 0) = true -> Bleb (coord i p') (coord i p) = true).
Proof.
  assert (G : forall o d t t' : flt f, Bleb t t' = true -> is_nan (f_add o (f_mult t d)) = false -> is_nan (f_add o (f_mult t' d)) = false ->
    (Bleb (f_of_int f 0) d = true -> Bleb (f_add o (f_mult t d)) (f_add o (f_mult t' d)) = true) /\
    (Bleb d (f_of_int f 0) = true -> Bleb (f_add o (f_mult t' d)) (f_add o (f_mult t d)) = true)).
  { intros o d s s' Hs N N'. destruct (nan_add f _ _ N) as [No M]. destruct (nan_add f _ _ N') as [_ M'].
    assert (Ro : Bleb o o = true) by (apply leb_key; repeat split; auto; lra).
    split; intros Hd; apply add_up; auto; [now apply mult_up_r|now apply mult_down_r]. }
  intros E1 E2. unfold ray_at, v3_mul, p3_add, mk3, lift2 in E1, E2.
  cbn [obind e_add e_mul f_elem fl_elem f_float vx vy vz] in E1, E2. injection E1 as <-. injection E2 as <-.
  intros Ht N N'. destruct i; cbn [coord vcoord px py pz] in *; now apply G.
Qed.

(** Along a ray a box is left at most once. *)
Lemma ray_finite f (r : Ray (flt f)) t p i : ray_at (f_float f) r t = Done p -> pfinite (r_o r) -> vfinite (r_d r) -> is_finite t = true ->
  is_nan (coord i p) = false.
Proof.
  assert (G : forall o d t : flt f, is_finite o = true -> is_finite d = true -> is_finite t = true -> is_nan (f_add o (f_mult t d)) = false).
  { intros o d s Fo Fd Fs. destruct (mult_key f s d Fs Fd) as (N & _ & _). destruct (is_finite (f_mult s d)) eqn:Q.
    - now destruct (add_key f o _ Fo Q) as (M & _).
    - destruct (f_mult s d) as [|x| |]; try discriminate. destruct o; try discriminate; reflexivity. }
  intros E1 Fo Fd Ft. unfold ray_at, v3_mul, p3_add, mk3, lift2 in E1. cbn [obind e_add e_mul f_elem fl_elem f_float vx vy vz] in E1. injection E1 as <-.
  destruct i; cbn [coord px py pz]; apply G; auto; [exact (Fo AX)|exact (Fd AX)|exact (Fo AY)|exact (Fd AY)|exact (Fo AZ)|exact (Fd AZ)].
Qed.
Lemma sign_cases f (x : flt f) : is_nan x = false -> Bleb (f_of_int f 0) x = true \/ Bleb x (f_of_int f 0) = true.
Proof. intros N. rewrite nonneg_key, nonpos_key. destruct (Rle_or_lt 0 (key f x)); [left|right]; split; auto; lra. Qed.
Theorem ray_convex f (r : Ray (flt f)) (b : Bounds3 (flt f)) t0 t t1 p0 p p1 : pfinite (r_o r) -> vfinite (r_d r) ->
  is_finite t0 = true -> is_finite t = true -> is_finite t1 = true -> Bleb t0 t = true -> Bleb t t1 = true ->
  ray_at (f_float f) r t0 = Done p0 -> ray_at (f_float f) r t = Done p -> ray_at (f_float f) r t1 = Done p1 ->
  b3_inside (f_elem f) b p0 = true -> b3_inside (f_elem f) b p1 = true -> b3_inside (f_elem f) b p = true.
Proof.
  intros Fo Fd F0 Ft F1 H0 H1 E0 E E1.
  assert (G : forall i, Bleb (coord i (b_min b)) (coord i p0) = true -> Bleb (coord i p0) (coord i (b_max b)) = true ->
    Bleb (coord i (b_min b)) (coord i p1) = true -> Bleb (coord i p1) (coord i (b_max b)) = true ->
    Bleb (coord i (b_min b)) (coord i p) = true /\ Bleb (coord i p) (coord i (b_max b)) = true).
  { intros i L0 U0 L1 U1. pose proof (ray_finite f r t0 p0 i E0 Fo Fd F0) as N0. pose proof (ray_finite f r t p i E Fo Fd Ft) as N.
    pose proof (ray_finite f r t1 p1 i E1 Fo Fd F1) as N1.
    destruct (ray_order f r t0 t p0 p i E0 E H0 N0 N) as [A1 A2]. destruct (ray_order f r t t1 p p1 i E E1 H1 N N1) as [B1 B2].
    destruct (sign_cases f (vcoord i (r_d r)) (fin_nan f _ (Fd i))) as [S|S].
    - specialize (A1 S). specialize (B1 S). split; [exact (leb_trans f _ _ _ L0 A1)|exact (leb_trans f _ _ _ B1 U1)].
    - specialize (A2 S). specialize (B2 S). split; [exact (leb_trans f _ _ _ L1 B2)|exact (leb_trans f _ _ _ A2 U0)]. }
  unfold b3_inside. cbn [e_le f_elem]. rewrite !Bool.andb_true_iff. intros [[[[[X1 X2] Y1] Y2] Z1] Z2] [[[[[X1' X2'] Y1'] Y2'] Z1'] Z2'].
  destruct (G AX X1 X2 X1' X2'), (G AY Y1 Y2 Y1' Y2'), (G AZ Z1 Z2 Z1' Z2'). repeat split; assumption.
Qed.

Theorem offset_order f (b : Bounds3 (flt f)) p q v w i : b3_offset (f_elem f) b p = Done v -> b3_offset (f_elem f) b q = Done w ->
  Bleb (coord i p) (coord i q) = true -> is_nan (vcoord i v) = false -> is_nan (vcoord i w) = false -> is_finite (coord i (b_min b)) = true ->
  is_finite (coord i (b_max b)) = true -> Bleb (vcoord i v) (vcoord i w) = true.
Proof.
  intros E1 E2 H N N' F1 F2. destruct (offset_float f b p) as (v' & E1' & K1). destruct (offset_float f b q) as (w' & E2' & K2).
  rewrite E1 in E1'. injection E1' as <-. rewrite E2 in E2'. injection E2' as <-. rewrite K1 in *. rewrite K2 in *.
  assert (R : Bleb (coord i (b_min b)) (coord i (b_min b)) = true) by (apply leb_key; repeat split; auto using fin_nan; lra).
  destruct (Bltb (coord i (b_min b)) (coord i (b_max b))) eqn:L; [|now apply sub_up].
  destruct (nan_div f _ _ N) as [M1 _]. destruct (nan_div f _ _ N') as [M2 _]. apply div_up; auto; [|now apply sub_up].
  apply ltb_key in L as (_ & _ & L). rewrite !key_finite in L by assumption. destruct (sub_key f _ _ F2 F1) as (Nd & Kd & _). apply ltb_key.
  destruct (zero_key f) as [-> ->]. split; [reflexivity|]. split; [exact Nd|]. rewrite Kd. pose proof (rnd_sub_pos f _ _ L). pose proof (big_pos f).
  unfold sat. apply Rlt_le_trans with (Rmin (big f) (rnd f (B2R (coord i (b_max b)) - B2R (coord i (b_min b))))); [apply Rmin_pos; lra|apply Rmax_r].
Qed.

Lemma b_new_ordered f (p q : Point3 (flt f)) : (forall i, Bleb (coord i p) (coord i q) = true) ->
  exists b, b3_new (f_elem f) p q = Done b /\ forall i, Bleb (coord i (b_min b)) (coord i p) = true /\ Bleb (coord i p) (coord i (b_min b)) = true /\
    Bleb (coord i (b_max b)) (coord i q) = true /\ Bleb (coord i q) (coord i (b_max b)) = true.
Proof.
  intros H. unfold b3_new, mk3, pmin, pmax. cbn [obind fold_left e_lt f_elem]. eexists. split; [reflexivity|].
  assert (R : forall i, Bleb (coord i p) (coord i p) = true /\ Bleb (coord i q) (coord i q) = true).
  { intros i. pose proof (H i) as (N1 & N2 & _)%leb_key. split; apply leb_key; repeat split; auto; lra. }
  assert (S : forall i, Bltb (coord i q) (coord i p) = false).
  { intros i. pose proof (H i) as (N1 & N2 & K)%leb_key. destruct (Bltb (coord i q) (coord i p)) eqn:Q; auto. apply ltb_key in Q. lra. }
  intros i. pose proof (S i) as Si. pose proof (H i) as Hi. destruct (R i) as [R1 R2]. pose proof Hi as (N1 & N2 & K)%leb_key.
  destruct (Bltb (coord i p) (coord i q)) eqn:Q.
  - destruct i; cbn [coord px py pz b_min b_max] in *; rewrite ?Si, ?Q; auto.
  - assert (K' : Bleb (coord i q) (coord i p) = true).
    { apply leb_key. repeat split; auto. apply Rnot_lt_le. intros C. assert (Bltb (coord i p) (coord i q) = true) by (apply ltb_key; auto). congruence. }
    destruct i; cbn [coord px py pz b_min b_max] in *; rewrite ?Si, ?Q; auto.
Qed.
Theorem expand_order f (a b : Bounds3 (flt f)) d d' : bfinite a -> bfinite b -> normalised (tle (TFloat f)) a ->
  is_finite d = true -> is_finite d' = true -> subbox (tle (TFloat f)) a b -> Bleb (f_of_int f 0) d = true -> Bleb d d' = true ->
  exists a' b', b3_expand (f_elem f) a d = Done a' /\ b3_expand (f_elem f) b d' = Done b' /\ subbox (tle (TFloat f)) a' b'.
Proof.
  intros [A1 A2] [B1 B2] Na Fd Fd' S Hd Hdd.
  assert (Hi : forall i, Bleb (coord i (b_min b)) (coord i (b_min a)) = true /\ Bleb (coord i (b_max a)) (coord i (b_max b)) = true).
  { assert (R : forall x : flt f, is_finite x = true -> Bleb x x = true) by (intros x Fx; apply leb_key; repeat split; auto using fin_nan; lra).
    assert (I1 : inb (tle (TFloat f)) a (b_min a)) by (intros i; split; [apply R, A1|apply Na]).
    assert (I2 : inb (tle (TFloat f)) a (b_max a)) by (intros i; split; [apply Na|apply R, A2]).
    intros i. split; [apply (S _ I1 i)|apply (S _ I2 i)]. }
  assert (Hdd' : Bleb (f_of_int f 0) d' = true) by exact (leb_trans f _ _ _ Hd Hdd).
  assert (Low : forall x e : flt f, is_finite x = true -> is_finite e = true -> Bleb (f_of_int f 0) e = true -> Bleb (f_sub x e) x = true /\ Bleb x (f_add x e) = true).
  { intros x e Fx Fe He. apply nonneg_key in He as [Ne Ke]. rewrite key_finite in Ke by assumption.
    destruct (sub_key f x e Fx Fe) as (N1 & K1 & _). destruct (add_key f x e Fx Fe) as (N2 & K2 & _).
    assert (Sx : sat f (rnd f (B2R x)) = key f x).
    { rewrite rnd_B, sat_in, key_finite; auto. pose proof (key_lt_big f x Fx) as L. rewrite key_finite in L by assumption. now apply Rabs_def1. }
    split; apply leb_key; (repeat split; auto using fin_nan); rewrite ?K1, ?K2, <- Sx; apply sat_le, rnd_le; lra. }
  pose (lo (c : Bounds3 (flt f)) e := P3 (f_sub (px (b_min c)) e) (f_sub (py (b_min c)) e) (f_sub (pz (b_min c)) e)).
  pose (hi (c : Bounds3 (flt f)) e := P3 (f_add (px (b_max c)) e) (f_add (py (b_max c)) e) (f_add (pz (b_max c)) e)).
  assert (L1 : forall c e i, coord i (lo c e) = f_sub (coord i (b_min c)) e) by (intros c e []; reflexivity).
  assert (L2 : forall c e i, coord i (hi c e) = f_add (coord i (b_max c)) e) by (intros c e []; reflexivity).
  assert (Q : forall c e, b3_expand (f_elem f) c e = b3_new (f_elem f) (lo c e) (hi c e)) by reflexivity.
  assert (Nb : forall i, Bleb (coord i (b_min b)) (coord i (b_max b)) = true).
  { intros i. eapply leb_trans; [apply Hi|]. eapply leb_trans; [apply (Na i)|apply Hi]. }
  assert (O : forall c e, pfinite (b_min c) -> pfinite (b_max c) -> (forall i, Bleb (coord i (b_min c)) (coord i (b_max c)) = true) -> is_finite e = true ->
    Bleb (f_of_int f 0) e = true -> forall i, Bleb (coord i (lo c e)) (coord i (hi c e)) = true).
  { intros c e C1 C2 C3 Fe He i. rewrite L1, L2. eapply leb_trans; [apply (Low _ _ (C1 i) Fe He)|]. eapply leb_trans; [apply C3|apply (Low _ _ (C2 i) Fe He)]. }
  destruct (b_new_ordered f (lo a d) (hi a d) (O a d A1 A2 Na Fd Hd)) as (a' & Ea & Ka).
  destruct (b_new_ordered f (lo b d') (hi b d') (O b d' B1 B2 Nb Fd' Hdd')) as (b' & Eb & Kb).
  exists a', b'. rewrite !Q. split; [exact Ea|]. split; [exact Eb|]. intros p Hp i. destruct (Hp i) as [P1 P2]. cbn [tle] in *.
  destruct (Ka i) as (Ka1 & Ka2 & Ka3 & Ka4), (Kb i) as (Kb1 & Kb2 & Kb3 & Kb4). rewrite !L1 in *. rewrite !L2 in *.
  assert (M1 : Bleb (f_sub (coord i (b_min b)) d') (f_sub (coord i (b_min a)) d) = true).
  { apply sub_up; [apply Hi|exact Hdd| |]; [apply (sub_key f _ _ (B1 i) Fd')|apply (sub_key f _ _ (A1 i) Fd)]. }
  assert (M2 : Bleb (f_add (coord i (b_max a)) d) (f_add (coord i (b_max b)) d') = true).
  { apply add_up; [apply Hi|exact Hdd| |]; [apply (add_key f _ _ (A2 i) Fd)|apply (add_key f _ _ (B2 i) Fd')]. }
  split.
  - eapply leb_trans; [exact Kb1|]. eapply leb_trans; [exact M1|]. eapply leb_trans; [exact Ka2|exact P1].
  - eapply leb_trans; [exact P2|]. eapply leb_trans; [exact Ka3|]. eapply leb_trans; [exact M2|exact Kb4].
Qed.

Theorem length_order f (u v : Vector3 (flt f)) : (forall i, Bleb (Babs (vcoord i u)) (Babs (vcoord i v)) = true) ->
  exists l m, v3_len (f_float f) (f_elem f) (fun x => x) u = Done l /\ v3_len (f_float f) (f_elem f) (fun x => x) v = Done m /\ Bleb l m = true.
Proof.
  intros H. rewrite !len_float. do 2 eexists. split; [reflexivity|]. split; [reflexivity|].
  assert (Nu : forall i, is_nan (vcoord i u) = false) by (intros i; pose proof (H i) as (N & _)%leb_key; now rewrite (proj1 (abs_key f _)) in N).
  assert (Nv : forall i, is_nan (vcoord i v) = false) by (intros i; pose proof (H i) as (_ & N & _)%leb_key; now rewrite (proj1 (abs_key f _)) in N).
  pose proof (sq_up f _ _ (H AX)) as X. pose proof (sq_up f _ _ (H AY)) as Y. pose proof (sq_up f _ _ (H AZ)) as Z. cbn [vcoord] in X, Y, Z.
  pose proof (fnn_sq f _ (Nu AX)) as X1. pose proof (fnn_sq f _ (Nu AY)) as Y1. pose proof (fnn_sq f _ (Nu AZ)) as Z1. cbn [vcoord] in X1, Y1, Z1.
  apply sqrt_up; [apply fnn_le, fnn_add; [apply fnn_add|]; assumption|]. apply add_mono; auto using fnn_add. now apply add_mono.
Qed.

Lemma sum3_up f (a b c x y z x' y' z' : flt f) : Bleb (f_of_int f 0) a = true -> Bleb (f_of_int f 0) b = true -> Bleb (f_of_int f 0) c = true ->
  Bleb x x' = true -> Bleb y y' = true -> Bleb z z' = true ->
  is_nan (f_add (f_add (f_mult a x) (f_mult b y)) (f_mult c z)) = false -> is_nan (f_add (f_add (f_mult a x') (f_mult b y')) (f_mult c z')) = false ->
  Bleb (f_add (f_add (f_mult a x) (f_mult b y)) (f_mult c z)) (f_add (f_add (f_mult a x') (f_mult b y')) (f_mult c z')) = true.
Proof.
  intros Ha Hb Hc Hx Hy Hz N N'. destruct (nan_add f _ _ N) as [N1 N2]. destruct (nan_add f _ _ N1) as [N3 N4].
  destruct (nan_add f _ _ N') as [N1' N2']. destruct (nan_add f _ _ N1') as [N3' N4'].
  apply add_up; auto; [|now apply mult_up]. apply add_up; auto; now apply mult_up.
Qed.
Theorem transform_order f (t : Transform (flt f)) (u v u' v' : Vector3 (flt f)) i :
  (forall j, Bleb (f_of_int f 0) (mget (t_m t) (axis_ix i) (axis_ix j)) = true) -> (forall j, Bleb (vcoord j u) (vcoord j v) = true) ->
  v3_transform (f_float f) (fun x => x) u t = Done u' -> v3_transform (f_float f) (fun x => x) v t = Done v' ->
  is_nan (vcoord i u') = false -> is_nan (vcoord i v') = false -> Bleb (vcoord i u') (vcoord i v') = true.
Proof.
  intros Hm Hu E1 E2. unfold v3_transform, mk3, lift2 in E1, E2. cbn [obind e_add e_mul f_elem fl_elem f_float] in E1, E2.
  injection E1 as <-. injection E2 as <-.
  pose proof (Hm AX) as M0. pose proof (Hm AY) as M1. pose proof (Hm AZ) as M2. pose proof (Hu AX) as U0. pose proof (Hu AY) as U1. pose proof (Hu AZ) as U2.
  destruct i; cbn [vcoord vx vy vz axis_ix] in *; now apply sum3_up.
Qed.
Theorem dot_order f (u v w : Vector3 (flt f)) d e : (forall j, Bleb (f_of_int f 0) (vcoord j w) = true) -> (forall j, Bleb (vcoord j u) (vcoord j v) = true) ->
  v3_dot (f_elem f) w u = Done d -> v3_dot (f_elem f) w v = Done e -> is_nan d = false -> is_nan e = false -> Bleb d e = true.
Proof.
  intros Hw Hu E1 E2. unfold v3_dot, lift2 in E1, E2. cbn [obind e_add e_mul f_elem] in E1, E2. injection E1 as <-. injection E2 as <-.
  apply sum3_up; [exact (Hw AX)|exact (Hw AY)|exact (Hw AZ)|exact (Hu AX)|exact (Hu AY)|exact (Hu AZ)].
Qed.
Theorem diagonal_order f (a b : Bounds3 (flt f)) : bfinite a -> bfinite b -> normalised (tle (TFloat f)) a -> subbox (tle (TFloat f)) a b ->
  exists d e, b3_diagonal (f_elem f) a = Done d /\ b3_diagonal (f_elem f) b = Done e /\ forall i, Bleb (vcoord i d) (vcoord i e) = true.
Proof.
  intros [A1 A2] [B1 B2] Na S.
  assert (Hi : forall i, Bleb (coord i (b_min b)) (coord i (b_min a)) = true /\ Bleb (coord i (b_max a)) (coord i (b_max b)) = true).
  { assert (R : forall x : flt f, is_finite x = true -> Bleb x x = true) by (intros x Fx; apply leb_key; repeat split; auto using fin_nan; lra).
    assert (I1 : inb (tle (TFloat f)) a (b_min a)) by (intros i; split; [apply R, A1|apply Na]).
    assert (I2 : inb (tle (TFloat f)) a (b_max a)) by (intros i; split; [apply Na|apply R, A2]).
    intros i. split; [apply (S _ I1 i)|apply (S _ I2 i)]. }
  do 2 eexists. split; [reflexivity|]. split; [reflexivity|]. intros i.
  assert (G : Bleb (f_sub (coord i (b_max a)) (coord i (b_min a))) (f_sub (coord i (b_max b)) (coord i (b_min b))) = true).
  { apply sub_up; [apply Hi|apply Hi|apply (sub_key f _ _ (A2 i) (A1 i))|apply (sub_key f _ _ (B2 i) (B1 i))]. }
  destruct i; exact G.
Qed.

(** Between numbers of opposite sign lerp never turns. *)
Theorem lerp_order f (t t' a b d e : flt f) : Bleb a (f_of_int f 0) = true -> Bleb (f_of_int f 0) b = true -> Bleb t t' = true ->
  lerp (f_float f) t a b = Done d -> lerp (f_float f) t' a b = Done e -> is_nan d = false -> is_nan e = false -> Bleb d e = true.
Proof.
  intros Ha Hb Ht E1 E2. unfold lerp, lift2 in E1, E2. cbn [obind e_add e_mul e_sub e_from_int f_elem fl_elem f_float] in E1, E2.
  injection E1 as <-. injection E2 as <-. intros N N'.
  destruct (nan_add f _ _ N) as [N1 N2]. destruct (nan_add f _ _ N') as [N1' N2'].
  destruct (nan_mult f _ _ N1) as [N3 _]. destruct (nan_mult f _ _ N1') as [N3' _].
  assert (R : Bleb (f_of_int f 1) (f_of_int f 1) = true) by (apply leb_key; destruct (one_val f) as [_ F]; repeat split; auto using fin_nan; lra).
  apply add_up; auto; [|now apply mult_up_r].
  apply mult_down_r; auto. now apply sub_up.
Qed.

(** ** Concrete cases *)
Lemma mono_cases : let r := mkRay (P3 (f32 0) (f32 1) (f32 2)) (V3 (f32 1) (f32 (-1)) (f32 0)) (f_inf F32) (f32 0) tt in
  let b := bx (f32 0) (f32 (-5)) (f32 0) (f32 6) (f32 5) (f32 4) in
  omap psf (ray_at (f_float F32) r (f32 1)) = Done (psf (P3 (f32 1) (f32 0) (f32 2))) /\
  omap psf (ray_at (f_float F32) r (f32 3)) = Done (psf (P3 (f32 3) (f32 (-2)) (f32 2))) /\
  omap (b3_inside (f_elem F32) b) (ray_at (f_float F32) r (f32 1)) = Done true /\
  omap (b3_inside (f_elem F32) b) (ray_at (f_float F32) r (f32 5)) = Done true /\
  omap (b3_inside (f_elem F32) b) (ray_at (f_float F32) r (f32 7)) = Done false /\
  Bleb (f32 1) (f32 3) = true /\ Bleb (f32 3) (f32 5) = true.
Proof. vm_compute. repeat split; reflexivity. Qed.
Lemma offset_case : let b := bx (f32 0) (f32 0) (f32 0) (f32 4) (f32 0) (f32 3) in
  omap vsf (b3_offset (f_elem F32) b (P3 (f32 1) (f32 2) (f32 9))) = Done (vsf (V3 (f_div (f32 1) (f32 4)) (f32 2) (f32 3))) /\
  omap vsf (b3_offset (f_elem F32) b (P3 (f32 8) (f32 2) (f32 9))) = Done (vsf (V3 (f32 2) (f32 2) (f32 3))) /\ bfinite b.
Proof. split; [vm_compute; reflexivity|]. split; [vm_compute; reflexivity|]. split; intros []; reflexivity. Qed.
Lemma box_case : let a := bx (f32 0) (f32 0) (f32 0) (f32 1) (f32 1) (f32 1) in let b := bx (f32 (-1)) (f32 0) (f32 0) (f32 1) (f32 1) (f32 2) in
  bfinite a /\ bfinite b /\ normalised (tle (TFloat F32)) a /\ subbox (tle (TFloat F32)) a b /\ Bleb (f32 0) (f32 1) = true /\ Bleb (f32 1) (f32 3) = true.
Proof.
  repeat split; try (intros []; reflexivity); try reflexivity; destruct (H i) as [H1 H2]; eapply leb_trans; eauto; destruct i; reflexivity.
Qed.
Lemma vector_case : let u := V3 (f32 1) (f32 (-2)) (f32 0) in let v := V3 (f32 1) (f32 3) (f32 2) in let w := V3 (f32 2) (f32 0) (f32 5) in
  let t := mkT (ident_of (f32 2) (f32 5)) (ident_of (f32 0) (f32 1)) in
  (forall i, Bleb (Babs (vcoord i u)) (Babs (vcoord i v)) = true) /\ (forall i, Bleb (vcoord i u) (vcoord i v) = true) /\
  (forall i, Bleb (f32 0) (vcoord i w) = true) /\ (forall i j, Bleb (f32 0) (mget (t_m t) (axis_ix i) (axis_ix j)) = true) /\
  omap B2SF (v3_dot (f_elem F32) w u) = Done (B2SF (f32 2)) /\ omap B2SF (v3_dot (f_elem F32) w v) = Done (B2SF (f32 12)) /\
  omap vsf (v3_transform (f_float F32) (fun x => x) u t) = Done (vsf (V3 (f32 1) (f32 (-8)) (f32 (-2)))) /\
  omap vsf (v3_transform (f_float F32) (fun x => x) v t) = Done (vsf (V3 (f32 15) (f32 21) (f32 18))).
Proof. repeat split; try (intros []; reflexivity); try (intros [] []; reflexivity); vm_compute; reflexivity. Qed.
Lemma lerp_case : let a := f32 (-2) in let b := f32 6 in let t := f_div (f32 1) (f32 4) in
  Bleb a (f32 0) = true /\ Bleb (f32 0) b = true /\ Bleb t (f32 2) = true /\
  omap B2SF (lerp (f_float F32) t a b) = Done (B2SF (f32 0)) /\ omap B2SF (lerp (f_float F32) (f32 2) a b) = Done (B2SF (f32 14)).
Proof. vm_compute. repeat split; reflexivity. Qed.
