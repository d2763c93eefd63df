(** Geometry in rounded arithmetic. *)
From Coq Require Import ZArith Reals Lia Lra.
From Flocq Require Import Core.Core IEEE754.BinarySingleNaN.
From Verif Require Import Base Elem GeoModel MatModel MatSpec FloatInst GeoSpec ArithSpec OrderProofs BoxThms FloatCore MatThms IntThms.
Local Open Scope mon_scope.
Local Open Scope R_scope.


(** ** expand (C37) *)
Lemma new_contains {T} (E : Elem T) (L : order_laws E) lo hi (b : Bounds3 T) p :
  (forall i, e_le E (coord i lo) (coord i (b_min b)) = true /\ e_le E (coord i (b_max b)) (coord i hi) = true) ->
  inb (fun a b => e_le E a b = true) b p ->
  exists b', b3_new E lo hi = Done b' /\ inb (fun a b => e_le E a b = true) b' p.
Proof.
  intros H Hp. destruct (new_coord E lo hi) as (b' & E1 & K). exists b'. split; [exact E1|]. intros i.
  destruct (K i) as [Q1 Q2], (H i) as [H1 H2], (Hp i) as [P1 P2]. rewrite Q1, Q2.
  destruct (ol_ok E L _ _ H1) as [O1 _], (ol_ok E L _ _ H2) as [_ O2]. split.
  - eapply (tr E L); [apply (mn_l E L); auto|]. eapply (tr E L); [exact H1|exact P1].
  - eapply (tr E L); [exact P2|]. eapply (tr E L); [exact H2|apply (mx_r E L); auto].
Qed.
Lemma sub_below f (x d : flt f) : Bleb (f_of_int f 0) d = true -> is_nan x = false -> (is_finite d = true \/ is_finite x = true) ->
  Bleb (f_sub x d) x = true.
Proof.
  intros Hd Nx Hf. apply leb_key in Hd as (_ & Nd & Kd). rewrite (key_finite f (f_of_int f 0)), (proj1 (zero_val f)) in Kd by apply zero_val.
  destruct (is_finite x) eqn:Fx; [destruct (is_finite d) eqn:Fd|].
  - destruct (sub_key f x d Fx Fd) as (N & K & _). apply leb_key. split; [exact N|]. split; [auto|]. rewrite K.
    rewrite (key_finite f d Fd) in Kd. rewrite (key_finite f x Fx). rewrite <- (sat_in f (B2R x)) at 2 by apply B2R_big.
    apply sat_le. rewrite <- (rnd_B f x) at 2. apply rnd_le. lra.
  - destruct d as [|[]| |]; try discriminate; [cbn in Kd; pose proof (big_pos f); lra|].
    assert (Q : f_sub x (B754_infinity false) = (B754_infinity true : flt f)) by (destruct x; try discriminate; reflexivity).
    rewrite Q. apply leb_key. split; [reflexivity|]. split; [exact Nx|]. pose proof (key_lt_big f x Fx). cbn. lra.
  - destruct Hf as [Fd|]; [|discriminate]. assert (Q : f_sub x d = x) by (destruct x; try discriminate; destruct d; try discriminate; reflexivity).
    rewrite Q. apply leb_key. repeat split; auto. lra.
Qed.
Lemma add_above f (x d : flt f) : Bleb (f_of_int f 0) d = true -> is_nan x = false -> (is_finite d = true \/ is_finite x = true) ->
  Bleb x (f_add x d) = true.
Proof.
  intros Hd Nx Hf. apply leb_key in Hd as (_ & Nd & Kd). rewrite (key_finite f (f_of_int f 0)), (proj1 (zero_val f)) in Kd by apply zero_val.
  destruct (is_finite x) eqn:Fx; [destruct (is_finite d) eqn:Fd|].
  - destruct (add_key f x d Fx Fd) as (N & K & _). apply leb_key. split; [auto|]. split; [exact N|]. rewrite K.
    rewrite (key_finite f d Fd) in Kd. rewrite (key_finite f x Fx). rewrite <- (sat_in f (B2R x)) at 1 by apply B2R_big.
    apply sat_le. rewrite <- (rnd_B f x) at 1. apply rnd_le. lra.
  - destruct d as [|[]| |]; try discriminate; [cbn in Kd; pose proof (big_pos f); lra|].
    assert (Q : f_add x (B754_infinity false) = (B754_infinity false : flt f)) by (destruct x; try discriminate; reflexivity).
    rewrite Q. apply leb_key. split; [exact Nx|]. split; [reflexivity|]. pose proof (key_lt_big f x Fx). cbn. lra.
  - destruct Hf as [Fd|]; [|discriminate]. assert (Q : f_add x d = x) by (destruct x; try discriminate; destruct d; try discriminate; reflexivity).
    rewrite Q. apply leb_key. repeat split; auto. lra.
Qed.
Lemma expand_float f (b : Bounds3 (flt f)) d p : Bleb (f_of_int f 0) d = true -> (is_finite d = true \/ bfinite b) ->
  inb (tle (TFloat f)) b p -> exists b', b3_expand (f_elem f) b d = Done b' /\ inb (tle (TFloat f)) b' p.
Proof.
  intros Hd Hf Hp. cbn [tle] in *.
  unfold b3_expand, p3_sub_v, p3_add, mk3, lift2. cbn [obind e_sub e_add f_elem vx vy vz].
  apply (new_contains (f_elem f) (f_laws f) _ _ b); [|exact Hp]. intros i.
  destruct (Hp i) as [P1 P2]. apply leb_key in P1 as (N1 & _ & _), P2 as (_ & N2 & _). cbn [e_le f_elem].
  destruct i; cbn [coord px py pz] in *; (split; [apply sub_below|apply add_above]); auto; (destruct Hf as [|[F1 F2]]; [auto|right]);
    first [exact (F1 AX)|exact (F1 AY)|exact (F1 AZ)|exact (F2 AX)|exact (F2 AY)|exact (F2 AZ)].
Qed.

(** ** offset (C41) *)
Lemma offset_axis f (lo hi x : flt f) : is_finite lo = true -> is_finite hi = true -> is_finite (f_sub hi lo) = true ->
  Bltb lo hi = true -> Bleb lo x = true -> Bleb x hi = true ->
  let v := f_div (f_sub x lo) (f_sub hi lo) in
  Bleb (f_of_int f 0) v = true /\ Bleb v (f_of_int f 1) = true /\
  (Beqb x lo = true -> Beqb v (f_of_int f 0) = true) /\ (Beqb x hi = true -> Beqb v (f_of_int f 1) = true).
Proof.
  intros Fl Fh Fd Hlt H1 H2 v. apply ltb_key in Hlt as (_ & _ & Hlt). apply leb_key in H1 as (_ & Nx & H1), H2 as (_ & _ & H2).
  assert (Fx : is_finite x = true).
  { destruct (is_finite x) eqn:Q; auto. exfalso. pose proof (key_lt_big f lo Fl). pose proof (key_lt_big f hi Fh).
    destruct (key_inf_big f x Nx Q); lra. }
  rewrite !key_finite in * by auto.
  destruct (sub_key f hi lo Fh Fl) as (_ & Kd & Bd). destruct (sub_key f x lo Fx Fl) as (_ & Kn & Bn).
  rewrite Fd in Bd. symmetry in Bd.
  assert (Ld : Rabs (rnd f (B2R hi - B2R lo)) < big f) by (destruct (Rlt_bool_spec (Rabs (rnd f (B2R hi - B2R lo))) (big f)); congruence).
  pose proof (rnd_sub_pos f lo hi Hlt) as Pd. pose proof (rnd_nonneg f (B2R x - B2R lo) ltac:(lra)) as Pn.
  pose proof (rnd_le f (B2R x - B2R lo) (B2R hi - B2R lo) ltac:(lra)) as Lnd.
  assert (Ln : Rabs (rnd f (B2R x - B2R lo)) < big f) by (rewrite Rabs_pos_eq in * by lra; lra).
  rewrite Rlt_bool_true in Bn by exact Ln. rewrite key_finite, sat_in in Kd by auto. rewrite key_finite, sat_in in Kn by auto.
  assert (Nd : B2R (f_sub hi lo) <> 0) by lra.
  destruct (div_key f (f_sub x lo) (f_sub hi lo) Bn Fd Nd) as (Nv & Kv & _). fold v in Nv, Kv.
  rewrite Kn, Kd in Kv. set (q := rnd f (B2R x - B2R lo) / rnd f (B2R hi - B2R lo)) in *.
  assert (Q0 : 0 <= q) by (apply Rmult_le_pos; [auto|apply Rlt_le, Rinv_0_lt_compat, Pd]).
  assert (Q1 : q <= 1) by (apply Rmult_le_reg_r with (rnd f (B2R hi - B2R lo)); [auto|unfold q; field_simplify; lra]).
  assert (R0 : 0 <= rnd f q) by now apply rnd_nonneg. assert (R1 : rnd f q <= 1) by (rewrite <- (rnd_id f 1 (fmt_1 f)); now apply rnd_le).
  assert (B1 : 1 < big f) by (unfold big; change 1 with (bpow radix2 0); apply bpow_lt; destruct f; cbn; lia).
  rewrite sat_in in Kv by (apply Rabs_def1; lra).
  pose proof (zero_val f) as [Z0 ZF]. pose proof (one_val f) as [O1 OF].
  split; [|split; [|split]].
  - apply leb_key. rewrite key_finite, Z0 by auto. repeat split; auto using fin_nan. lra.
  - apply leb_key. rewrite (key_finite f (f_of_int f 1)), O1 by auto. repeat split; auto using fin_nan. lra.
  - intros Hx. apply eqb_key in Hx as (_ & _ & Hx). rewrite !key_finite in Hx by auto. apply eqb_key.
    rewrite (key_finite f (f_of_int f 0)), Z0, Kv by auto. repeat split; auto using fin_nan.
    unfold q. replace (B2R x - B2R lo) with 0 by lra. rewrite rnd_0. unfold Rdiv. rewrite Rmult_0_l. apply rnd_0.
  - intros Hx. apply eqb_key in Hx as (_ & _ & Hx). rewrite !key_finite in Hx by auto. apply eqb_key.
    rewrite (key_finite f (f_of_int f 1)), O1, Kv by auto. repeat split; auto using fin_nan.
    unfold q. replace (B2R x) with (B2R hi) by lra. replace (_ / _) with 1 by (field; lra). apply rnd_id, fmt_1.
Qed.
Lemma offset_float f (b : Bounds3 (flt f)) p : exists o, b3_offset (f_elem f) b p = Done o /\ forall i,
  vcoord i o = if Bltb (coord i (b_min b)) (coord i (b_max b))
               then f_div (f_sub (coord i p) (coord i (b_min b))) (f_sub (coord i (b_max b)) (coord i (b_min b)))
               else f_sub (coord i p) (coord i (b_min b)).
Proof.
  unfold b3_offset, p3_sub, mk3, lift2. cbn [obind e_sub e_div e_lt f_elem].
  destruct (Bltb (px (b_min b)) (px (b_max b))) eqn:QX, (Bltb (py (b_min b)) (py (b_max b))) eqn:QY, (Bltb (pz (b_min b)) (pz (b_max b))) eqn:QZ;
    cbn [obind vx vy vz]; eexists; (split; [reflexivity|]); intros []; cbn [vcoord coord vx vy vz]; rewrite ?QX, ?QY, ?QZ; reflexivity.
Qed.
Lemma offset_thm f (b : Bounds3 (flt f)) p : bfinite b -> (forall i, is_finite (f_sub (coord i (b_max b)) (coord i (b_min b))) = true) ->
  inb (tle (TFloat f)) b p -> exists o, b3_offset (f_elem f) b p = Done o /\ forall i,
  Bltb (coord i (b_min b)) (coord i (b_max b)) = true ->
  Bleb (f_of_int f 0) (vcoord i o) = true /\ Bleb (vcoord i o) (f_of_int f 1) = true /\
  (Beqb (coord i p) (coord i (b_min b)) = true -> Beqb (vcoord i o) (f_of_int f 0) = true) /\
  (Beqb (coord i p) (coord i (b_max b)) = true -> Beqb (vcoord i o) (f_of_int f 1) = true).
Proof.
  intros [F1 F2] Fd Hp. destruct (offset_float f b p) as (o & E1 & K). exists o. split; [exact E1|]. intros i Hi.
  rewrite (K i), Hi. destruct (Hp i) as [P1 P2]. apply offset_axis; auto.
Qed.

(** ** bounding_sphere (C43) *)
Lemma mid_axis f (lo hi : flt f) : is_finite lo = true -> is_finite hi = true -> Bleb lo hi = true ->
  is_finite (f_add lo hi) = true ->
  let c := f_div (f_add lo hi) (f_of_int f 2) in Bleb lo c = true /\ Bleb c hi = true /\ is_finite c = true.
Proof.
  intros Fl Fh H Fs c. apply leb_key in H as (_ & _ & H). rewrite !key_finite in H by auto.
  destruct (add_key f lo hi Fl Fh) as (_ & Ks & Bs). rewrite Fs in Bs. symmetry in Bs.
  assert (Ls : Rabs (rnd f (B2R lo + B2R hi)) < big f) by (destruct (Rlt_bool_spec (Rabs (rnd f (B2R lo + B2R hi))) (big f)); congruence).
  rewrite key_finite, sat_in in Ks by auto.
  pose proof (two_val f) as [T2 TF]. assert (N2 : B2R (f_of_int f 2) <> 0) by lra.
  destruct (div_key f (f_add lo hi) (f_of_int f 2) Fs TF N2) as (Nc & Kc & Bc). fold c in Nc, Kc, Bc. rewrite Ks, T2 in Kc, Bc.
  assert (S1 : 2 * B2R lo <= rnd f (B2R lo + B2R hi)).
  { rewrite <- (rnd_id f (2 * B2R lo)) by apply fmt_double, fmt_B. apply rnd_le. lra. }
  assert (S2 : rnd f (B2R lo + B2R hi) <= 2 * B2R hi).
  { rewrite <- (rnd_id f (2 * B2R hi)) by apply fmt_double, fmt_B. apply rnd_le. lra. }
  assert (C1 : B2R lo <= rnd f (rnd f (B2R lo + B2R hi) / 2)) by (rewrite <- (rnd_B f lo) at 1; apply rnd_le; lra).
  assert (C2 : rnd f (rnd f (B2R lo + B2R hi) / 2) <= B2R hi) by (rewrite <- (rnd_B f hi) at 2; apply rnd_le; lra).
  pose proof (B2R_big f lo) as L1. pose proof (B2R_big f hi) as L2. apply Rabs_def2 in L1, L2.
  assert (Lc : Rabs (rnd f (rnd f (B2R lo + B2R hi) / 2)) < big f) by (apply Rabs_def1; lra).
  rewrite Rlt_bool_true in Bc by exact Lc. rewrite sat_in in Kc by exact Lc.
  split; [|split; [|exact Bc]]; apply leb_key; rewrite ?Kc, ?key_finite, ?Kc by auto; repeat split; auto using fin_nan; rewrite ?Kc; auto.
Qed.
Lemma inside_bool f (b : Bounds3 (flt f)) p : b3_inside (f_elem f) b p = true <-> inb (tle (TFloat f)) b p.
Proof. apply (inside_iff (f_elem f)). Qed.
Lemma sphere_float f (b : Bounds3 (flt f)) : bounding_sphere (f_float f) b =
  let m i := f_div (f_add (coord i (b_min b)) (coord i (b_max b))) (f_of_int f 2) in
  let c := P3 (m AX) (m AY) (m AZ) in
  r <~ (if b3_inside (f_elem f) b c then d <~ p3_sub (f_elem f) c (b_max b) ;; v3_len (f_float f) (f_elem f) (fun x => x) d else Done (f_of_int f 0)) ;;
  Done (c, r).
Proof. reflexivity. Qed.
Lemma sphere_inside f (b : Bounds3 (flt f)) : bfinite b -> normalised (tle (TFloat f)) b ->
  (forall i, is_finite (f_add (coord i (b_min b)) (coord i (b_max b))) = true) ->
  exists c r, bounding_sphere (f_float f) b = Done (c, r) /\ inb (tle (TFloat f)) b c.
Proof.
  intros [F1 F2] N S. rewrite sphere_float. cbv zeta.
  set (c := P3 _ _ _).
  assert (I : inb (tle (TFloat f)) b c).
  { intros i. destruct (mid_axis f _ _ (F1 i) (F2 i) (N i) (S i)) as (H1 & H2 & _). destruct i; split; assumption. }
  exists c. rewrite (proj2 (inside_bool f b c) I). eexists. split; [reflexivity|exact I].
Qed.
Lemma inf_half f (x y : flt f) : is_finite x = true -> is_finite y = true -> is_finite (f_add x y) = false ->
  exists s, f_div (f_add x y) (f_of_int f 2) = B754_infinity s.
Proof.
  intros Fx Fy F. destruct (add_key f x y Fx Fy) as (N & _ & _). destruct (f_add x y) as [|s| |]; try discriminate.
  exists s. destruct f, s; reflexivity.
Qed.
Lemma sphere_overflow f (b : Bounds3 (flt f)) : bfinite b ->
  (exists i, is_finite (f_add (coord i (b_min b)) (coord i (b_max b))) = false) ->
  exists c, bounding_sphere (f_float f) b = Done (c, f_of_int f 0).
Proof.
  intros [F1 F2] [i S]. rewrite sphere_float. cbv zeta. set (c := P3 _ _ _). exists c.
  destruct (b3_inside (f_elem f) b c) eqn:Q; [exfalso|reflexivity]. apply inside_bool in Q. destruct (Q i) as [Q1 Q2].
  destruct (inf_half f _ _ (F1 i) (F2 i) S) as [s E1].
  assert (E2 : coord i c = B754_infinity s) by (destruct i; exact E1). change (Bleb (coord i (b_min b)) (coord i c) = true) in Q1. change (Bleb (coord i c) (coord i (b_max b)) = true) in Q2. rewrite E2 in Q1, Q2.
  apply leb_key in Q1 as (_ & _ & Q1), Q2 as (_ & _ & Q2). pose proof (key_lt_big f _ (F1 i)). pose proof (key_lt_big f _ (F2 i)).
  destruct s; cbn in Q1, Q2; lra.
Qed.

(** ** Values *)
Definition isv f (x : flt f) (r : R) : Prop := is_finite x = true /\ B2R x = r.
Lemma isv_add f x y r s : isv f x r -> isv f y s -> fmt_real f (r + s) -> Rabs (r + s) < big f -> isv f (f_add x y) (r + s).
Proof.
  intros [Fx <-] [Fy <-] H B. destruct (add_key f x y Fx Fy) as (_ & K & Q). rewrite (rnd_id f _ H) in *.
  rewrite Rlt_bool_true in Q by exact B. split; auto. now rewrite <- key_finite, K, sat_in.
Qed.
Lemma isv_mult f x y r s : isv f x r -> isv f y s -> fmt_real f (r * s) -> Rabs (r * s) < big f -> isv f (f_mult x y) (r * s).
Proof.
  intros [Fx <-] [Fy <-] H B. destruct (mult_key f x y Fx Fy) as (_ & K & Q). rewrite (rnd_id f _ H) in *.
  rewrite Rlt_bool_true in Q by exact B. split; auto. now rewrite <- key_finite, K, sat_in.
Qed.
Lemma isv_zero f : isv f (f_of_int f 0) 0. Proof. destruct (zero_val f). now split. Qed.
Lemma isv_one f : isv f (f_of_int f 1) 1. Proof. destruct (one_val f). now split. Qed.
Lemma isv_eqb f x y r : isv f x r -> isv f y r -> Beqb x y = true.
Proof. intros [Fx <-] [Fy E]. apply eqb_key. rewrite !key_finite by auto. auto using fin_nan. Qed.
Lemma big_0 f : Rabs 0 < big f. Proof. rewrite Rabs_R0. apply big_pos. Qed.
Lemma isv_times f x r (d : bool) : isv f x r -> isv f (f_mult x (f_of_int f (if d then 1 else 0))) (if d then r else 0).
Proof.
  intros H. destruct d.
  - replace r with (r * 1) by ring. apply isv_mult; auto using isv_one; rewrite Rmult_1_r; destruct H as [? <-]; [apply fmt_B|apply B2R_big].
  - replace 0 with (r * 0) by ring. apply isv_mult; auto using isv_zero; rewrite Rmult_0_r; [apply fmt_0|apply big_0].
Qed.
(** A sum of four terms of which all but one are zero. *)
Lemma isv_sum f (t : ix -> flt f) (r : R) (k : ix) : fmt_real f r -> Rabs r < big f ->
  (forall i, isv f (t i) (if ix_eqb i k then r else 0)) ->
  isv f (f_add (f_add (f_add (f_add (f_of_int f 0) (t I0)) (t I1)) (t I2)) (t I3)) r.
Proof.
  intros G B H.
  assert (A : forall x y s, isv f x s -> isv f y 0 -> fmt_real f s -> Rabs s < big f -> isv f (f_add x y) s).
  { intros x y s X Y G' B'. replace s with (s + 0) by ring. apply isv_add; auto; now rewrite Rplus_0_r. }
  assert (A' : forall x y, isv f x 0 -> isv f y r -> isv f (f_add x y) r).
  { intros x y X Y. replace r with (0 + r) by ring. apply isv_add; auto; now rewrite Rplus_0_l. }
  pose proof (fmt_0 f). pose proof (big_0 f). pose proof (isv_zero f).
  pose proof (H I0). pose proof (H I1). pose proof (H I2). pose proof (H I3). destruct k; cbn [ix_eqb] in *; auto 10.
Qed.
Lemma cell_float f a b r c : cell (f_elem f) a b r c =
  Done (let t i := f_mult (mget a r i) (mget b i c) in f_add (f_add (f_add (f_add (f_of_int f 0) (t I0)) (t I1)) (t I2)) (t I3)).
Proof. reflexivity. Qed.
Lemma m4_eq_iff {T} (E : Elem T) a b : m4_eq E a b = true <-> forall r c, e_eq E (mget a r c) (mget b r c) = true.
Proof.
  unfold m4_eq, v4_eq. rewrite !Bool.andb_true_iff. split.
  - intros H r c. destruct r, c; cbn [mget vget]; tauto.
  - intros H. pose proof (fun r => conj (H r I0) (conj (H r I1) (conj (H r I2) (H r I3)))) as K. cbn [mget vget] in K.
    pose proof (K I0). pose proof (K I1). pose proof (K I2). pose proof (K I3). cbn [mget vget] in *. tauto.
Qed.
Lemma ident_unit_float f (a : Matrix4 (flt f)) : (forall r c, is_finite (mget a r c) = true) ->
  exists l r, m4_mul (f_elem f) (f_ident f) a = Done l /\ m4_mul (f_elem f) a (f_ident f) = Done r /\
    m4_eq (f_elem f) l a = true /\ m4_eq (f_elem f) r a = true.
Proof.
  intros Fa. rewrite !mul_fill.
  erewrite (fill_done _ (cell (f_elem f) (f_ident f) a)) by (intros; apply cell_float).
  erewrite (fill_done _ (cell (f_elem f) a (f_ident f))) by (intros; apply cell_float).
  do 2 eexists. do 2 (split; [reflexivity|]). unfold f_ident, ident_of.
  assert (V : forall r c, isv f (mget a r c) (B2R (mget a r c))) by (intros; split; auto).
  split; apply m4_eq_iff; intros r c; rewrite mget_mkm; cbv zeta; cbn [e_eq f_elem]; (eapply isv_eqb; [|apply V]).
  - apply (isv_sum f (fun i => f_mult (mget _ r i) (mget a i c)) _ r); [apply fmt_B|apply B2R_big|]. intros i. rewrite mget_mkm.
    rewrite Bmult_comm'. replace (if ix_eqb r i then f_of_int f 1 else f_of_int f 0) with (f_of_int f (if ix_eqb i r then 1 else 0)) by (destruct i, r; reflexivity).
    destruct (ix_eqb i r) eqn:Q; [|apply (isv_times f _ (B2R (mget a i c)) false), V].
    replace i with r by (destruct i, r; try discriminate; reflexivity). apply (isv_times f _ _ true), V.
  - apply (isv_sum f (fun i => f_mult (mget a r i) (mget _ i c)) _ c); [apply fmt_B|apply B2R_big|]. intros i. rewrite mget_mkm.
    replace (if ix_eqb i c then f_of_int f 1 else f_of_int f 0) with (f_of_int f (if ix_eqb i c then 1 else 0)) by (destruct i, c; reflexivity).
    destruct (ix_eqb i c) eqn:Q; [|apply (isv_times f _ (B2R (mget a r i)) false), V].
    replace i with c by (destruct i, c; try discriminate; reflexivity). apply (isv_times f _ _ true), V.
Qed.

(** ** translate (C56) *)
Lemma sign_one f : Bsign (f_of_int f 1) = false. Proof. destruct f; reflexivity. Qed.
Lemma mult_1_l f (x : flt f) : is_finite x = true -> f_mult (f_of_int f 1) x = x.
Proof.
  intros Fx. pose proof (Bmult_correct _ _ (fprec_gt_0 f) (fprec_lt_emax f) mode_NE (f_of_int f 1) x) as H.
  destruct (one_val f) as [O F1]. rewrite O, Rmult_1_l in H.
  change (round radix2 (SpecFloat.fexp (fprec f) (femax f)) (round_mode mode_NE) (B2R x)) with (rnd f (B2R x)) in H. rewrite rnd_B in H.
  rewrite Rlt_bool_true in H by apply B2R_big. destruct H as (H1 & H2 & H3).
  rewrite F1, Fx in H2. apply B2R_Bsign_inj; auto. etransitivity; [apply H3, fin_nan, H2|]. rewrite sign_one. now destruct (Bsign x).
Qed.
Lemma mult_1_r f (x : flt f) : is_finite x = true -> f_mult x (f_of_int f 1) = x.
Proof. intros. rewrite Bmult_comm'. now apply mult_1_l. Qed.
Lemma mult_0_l f (x : flt f) : is_finite x = true -> f_mult (f_of_int f 0) x = B754_zero (Bsign x).
Proof. rewrite zero_is. destruct x as [[]| |  |[]]; try discriminate; reflexivity. Qed.
Lemma mult_0_r f (x : flt f) : is_finite x = true -> f_mult x (f_of_int f 0) = B754_zero (Bsign x).
Proof. intros. rewrite Bmult_comm'. now apply mult_0_l. Qed.
Definition norm0 {f} (x : flt f) : flt f := match x with B754_zero _ => B754_zero false | _ => x end.
Lemma add_0_l f (x : flt f) : f_add (B754_zero false) x = norm0 x.
Proof. destruct x as [[]|[]| |[]]; reflexivity. Qed.
Lemma add_norm0 f (x : flt f) s : f_add (norm0 x) (B754_zero s) = norm0 x.
Proof. destruct x as [[]|[]| |[]], s; reflexivity. Qed.
Lemma add_norm0_pos f (x : flt f) s : f_add x (B754_zero s) = (if is_nan x then x else match x with B754_zero a => B754_zero (andb a s) | _ => x end).
Proof. destruct x as [[]|[]| |[]], s; reflexivity. Qed.
Lemma add_opp_norm0 f (x : flt f) : is_finite x = true -> f_add (norm0 (Bopp x)) x = B754_zero false.
Proof.
  intros Fx. destruct x as [[]|[]| |s m e H]; try discriminate; try reflexivity. cbn [Bopp norm0].
  set (x := B754_finite s m e H). change (B754_finite (negb s) m e H) with (Bopp x).
  pose proof (Bplus_correct _ _ (fprec_gt_0 f) (fprec_lt_emax f) mode_NE (Bopp x) x) as K.
  rewrite is_finite_Bopp in K. specialize (K Fx Fx). rewrite B2R_Bopp in K. replace (- B2R x + B2R x) with 0 in K by ring.
  rewrite round_0 in K by (apply valid_rnd_round_mode). rewrite Rlt_bool_true in K by (apply (big_0 f)). destruct K as (K1 & K2 & K3).
  apply B2R_Bsign_inj; auto. etransitivity; [exact K3|]. rewrite Rcompare_Eq by reflexivity. destruct s; reflexivity.
Qed.
Lemma translate_float f (d : Vector3 (flt f)) : vfinite d ->
  exists t, t_translate (f_float f) d = Done t /\
    m4_mul (f_elem f) (t_m t) (t_inv t) = Done (f_ident f) /\ m4_mul (f_elem f) (t_inv t) (t_m t) = Done (f_ident f).
Proof.
  intros Fd. eexists. split; [reflexivity|]. cbn [t_m t_inv].
  pose proof (Fd AX) as Fx. pose proof (Fd AY) as Fy. pose proof (Fd AZ) as Fz. cbn [vcoord] in *. destruct d as [x y z]. cbn [vx vy vz] in *.
  pose proof (proj2 (zero_val f)) as F0. pose proof (proj2 (one_val f)) as F1.
  assert (FO : forall x : flt f, is_finite x = true -> is_finite (Bopp x) = true) by (intros; now rewrite is_finite_Bopp).
  rewrite !mul_fill. split; apply fill_done; intros r c; rewrite cell_float; cbv zeta.
  - destruct r, c; cbn [mget vget w0 w1 w2 w3 ix_eqb e_from_int f_float f_elem fl_elem];
    rewrite ?mult_1_l, ?mult_1_r, ?mult_0_l, ?mult_0_r by auto; rewrite ?zero_is, ?add_0_l; cbn [norm0]; rewrite ?add_0_l, ?add_norm0; cbn [norm0]; rewrite ?add_0_l, ?add_norm0; cbn [norm0]; rewrite ?add_0_l; f_equal; auto using add_opp_norm0; try (destruct f; reflexivity).
  - assert (AO : forall x : flt f, is_finite x = true -> f_add (norm0 x) (Bopp x) = B754_zero false).
    { intros u Fu. rewrite <- (Bopp_involutive _ _ u) at 1. apply add_opp_norm0. now rewrite is_finite_Bopp. }
    destruct r, c; cbn [mget vget w0 w1 w2 w3 ix_eqb e_from_int f_float f_elem fl_elem];
    rewrite ?mult_1_l, ?mult_1_r, ?mult_0_l, ?mult_0_r by auto; rewrite ?zero_is, ?add_0_l; cbn [norm0]; rewrite ?add_0_l, ?add_norm0; cbn [norm0]; rewrite ?add_0_l, ?add_norm0; cbn [norm0]; rewrite ?add_0_l; f_equal; auto; try (destruct f; reflexivity).
Qed.

(** ** dot, cross (C60) *)
Lemma dot_float f (u v : Vector3 (flt f)) : v3_dot (f_elem f) u v =
  Done (f_add (f_add (f_mult (vx u) (vx v)) (f_mult (vy u) (vy v))) (f_mult (vz u) (vz v))).
Proof. reflexivity. Qed.
Lemma dot_sym_float f (u v : Vector3 (flt f)) : v3_dot (f_elem f) u v = v3_dot (f_elem f) v u.
Proof. rewrite !dot_float. now rewrite (Bmult_comm' f (vx u)), (Bmult_comm' f (vy u)), (Bmult_comm' f (vz u)). Qed.
Lemma cross_anti_float f (u v : Vector3 (flt f)) : exists a b nb, v3_cross (f_elem f) u v = Done a /\ v3_cross (f_elem f) v u = Done b /\
  v3_neg (f_elem f) b = Done nb /\ vveq f a nb.
Proof.
  do 3 eexists. do 3 (split; [reflexivity|]). intros i.
  destruct i; cbn [vcoord vx vy vz]; rewrite ?(Bmult_comm' f (vy v)), ?(Bmult_comm' f (vz v)), ?(Bmult_comm' f (vx v)); apply sub_anti.
Qed.

(** ** face_forward (C61) *)
Lemma dot_neg_float f (u v : Vector3 (flt f)) : exists n d d', v3_neg (f_elem f) u = Done n /\ v3_dot (f_elem f) u v = Done d /\
  v3_dot (f_elem f) n v = Done d' /\ veq f d' (Bopp d).
Proof.
  do 3 eexists. do 3 (split; [reflexivity|]). cbn [vx vy vz].
  eapply veq_trans; [|apply add_neg]. apply add_veq2; [|apply mult_neg]. eapply veq_trans; [|apply add_neg]. apply add_veq2; apply mult_neg.
Qed.
Lemma face_forward_float f (u v : Vector3 (flt f)) : exists w d, v3_face_forward (f_elem f) u v = Done w /\
  (w = u \/ v3_neg (f_elem f) u = Done w) /\ v3_dot (f_elem f) w v = Done d /\ Bltb d (f_of_int f 0) = false.
Proof.
  destruct (dot_neg_float f u v) as (n & d & d' & N & D & D' & Q). unfold v3_face_forward. rewrite D. cbn [obind e_lt f_elem e_from_int].
  destruct (Bltb d (f_of_int f 0)) eqn:L.
  - exists n, d'. split; [exact N|]. split; [auto|]. split; [exact D'|].
    apply ltb_key in L as (L1 & _ & L). apply veq_key in Q as [Q1 Q2]. rewrite nan_opp, L1 in Q1. rewrite key_opp in Q2.
    destruct (Bltb d' (f_of_int f 0)) eqn:L'; auto. apply ltb_key in L' as (_ & _ & L'). rewrite Q2 in L' by auto.
    rewrite (key_finite f (f_of_int f 0)), (proj1 (zero_val f)) in * by apply zero_val. lra.
  - exists u, d. auto.
Qed.
Lemma n3_face_forward_as_v3 {T} (E : Elem T) (u v : Normal3 T) :
  n3_face_forward E u v = (w <~ v3_face_forward E (V3 (nx u) (ny u) (nz u)) (V3 (nx v) (ny v) (nz v)) ;; Done (n3_from_v3 w)).
Proof.
  unfold n3_face_forward, v3_face_forward, n3_dot, v3_dot, n3_neg, v3_neg, n3_from_v3. cbn [vx vy vz].
  match goal with |- obind ?m _ = _ => destruct m; cbn [obind]; auto end.
  destruct (e_lt E a (e_from_int E 0)); cbn [obind]; [|destruct u; reflexivity].
  unfold mk3. destruct (e_neg E (nx u)); cbn [obind]; auto. destruct (e_neg E (ny u)); cbn [obind]; auto. destruct (e_neg E (nz u)); reflexivity.
Qed.

(** ** Vector2 division (C62) *)
Lemma v2_div_float f (v : Vector2 (flt f)) s : v2_div (f_elem f) v s =
  if Beqb s (f_of_int f 0) then Panic else Done (V2 (f_mult (v2x v) s) (f_mult (v2y v) s)).
Proof. unfold v2_div. cbn [e_eq f_elem e_from_int]. destruct (Beqb s _); reflexivity. Qed.
Lemma v2_div_int chk (v : Vector2 Z) s : v2_div (i64 chk) v s =
  if (s =? 0)%Z then Panic else
  if chk && negb (in_range (v2x v * s) && in_range (v2y v * s)) then Panic else Done (V2 (wrap (v2x v * s)) (wrap (v2y v * s))).
Proof.
  unfold v2_div. cbn [e_eq i64 e_from_int]. destruct (s =? 0)%Z; cbn [negb]; auto. unfold mk2, lift2. cbn [obind e_mul i64].
  unfold arith. destruct (in_range (v2x v * s)) eqn:Q1, (in_range (v2y v * s)) eqn:Q2, chk; cbn; try rewrite (wrap_id _ Q1); try rewrite (wrap_id _ Q2); reflexivity.
Qed.

(** ** Ray::at (C65) *)
Lemma at_zero_float f (r : Ray (flt f)) : pfinite (r_o r) -> vfinite (r_d r) ->
  exists p, ray_at (f_float f) r (f_of_int f 0) = Done p /\ forall i, Beqb (coord i p) (coord i (r_o r)) = true.
Proof.
  intros Fo Fd. eexists. split; [reflexivity|]. intros i.
  assert (K : forall o d : flt f, is_finite o = true -> is_finite d = true -> Beqb (f_add o (f_mult (f_of_int f 0) d)) o = true).
  { intros o d Ho Hd. assert (V : isv f o (B2R o)) by (split; auto). eapply isv_eqb; [|exact V].
    replace (B2R o) with (B2R o + 0) by ring. apply isv_add; auto; [|rewrite Rplus_0_r; apply fmt_B|rewrite Rplus_0_r; apply B2R_big].
    rewrite Bmult_comm'. apply (isv_times f d (B2R d) false). split; auto. }
  destruct i; cbn [coord px py pz vx vy vz]; apply K; first [exact (Fo AX)|exact (Fo AY)|exact (Fo AZ)|exact (Fd AX)|exact (Fd AY)|exact (Fd AZ)].
Qed.

(** ** Conversions (C67) *)
Lemma conv_thm {T} (p : Point3 T) (v : Vector3 T) : p3_from_v3 (v3_from_p3 p) = p /\ v3_from_p3 (p3_from_v3 v) = v /\
  forall i, ncoord i (n3_from_v3 v) = vcoord i v /\ vcoord i (v3_from_p3 p) = coord i p.
Proof. destruct p, v. repeat split; destruct i; reflexivity. Qed.
Lemma p2_from_p3_thm {T} (E : Elem T) (p : Point3 T) :
  ((exists i, e_is_nan E (coord i p) = true) /\ p2_from_p3 E p = Panic) \/
  ((forall i, e_is_nan E (coord i p) = false) /\ p2_from_p3 E p = Done (P2 (px p) (py p))).
Proof.
  unfold p2_from_p3, p3_has_nan. destruct (e_is_nan E (px p)) eqn:X; [left; split; [now exists AX|reflexivity]|].
  destruct (e_is_nan E (py p)) eqn:Y; [left; split; [now exists AY|reflexivity]|].
  destruct (e_is_nan E (pz p)) eqn:W; [left; split; [now exists AZ|reflexivity]|]. right. split; [intros []; assumption|reflexivity].
Qed.

(** ** floor and ceil (C68) *)
Lemma round_fix_int rm x {V : Valid_rnd rm} : round radix2 (FIX_exp 0) rm x = IZR (rm x).
Proof. unfold round, F2R, scaled_mantissa, cexp, FIX_exp. cbn [Fnum Fexp bpow Z.opp]. now rewrite !Rmult_1_r. Qed.
Lemma floor_axis f (x : flt f) : is_finite x = true ->
  let lo := Bnearbyint mode_DN x in let hi := Bnearbyint mode_UP x in
  is_finite lo = true /\ is_finite hi = true /\ B2R lo = IZR (Zfloor (B2R x)) /\ B2R hi = IZR (Zceil (B2R x)).
Proof.
  intros Fx lo hi. destruct (Bnearbyint_correct _ _ (fprec_lt_emax f) mode_DN x) as (H1 & H2 & _).
  destruct (Bnearbyint_correct _ _ (fprec_lt_emax f) mode_UP x) as (K1 & K2 & _). fold lo in H1, H2. fold hi in K1, K2.
  rewrite Fx in H2, K2. rewrite H1, K1. cbn [round_mode]. rewrite !round_fix_int by (apply valid_rnd_DN || apply valid_rnd_UP). auto.
Qed.
Lemma floor_ceil_thm f (p : Point3 (flt f)) : pfinite p -> forall i,
  let x := B2R (coord i p) in let lo := coord i (p3_floor (f_float f) p) in let hi := coord i (p3_ceil (f_float f) p) in
  is_finite lo = true /\ is_finite hi = true /\ integral (B2R lo) /\ integral (B2R hi) /\
  B2R lo <= x < B2R lo + 1 /\ x <= B2R hi < x + 1 /\
  Bleb lo (coord i p) = true /\ Bleb (coord i p) hi = true.
Proof.
  intros Fp i x lo hi. destruct (floor_axis f (coord i p) (Fp i)) as (F1 & F2 & V1 & V2).
  assert (E1 : lo = Bnearbyint mode_DN (coord i p)) by (destruct i; reflexivity).
  assert (E2 : hi = Bnearbyint mode_UP (coord i p)) by (destruct i; reflexivity).
  rewrite <- E1 in F1, V1. rewrite <- E2 in F2, V2. fold x in V1, V2.
  pose proof (Zfloor_lb x). pose proof (Zfloor_ub x). pose proof (Zceil_ub x). pose proof (Zceil_lb x).
  assert (A : B2R lo <= x) by lra. assert (B : x <= B2R hi) by lra.
  repeat split; auto; try lra; try (eexists; eassumption); apply leb_key; rewrite !key_finite by auto; auto using fin_nan.
Qed.

(** ** expand on i64 (C37) *)
Lemma expand_int chk (b : Bounds3 Z) d p : (0 <= d)%Z -> (forall i, in_range (coord i (b_min b) - d) = true /\ in_range (coord i (b_max b) + d) = true) ->
  inb (tle (TInt chk)) b p -> exists b', b3_expand (i64 chk) b d = Done b' /\ inb (tle (TInt chk)) b' p.
Proof.
  intros Hd R Hp. unfold b3_expand, p3_sub_v, p3_add, mk3, lift2. cbn [obind e_sub e_add i64 vx vy vz].
  destruct (R AX) as [X1 X2], (R AY) as [Y1 Y2], (R AZ) as [Z1 Z2]. cbn [coord] in *. rewrite !IntThms.arith_in by assumption. cbn [obind].
  assert (C : forall q : Bounds3 Z, inb (tle (TInt chk)) q p <-> inb (fun a b => e_le (i64 chk) a b = true) q p).
  { intros q. unfold inb. cbn [tle e_le i64]. split; intros H i; destruct (H i); split; apply Z.leb_le; assumption. }
  destruct (new_contains (i64 chk) (i64_laws chk) (P3 (px (b_min b) - d) (py (b_min b) - d) (pz (b_min b) - d))%Z
              (P3 (px (b_max b) + d) (py (b_max b) + d) (pz (b_max b) + d))%Z b p) as (b' & E1 & K).
  - intros []; cbn [e_le i64 coord px py pz]; lia.
  - apply C, Hp.
  - exists b'. split; [exact E1|apply C, K].
Qed.
Lemma expand_int_panic (b : Bounds3 Z) d : (exists i, in_range (coord i (b_min b) - d) = false \/ in_range (coord i (b_max b) + d) = false) ->
  b3_expand (i64 true) b d = Panic.
Proof.
  intros [i H]. unfold b3_expand, p3_sub_v, p3_add, mk3, lift2. cbn [obind e_sub e_add i64 vx vy vz]. unfold arith.
  destruct i; cbn [coord] in H;
  destruct (in_range (px (b_min b) - d)) eqn:?, (in_range (py (b_min b) - d)) eqn:?, (in_range (pz (b_min b) - d)) eqn:?; cbn [obind]; auto;
  destruct (in_range (px (b_max b) + d)) eqn:?, (in_range (py (b_max b) + d)) eqn:?, (in_range (pz (b_max b) + d)) eqn:?; cbn [obind]; auto;
  destruct H; congruence.
Qed.
