(** Vectors under transformations; volumes in rounded arithmetic; rays; inverse of integer matrices. *)
From Coq Require Import ZArith Reals Lia Lra.
From Flocq Require Import Core.Core IEEE754.BinarySingleNaN.
From Verif Require Import Base Elem GeoModel MatModel MatSpec FloatInst ExactInst GeoSpec ArithSpec OpsSpec.
From Verif Require Import OrderProofs BoxThms ExactThms IntThms MatThms InvThms TransThms FloatCore FloatThms OpsThms.
Local Open Scope mon_scope.
Local Open Scope R_scope.

(** ** Integer vectors: the length is computed from the exact square *)
Lemma of_int_correct f z : in_range z = true -> is_finite (f_of_int f z) = true /\ B2R (f_of_int f z) = nearest f (IZR z).
Proof.
  intros Hz. apply range_iff in Hz. pose proof (binary_normalize_correct _ _ (fprec_gt_0 f) (fprec_lt_emax f) mode_NE z 0 false) as H.
  assert (R0 : F2R (Float radix2 z 0) = IZR z) by (unfold F2R; cbn; lra).
  cbv zeta in H. rewrite R0 in H. rewrite Rlt_bool_true in H.
  - split; apply H.
  - apply Rle_lt_trans with (bpow radix2 63).
    + apply abs_round_le_generic; [apply fexp_valid|apply valid_rnd_round_mode|apply generic_format_bpow; unfold SpecFloat.fexp, SpecFloat.emin; destruct f; cbn; lia|].
      rewrite <- abs_IZR. change (bpow radix2 63) with (IZR (2 ^ 63)). apply IZR_le. lia.
    + apply bpow_lt. destruct f; cbn; lia.
Qed.
Lemma sqrt_correct f (x : flt f) : fnn f x -> is_finite x = true -> is_finite (Bsqrt mode_NE x) = true /\ B2R (Bsqrt mode_NE x) = nearest f (sqrt (B2R x)).
Proof.
  intros Hx Fx. pose proof (Bsqrt_correct _ _ (fprec_gt_0 f) (fprec_lt_emax f) mode_NE x) as (HR & HF & _). split; [|exact HR].
  destruct x as [s|[]| |s m e Hb]; try discriminate; [reflexivity|]. destruct s; [|exact HF]. exfalso.
  destruct Hx as [_ Kx]. rewrite key_finite in Kx by reflexivity. cbn in Kx.
  assert (F2R (Float radix2 (Z.neg m) e) < 0) by (apply F2R_lt_0; reflexivity). cbn in *; lra.
Qed.
Lemma len_int f (v : Vector3 Z) : vec_range v ->
  v3_len (f_float f) (i64 true) (f_of_int f) v = Panic \/
  exists l, v3_len (f_float f) (i64 true) (f_of_int f) v = Done l /\ is_finite l = true /\ B2R l = nearest f (sqrt (nearest f (IZR (dotZ v v)))).
Proof.
  intros Hv. unfold v3_len. destruct (len_sq_exact true v Hv) as [->|[-> Hr]]; [auto|right]. cbn [obind].
  destruct (of_int_correct f _ Hr) as [F1 R1]. eexists. split; [reflexivity|].
  destruct (sqrt_correct f (f_of_int f (dotZ v v))) as [F2 R2]; auto.
  - split; [now apply fin_nan|]. rewrite key_finite, R1 by auto. apply (rnd_nonneg f). apply IZR_le. unfold dotZ. nia.
  - split; auto. now rewrite R2, R1.
Qed.
(** Without overflow checks the square wraps around and its root can be NaN. *)
Lemma len_int_nan : exists v l, vec_range v /\ v3_len (f_float F32) (i64 false) (f_of_int F32) v = Done l /\ is_nan l = true.
Proof.
  exists (V3 3037000500 0 0)%Z. eexists. split; [intros []; reflexivity|]. split; [reflexivity|]. vm_compute. reflexivity.
Qed.

(** ** Volume and surface area in rounded arithmetic *)
Lemma fnn_sub f (lo hi : flt f) : is_finite lo = true -> is_finite hi = true -> Bleb lo hi = true -> fnn f (f_sub hi lo).
Proof.
  intros F1 F2 H. apply leb_key in H as (_ & _ & H). rewrite !key_finite in H by auto.
  destruct (sub_key f hi lo F2 F1) as (N & K & _). split; auto. rewrite K. apply sat_nonneg, rnd_nonneg. lra.
Qed.
Definition fext {f} (b : Bounds3 (flt f)) i : flt f := f_sub (coord i (b_max b)) (coord i (b_min b)).
Lemma ext_nonneg f (b : Bounds3 (flt f)) i : bfinite b -> normalised (tle (TFloat f)) b -> fnn f (fext b i).
Proof. intros [F1 F2] H. apply fnn_sub; auto. apply H. Qed.
Lemma volume_float f (b : Bounds3 (flt f)) : b3_volume (f_elem f) b = Done (f_mult (f_mult (fext b AX) (fext b AY)) (fext b AZ)).
Proof. reflexivity. Qed.
Lemma area_float f (b : Bounds3 (flt f)) : b3_surface_area (f_elem f) b =
  Done (f_mult (f_of_int f 2) (f_add (f_add (f_mult (fext b AX) (fext b AY)) (f_mult (fext b AX) (fext b AZ))) (f_mult (fext b AY) (fext b AZ)))).
Proof. reflexivity. Qed.
Lemma fnn_inf f (x : flt f) : fnn f x -> is_finite x = false -> x = B754_infinity false.
Proof. intros [N K] H. pose proof (big_pos f). destruct x as [|[]| |]; try discriminate; auto. cbn in K. lra. Qed.
Lemma fnn_two f x : fnn f x -> fnn f (f_mult (f_of_int f 2) x).
Proof.
  intros H. destruct (is_finite x) eqn:Fx.
  - apply fnn_mult; auto; [|split; auto; apply two_val]. split; [apply fin_nan, two_val|].
    rewrite key_finite, (proj1 (two_val f)) by apply two_val. lra.
  - rewrite (fnn_inf f x H Fx). assert (Q : f_mult (f_of_int f 2) (B754_infinity false) = (B754_infinity false : flt f)) by (destruct f; reflexivity).
    rewrite Q. pose proof (big_pos f). split; [reflexivity|]. change (0 <= big f). lra.
Qed.
Lemma area_nonneg_float f (b : Bounds3 (flt f)) : bfinite b -> normalised (tle (TFloat f)) b ->
  (forall i, is_finite (fext b i) = true) ->
  exists s, b3_surface_area (f_elem f) b = Done s /\ Bleb (f_of_int f 0) s = true.
Proof.
  intros Fb Hb Fe. rewrite area_float. eexists. split; [reflexivity|]. apply fnn_le, fnn_two.
  assert (P : forall i j, fnn f (f_mult (fext b i) (fext b j))).
  { intros i j. apply fnn_mult; auto using ext_nonneg. }
  apply fnn_add; [apply fnn_add|]; apply P.
Qed.
Lemma zero_iff f (x : flt f) : is_nan x = false -> Beqb x (f_of_int f 0) = true <-> key f x = 0.
Proof.
  intros N. rewrite eqb_key, (key_finite f (f_of_int f 0)), (proj1 (zero_val f)) by apply zero_val.
  pose proof (fin_nan f _ (proj2 (zero_val f))). tauto.
Qed.
Lemma volume_cases f (b : Bounds3 (flt f)) : bfinite b -> normalised (tle (TFloat f)) b ->
  (forall i, is_finite (fext b i) = true) ->
  exists v, b3_volume (f_elem f) b = Done v /\
    (is_nan v = true <-> is_finite (f_mult (fext b AX) (fext b AY)) = false /\ Beqb (fext b AZ) (f_of_int f 0) = true) /\
    (is_nan v = false -> Bleb (f_of_int f 0) v = true).
Proof.
  intros Fb Hb Fe. rewrite volume_float. eexists. split; [reflexivity|].
  assert (P : fnn f (f_mult (fext b AX) (fext b AY))) by (apply fnn_mult; auto using ext_nonneg).
  pose proof (ext_nonneg f b AZ Fb Hb) as Z. pose proof (proj1 Z) as NZ. rewrite (zero_iff f (fext b AZ) NZ).
  set (xy := f_mult (fext b AX) (fext b AY)) in *. set (z := fext b AZ) in *.
  destruct (is_finite xy) eqn:Fxy.
  - pose proof (fnn_mult f xy z P Z (conj Fxy (Fe AZ))) as Q. split; [|intros _; now apply fnn_le].
    split; [|intros [? _]; discriminate]. destruct Q as [Q _]. intros K. congruence.
  - rewrite (fnn_inf f xy P Fxy). pose proof (Fe AZ) as FZ. fold z in FZ. destruct Z as [_ KZ]. pose proof (big_pos f) as Bp.
    destruct z as [s|s| |s m e Hbd]; try discriminate.
    + split; [split; auto|]. cbn. discriminate.
    + rewrite key_finite in * by reflexivity. destruct s.
      { exfalso. assert (F2R (Float radix2 (Z.neg m) e) < 0) by (apply F2R_lt_0; reflexivity). cbn in *; lra. }
      assert (0 < F2R (Float radix2 (Z.pos m) e)) by (apply F2R_gt_0; reflexivity). split.
      * split; [discriminate|]. intros [_ H0]. cbn in *. lra.
      * intros _. apply fnn_le. split; [reflexivity|]. cbn. lra.
Qed.
(** Monotone: a larger box does not have a smaller volume or area. *)
Lemma add_mono f (a b c d : flt f) : fnn f a -> fnn f c -> Bleb a b = true -> Bleb c d = true -> Bleb (f_add a c) (f_add b d) = true.
Proof.
  intros Ha Hc H1 H2. pose proof H1 as K1. pose proof H2 as K2. apply leb_key in K1 as (_ & Nb & K1), K2 as (_ & Nd & K2).
  assert (Hb : fnn f b) by (split; [auto|destruct Ha; lra]). assert (Hd : fnn f d) by (split; [auto|destruct Hc; lra]).
  pose proof (fnn_add f a c Ha Hc) as [N1 _]. pose proof (fnn_add f b d Hb Hd) as [N2 _]. apply leb_key. split; auto. split; auto.
  assert (Top : forall x : flt f, is_nan x = false -> key f x <= big f).
  { intros x N. destruct (is_finite x) eqn:Fx; [pose proof (key_lt_big f x Fx); lra|destruct (key_inf_big f x N Fx); pose proof (big_pos f); lra]. }
  destruct (is_finite b) eqn:Fb.
  - assert (Fa : is_finite a = true).
    { destruct (is_finite a) eqn:Q; auto. rewrite (fnn_inf f a Ha Q) in K1. pose proof (key_lt_big f b Fb). cbn in K1. lra. }
    destruct (is_finite d) eqn:Fd.
    + assert (Fc : is_finite c = true).
      { destruct (is_finite c) eqn:Q; auto. rewrite (fnn_inf f c Hc Q) in K2. pose proof (key_lt_big f d Fd). cbn in K2. lra. }
      destruct (add_key f a c Fa Fc) as (_ & -> & _). destruct (add_key f b d Fb Fd) as (_ & -> & _).
      rewrite !key_finite in K1, K2 by auto. apply sat_le, rnd_le. lra.
    + rewrite (fnn_inf f d Hd Fd). destruct b; try discriminate; now apply (Top (f_add a c)).
  - rewrite (fnn_inf f b Hb Fb). destruct d as [|[]| |]; try discriminate; try (destruct Hd as [_ Q]; cbn in Q; pose proof (big_pos f); lra); now apply (Top (f_add a c)).
Qed.
Lemma mult_mono f (a b c d : flt f) : fnn f a -> fnn f c -> Bleb a b = true -> Bleb c d = true ->
  is_finite b = true -> is_finite d = true ->
  Bleb (f_mult a c) (f_mult b d) = true /\ is_finite a = true /\ is_finite c = true.
Proof.
  intros Ha Hc H1 H2 Fb Fd. apply leb_key in H1 as (_ & Nb & K1), H2 as (_ & Nd & K2).
  assert (Fa : is_finite a = true).
  { destruct (is_finite a) eqn:Q; auto. rewrite (fnn_inf f a Ha Q) in K1. pose proof (key_lt_big f b Fb). cbn in K1. lra. }
  assert (Fc : is_finite c = true).
  { destruct (is_finite c) eqn:Q; auto. rewrite (fnn_inf f c Hc Q) in K2. pose proof (key_lt_big f d Fd). cbn in K2. lra. }
  split; auto. destruct Ha as [_ Pa], Hc as [_ Pc]. rewrite !key_finite in * by auto.
  destruct (mult_key f a c Fa Fc) as (M1 & M2 & _). destruct (mult_key f b d Fb Fd) as (M3 & M4 & _).
  apply leb_key. split; auto. split; auto. rewrite M2, M4. apply sat_le, rnd_le. apply Rmult_le_compat; auto.
Qed.
Lemma two_mono f (a b : flt f) : fnn f a -> Bleb a b = true -> Bleb (f_mult (f_of_int f 2) a) (f_mult (f_of_int f 2) b) = true.
Proof.
  intros Ha H. assert (T : fnn f (f_of_int f 2)).
  { split; [apply fin_nan, two_val|]. rewrite key_finite, (proj1 (two_val f)) by apply two_val. lra. }
  destruct (is_finite b) eqn:Fb.
  - apply mult_mono; auto; [|apply two_val]. apply leb_key. split; [apply T|]. split; [apply T|]. lra.
  - pose proof H as K. apply leb_key in K as (_ & Nb & K). assert (Hb : fnn f b) by (split; [auto|destruct Ha; lra]).
    rewrite (fnn_inf f b Hb Fb). pose proof (fnn_two f a Ha) as [N _].
    assert (Q : f_mult (f_of_int f 2) (B754_infinity false) = (B754_infinity false : flt f)) by (destruct f; reflexivity). rewrite Q.
    apply leb_key. split; auto. split; [reflexivity|]. pose proof (big_pos f). set (z := f_mult (f_of_int f 2) a) in *. cbn [key].
    destruct (is_finite z) eqn:Fz; [pose proof (key_lt_big f z Fz); lra|destruct (key_inf_big f z N Fz); lra].
Qed.
Lemma sub_mono f (lo lo' hi hi' : flt f) : is_finite lo = true -> is_finite hi = true -> is_finite lo' = true -> is_finite hi' = true ->
  Bleb lo' lo = true -> Bleb hi hi' = true -> Bleb (f_sub hi lo) (f_sub hi' lo') = true.
Proof.
  intros F1 F2 F3 F4 H1 H2. apply leb_key in H1 as (_ & _ & H1), H2 as (_ & _ & H2). rewrite !key_finite in H1, H2 by auto.
  destruct (sub_key f hi lo F2 F1) as (N & K & _). destruct (sub_key f hi' lo' F4 F3) as (N' & K' & _).
  apply leb_key. split; auto. split; auto. rewrite K, K'. apply sat_le, rnd_le. lra.
Qed.
Lemma normalised_corners f (b : Bounds3 (flt f)) : bfinite b -> normalised (tle (TFloat f)) b ->
  inb (tle (TFloat f)) b (b_min b) /\ inb (tle (TFloat f)) b (b_max b).
Proof.
  intros [F1 F2] H. assert (R : forall x : flt f, is_finite x = true -> Bleb x x = true).
  { intros x Fx. apply leb_key. pose proof (fin_nan f x Fx). repeat split; auto. lra. }
  split; intros i; (split; [|]); cbn [tle]; auto; apply H.
Qed.
Lemma ext_mono f (a b : Bounds3 (flt f)) i : bfinite a -> bfinite b -> normalised (tle (TFloat f)) a -> subbox (tle (TFloat f)) a b ->
  Bleb (fext a i) (fext b i) = true.
Proof.
  intros Fa Fb Ha Hs. destruct (normalised_corners f a Fa Ha) as [C1 C2]. apply Hs in C1, C2.
  apply sub_mono; try apply Fa; try apply Fb; [apply (C1 i)|apply (C2 i)].
Qed.
Lemma area_mono_float f (a b : Bounds3 (flt f)) : bfinite a -> bfinite b -> normalised (tle (TFloat f)) a -> subbox (tle (TFloat f)) a b ->
  (forall i, is_finite (fext b i) = true) ->
  exists s s', b3_surface_area (f_elem f) a = Done s /\ b3_surface_area (f_elem f) b = Done s' /\ Bleb s s' = true.
Proof.
  intros Fa Fb Ha Hs Fe. rewrite !area_float. do 2 eexists. do 2 (split; [reflexivity|]).
  assert (M : forall i j, fnn f (f_mult (fext a i) (fext a j)) /\ Bleb (f_mult (fext a i) (fext a j)) (f_mult (fext b i) (fext b j)) = true).
  { intros i j. pose proof (ext_nonneg f a i Fa Ha) as P. pose proof (ext_nonneg f a j Fa Ha) as Q.
    destruct (mult_mono f _ _ _ _ P Q (ext_mono f a b i Fa Fb Ha Hs) (ext_mono f a b j Fa Fb Ha Hs) (Fe i) (Fe j)) as (L & G1 & G2).
    split; auto. now apply fnn_mult. }
  apply two_mono; [apply fnn_add; [apply fnn_add|]; apply M|].
  apply add_mono; [apply fnn_add; apply M|apply M| |apply M]. apply add_mono; apply M.
Qed.
Lemma volume_mono_float f (a b : Bounds3 (flt f)) : bfinite a -> bfinite b -> normalised (tle (TFloat f)) a -> subbox (tle (TFloat f)) a b ->
  (forall i, is_finite (fext b i) = true) ->
  exists v v', b3_volume (f_elem f) a = Done v /\ b3_volume (f_elem f) b = Done v' /\ (is_nan v = false -> is_nan v' = false -> Bleb v v' = true).
Proof.
  intros Fa Fb Ha Hs Fe. rewrite !volume_float. do 2 eexists. do 2 (split; [reflexivity|]). intros Nv Nv'.
  pose proof (fun i => ext_nonneg f a i Fa Ha) as P. pose proof (fun i => ext_mono f a b i Fa Fb Ha Hs) as M.
  destruct (mult_mono f _ _ _ _ (P AX) (P AY) (M AX) (M AY) (Fe AX) (Fe AY)) as (L & G1 & G2).
  pose proof (fnn_mult f _ _ (P AX) (P AY) (conj G1 G2)) as Q.
  destruct (is_finite (f_mult (fext b AX) (fext b AY))) eqn:Fxy.
  - apply (mult_mono f _ _ _ _ Q (P AZ) L (M AZ) Fxy (Fe AZ)).
  - assert (Q' : fnn f (f_mult (fext b AX) (fext b AY))).
    { apply leb_key in L as (_ & N & K). split; auto. destruct Q. lra. }
    rewrite (fnn_inf f _ Q' Fxy) in *.
    assert (Top : forall x : flt f, is_nan x = false -> Bleb x (B754_infinity false) = true).
    { intros x N. apply leb_key. split; auto. split; [reflexivity|]. pose proof (big_pos f). cbn.
      destruct (is_finite x) eqn:Fx; [pose proof (key_lt_big f x Fx); lra|destruct (key_inf_big f x N Fx); lra]. }
    assert (PZ : fnn f (fext b AZ)).
    { pose proof (M AZ) as K. apply leb_key in K as (_ & N & K). split; auto. destruct (P AZ). lra. }
    pose proof (Fe AZ) as FZ. destruct (fext b AZ) as [s|s| |s m e Hbd]; try discriminate. destruct s; [|now apply Top].
    exfalso. destruct PZ as [_ K]. rewrite key_finite in K by reflexivity.
    assert (F2R (Float radix2 (Z.neg m) e) < 0) by (apply F2R_lt_0; reflexivity). cbn in *; lra.
Qed.
Lemma volume_nan : exists b : Bounds3 (flt F32), bfinite b /\ normalised (tle (TFloat F32)) b /\ (forall i, is_finite (fext b i) = true) /\
  exists v, b3_volume (f_elem F32) b = Done v /\ is_nan v = true.
Proof.
  set (h := f_of_int F32 (2 ^ 100)). exists (bx (f32 0) (f32 0) (f32 0) h h (f32 0)).
  split; [split; intros []; reflexivity|]. split; [intros []; reflexivity|]. split; [intros []; reflexivity|].
  eexists. split; [reflexivity|vm_compute; reflexivity].
Qed.

(** ** Vectors under transformations *)
Notation vtr t v := (v3_transform r_float (fun x : R => x) v t).
Lemma transform_r t v : vtr t v = Done (V3 (block_times (t_m t) v I0) (block_times (t_m t) v I1) (block_times (t_m t) v I2)).
Proof. reflexivity. Qed.
Lemma transform_block t v : exists w, vtr t v = Done w /\ forall i, vcoord i w = block_times (t_m t) v (axis_ix i).
Proof. eexists. split; [apply transform_r|]. intros []; reflexivity. Qed.
Lemma transform_linear t u v s : exists a b c d e g, v3_add r_elem u v = Done a /\ v3_mul r_elem u s = Done b /\
  vtr t u = Done c /\ vtr t v = Done d /\ v3_add r_elem c d = Done e /\ v3_mul r_elem c s = Done g /\ vtr t a = Done e /\ vtr t b = Done g.
Proof.
  do 6 eexists. do 2 (split; [reflexivity|]). do 2 (split; [apply transform_r|]). do 2 (split; [reflexivity|]).
  split; rewrite transform_r; f_equal; unfold block_times; cbn [vx vy vz]; f_equal; cbn; ring.
Qed.
Lemma translate_vector d v : exists t, t_translate r_float d = Done t /\ vtr t v = Done v.
Proof.
  eexists. split; [reflexivity|]. rewrite transform_r. f_equal. destruct v as [x y z]. unfold block_times. cbn. f_equal; ring.
Qed.
Lemma scale_vector a b c v : a <> 0 -> b <> 0 -> c <> 0 -> exists t, t_scale r_float a b c = Done t /\
  vtr t v = Done (V3 (a * vx v) (b * vy v) (c * vz v)) /\
  vtr (t_inverse t) v = Done (V3 (vx v / a) (vy v / b) (vz v / c)).
Proof.
  intros Ha Hb Hc. unfold t_scale. cbn [fl_elem r_float e_from_int r_elem e_div]. rewrite !Req_bool_false by auto. cbn [obind].
  eexists. split; [reflexivity|]. rewrite !transform_r. unfold block_times. cbn.
  split; f_equal; f_equal; field; auto.
Qed.
(** A transformation and its inverse undo each other on vectors when the matrices are affine. *)
Lemma block_prod a b v r : affine b ->
  block_times (prodR a b) v r = block_times a (V3 (block_times b v I0) (block_times b v I1) (block_times b v I2)) r.
Proof.
  intros A. unfold block_times, prodR, prod_of, sum4. rewrite !mget_mkm. cbn [vx vy vz].
  rewrite (A I0), (A I1), (A I2). cbn. ring.
Qed.
Lemma block_ident v r : block_times identR v r = match r with I0 => vx v | I1 => vy v | I2 => vz v | I3 => 0 end.
Proof. unfold block_times. destruct r; cbn; ring. Qed.
Lemma undo_transform t v : mutual t -> affine (t_m t) -> exists w, vtr t v = Done w /\ vtr (t_inverse t) w = Done v.
Proof.
  intros [_ M] A. eexists. split; [apply transform_r|]. rewrite transform_r. cbn [t_inverse t_m].
  rewrite <- !block_prod, M, !block_ident by auto. destruct v; reflexivity.
Qed.
(** The inverse of an affine matrix is affine. *)
Lemma affine_inverse a b : affine a -> prodR a b = identR -> affine b.
Proof.
  intros A H c. apply (f_equal (fun m => mget m I3 c)) in H. unfold prodR, prod_of, sum4 in H. rewrite mget_mkm in H.
  rewrite (A I0), (A I1), (A I2), (A I3) in H. cbn in H. rewrite <- H. ring.
Qed.
Lemma undo_inverse t v : mutual t -> affine (t_m t) -> exists w, vtr (t_inverse t) v = Done w /\ vtr t w = Done v.
Proof.
  intros M A. pose proof (affine_inverse _ _ A (proj1 M)) as B.
  destruct (undo_transform (t_inverse t) v (mutual_inverse t M) B) as (w & H1 & H2). exists w. split; [exact H1|]. destruct t; exact H2.
Qed.
(** Composition: transforming by a product is transforming twice. *)
Lemma transform_product s t v mi : affine (t_m t) -> exists w x, vtr t v = Done w /\ vtr s w = Done x /\
  vtr (mkT (prodR (t_m s) (t_m t)) mi) v = Done x.
Proof.
  intros A. do 2 eexists. do 2 (split; [apply transform_r|]). rewrite transform_r. cbn [t_m]. now rewrite !block_prod by auto.
Qed.
(** A transformation with orthonormal columns keeps dot products, hence lengths. *)
Lemma rotation_dot t u v : (forall i j, i <> I3 -> j <> I3 ->
    mget (t_m t) I0 i * mget (t_m t) I0 j + mget (t_m t) I1 i * mget (t_m t) I1 j + mget (t_m t) I2 i * mget (t_m t) I2 j = if ix_eqb i j then 1 else 0) ->
  exists w x, vtr t u = Done w /\ vtr t v = Done x /\ dotR w x = dotR u v.
Proof.
  intros O. do 2 eexists. do 2 (split; [apply transform_r|]). unfold dotR, block_times. cbn [vx vy vz].
  set (m := t_m t) in *.
  pose proof (O I0 I0 ltac:(discriminate) ltac:(discriminate)) as E00. pose proof (O I0 I1 ltac:(discriminate) ltac:(discriminate)) as E01.
  pose proof (O I0 I2 ltac:(discriminate) ltac:(discriminate)) as E02. pose proof (O I1 I1 ltac:(discriminate) ltac:(discriminate)) as E11.
  pose proof (O I1 I2 ltac:(discriminate) ltac:(discriminate)) as E12. pose proof (O I2 I2 ltac:(discriminate) ltac:(discriminate)) as E22.
  cbn [ix_eqb] in *. clearbody m. clear O.
  set (a := mget m I0 I0) in *. set (b := mget m I0 I1) in *. set (c := mget m I0 I2) in *.
  set (d := mget m I1 I0) in *. set (e := mget m I1 I1) in *. set (g := mget m I1 I2) in *.
  set (h := mget m I2 I0) in *. set (i := mget m I2 I1) in *. set (j := mget m I2 I2) in *.
  transitivity ((a * a + d * d + h * h) * (vx u * vx v) + (b * b + e * e + i * i) * (vy u * vy v) + (c * c + g * g + j * j) * (vz u * vz v)
    + (a * b + d * e + h * i) * (vx u * vy v + vy u * vx v) + (a * c + d * g + h * j) * (vx u * vz v + vz u * vx v)
    + (b * c + e * g + i * j) * (vy u * vz v + vz u * vy v)); [ring|].
  rewrite E00, E01, E02, E11, E12, E22. ring.
Qed.

(** In rounded arithmetic. *)
Lemma add_zero_r f (a : flt f) s : veq f (f_add a (B754_zero s)) a.
Proof. destruct a as [[]|[]| |[]], s; try apply veq_refl; left; reflexivity. Qed.
Lemma add_zero_l f (a : flt f) s : veq f (f_add (B754_zero s) a) a.
Proof. eapply veq_trans; [apply add_comm_veq|apply add_zero_r]. Qed.
Lemma row_x f (a : flt f) s s' : veq f (f_add (f_add a (B754_zero s)) (B754_zero s')) a.
Proof. eapply veq_trans; [apply add_zero_r|apply add_zero_r]. Qed.
Lemma row_y f (a : flt f) s s' : veq f (f_add (f_add (B754_zero s) a) (B754_zero s')) a.
Proof. eapply veq_trans; [apply add_zero_r|apply add_zero_l]. Qed.
Lemma row_z f (a : flt f) s s' : veq f (f_add (f_add (B754_zero s) (B754_zero s')) a) a.
Proof. eapply veq_trans; [|apply (add_zero_l f a (andb s s'))]. destruct s, s'; apply veq_refl. Qed.
Lemma scale_vector_float f (a b c : flt f) v : vfinite v -> exists t w, t_scale (f_float f) a b c = Done t /\ v3_transform (f_float f) (fun x => x) v t = Done w /\
  vveq f w (V3 (f_mult a (vx v)) (f_mult b (vy v)) (f_mult c (vz v))).
Proof.
  intros Fv. pose proof (Fv AX) as Fx. pose proof (Fv AY) as Fy. pose proof (Fv AZ) as Fz. cbn [vcoord] in *.
  do 2 eexists. do 2 (split; [reflexivity|]). intros i.
  destruct i; cbn [vcoord vx vy vz mget vget w0 w1 w2 w3 t_m e_from_int f_float f_elem fl_elem];
    rewrite ?mult_0_l by auto; [apply row_x|apply row_y|apply row_z].
Qed.
Lemma ident_vector_float f t v : vfinite v -> t_is_identity (f_float f) t = true -> exists w, v3_transform (f_float f) (fun x => x) v t = Done w /\ vveq f w v.
Proof.
  intros Fv Ht. pose proof (Fv AX) as Fx. pose proof (Fv AY) as Fy. pose proof (Fv AZ) as Fz. cbn [vcoord] in *.
  unfold t_is_identity in Ht. rewrite m4_eq_iff in Ht. cbn [e_eq f_float f_elem fl_elem] in Ht.
  eexists. split; [reflexivity|].
  assert (Z0 : forall (x m : flt f), is_finite x = true -> Beqb m (f_of_int f 0) = true -> exists s, f_mult m x = B754_zero s).
  { intros x m Fm H. apply eqb_key in H as (N & _ & K). rewrite (key_finite f (f_of_int f 0)), (proj1 (zero_val f)) in K by apply zero_val.
    destruct (is_finite m) eqn:Fi.
    - rewrite key_finite in K by auto. destruct (zero_of f m Fi K) as [s ->].
      destruct x as [[]|[]| |[]]; try discriminate; eexists; reflexivity.
    - pose proof (big_pos f). destruct (key_inf_big f m N Fi); lra. }
  assert (O1 : forall m : flt f, Beqb m (f_of_int f 1) = true -> m = f_of_int f 1).
  { intros m H. destruct (veq_cases f m (f_of_int f 1)) as [|(_ & Q & _)]; [left; exact H|auto|]. rewrite (proj1 (one_val f)) in Q. lra. }
  intros i; destruct i; cbn [vcoord vx vy vz]; cbn [e_add e_mul f_float f_elem fl_elem].
  - rewrite (O1 _ (Ht I0 I0)), mult_1_l by auto. destruct (Z0 (vy v) _ Fy (Ht I0 I1)) as [s ->], (Z0 (vz v) _ Fz (Ht I0 I2)) as [s' ->]. apply row_x.
  - rewrite (O1 _ (Ht I1 I1)), mult_1_l by auto. destruct (Z0 (vx v) _ Fx (Ht I1 I0)) as [s ->], (Z0 (vz v) _ Fz (Ht I1 I2)) as [s' ->]. apply row_y.
  - rewrite (O1 _ (Ht I2 I2)), mult_1_l by auto. destruct (Z0 (vx v) _ Fx (Ht I2 I0)) as [s ->], (Z0 (vy v) _ Fy (Ht I2 I1)) as [s' ->]. apply row_z.
Qed.
Lemma is_identity_float f t : t_is_identity (f_float f) t = true <->
  forall r c, is_finite (mget (t_m t) r c) = true /\ B2R (mget (t_m t) r c) = if ix_eqb r c then 1 else 0.
Proof.
  assert (V : forall (x : flt f) z (n : Z), is_finite (f_of_int f n) = true /\ B2R (f_of_int f n) = z ->
    (Beqb x (f_of_int f n) = true <-> is_finite x = true /\ B2R x = z)).
  { intros x z n [Fn Rn]. rewrite eqb_key, (key_finite f (f_of_int f n)), Rn by auto. split.
    - intros (N & _ & K). destruct (is_finite x) eqn:Fx; [rewrite key_finite in K by auto; auto|]. exfalso.
      pose proof (key_lt_big f _ Fn) as L. rewrite key_finite, Rn in L by auto. destruct (key_inf_big f x N Fx); lra.
    - intros [Fx Rx]. split; [now apply fin_nan|]. split; [now apply fin_nan|]. now rewrite key_finite. }
  unfold t_is_identity. rewrite m4_eq_iff. cbn [e_eq e_from_int f_float f_elem fl_elem].
  pose proof (fun x => V x 0 0%Z (conj (proj2 (zero_val f)) (proj1 (zero_val f)))) as V0.
  pose proof (fun x => V x 1 1%Z (conj (proj2 (one_val f)) (proj1 (one_val f)))) as V1.
  split; intros H r c; specialize (H r c); destruct r, c; cbn [mget vget w0 w1 w2 w3 ix_eqb] in *; first [apply V0|apply V1]; exact H.
Qed.
Lemma translate_vector_float f (d v : Vector3 (flt f)) : vfinite v -> exists t w, t_translate (f_float f) d = Done t /\ v3_transform (f_float f) (fun x => x) v t = Done w /\ vveq f w v.
Proof.
  intros Fv. pose proof (Fv AX) as Fx. pose proof (Fv AY) as Fy. pose proof (Fv AZ) as Fz. cbn [vcoord] in *.
  do 2 eexists. do 2 (split; [reflexivity|]). intros i.
  destruct i; cbn [vcoord vx vy vz mget vget w0 w1 w2 w3 t_m e_from_int f_float f_elem fl_elem];
    rewrite ?mult_0_l, ?mult_1_l by auto; [apply row_x|apply row_y|apply row_z].
Qed.

(** ** What translate and scale store: where the matrix sends a point (homogeneous coordinates) *)
Definition image (m : Matrix4 R) (p : Point3 R) (r : ix) : R := block_times m (V3 (px p) (py p) (pz p)) r + mget m r I3.
Lemma translate_image d p : exists t, t_translate r_float d = Done t /\
  (forall i, image (t_m t) p (axis_ix i) = coord i p + vcoord i d) /\ image (t_m t) p I3 = 1.
Proof. eexists. split; [reflexivity|]. unfold image, block_times. split; [intros []|]; cbn; ring. Qed.
Lemma scale_image a b c p : a <> 0 -> b <> 0 -> c <> 0 -> exists t, t_scale r_float a b c = Done t /\
  (forall i, image (t_m t) p (axis_ix i) = vcoord i (V3 a b c) * coord i p) /\ image (t_m t) p I3 = 1.
Proof.
  intros Ha Hb Hc. unfold t_scale. cbn [fl_elem r_float e_from_int r_elem e_div]. rewrite !Req_bool_false by auto. cbn [obind].
  eexists. split; [reflexivity|]. unfold image, block_times. split; [intros []|]; cbn; ring.
Qed.
Lemma scale_zero a b c : a = 0 \/ b = 0 \/ c = 0 -> t_scale r_float a b c = Panic.
Proof.
  intros H. unfold t_scale. cbn [fl_elem r_float e_from_int r_elem e_div].
  destruct (Req_bool a 0) eqn:A; [reflexivity|]. destruct (Req_bool b 0) eqn:B; [reflexivity|]. destruct (Req_bool c 0) eqn:C; [reflexivity|].
  exfalso. destruct H as [H|[H|H]]; apply Req_bool_true in H; congruence.
Qed.

(** ** Rays *)
Lemma new_infinite_top f (o : Point3 (flt f)) d x : is_nan x = false -> Bleb x (r_t_max (ray_new_infinite (f_float f) o d)) = true.
Proof.
  intros N. cbn [r_t_max ray_new_infinite fl_infinity f_float]. apply leb_key. split; auto. split; [reflexivity|].
  pose proof (big_pos f). change (key f (f_inf f)) with (big f).
  destruct (is_finite x) eqn:Fx; [pose proof (key_lt_big f x Fx); lra|destruct (key_inf_big f x N Fx); lra].
Qed.
Lemma new_infinite_fields f (o : Point3 (flt f)) d : let r := ray_new_infinite (f_float f) o d in
  r_o r = o /\ r_d r = d /\ is_finite (r_time r) = true /\ B2R (r_time r) = 0.
Proof. repeat split; apply zero_val. Qed.
Lemma rd_new_fields f (r : Ray (flt f)) : let d := rd_new (f_float f) r in
  rd_ray d = r /\ rd_has d = false /\
  forall i, Forall (fun x : flt f => is_finite x = true /\ B2R x = 0)
    [coord i (rx_origin d); coord i (ry_origin d); vcoord i (rx_direction d); vcoord i (ry_direction d)]%list.
Proof.
  pose proof (zero_val f) as [Q1 Q2]. split; [reflexivity|]. split; [reflexivity|].
  intros []; cbn; repeat constructor; auto.
Qed.
(** ** coordinate_system is right-handed *)
Lemma coordinate_system_handed v1 : (vx v1 <> 0 \/ vy v1 <> 0 \/ vz v1 <> 0) ->
  exists v2 v3, coordinate_system r_float v1 = Done (v2, v3) /\ 0 < triple v1 v2 v3.
Proof.
  intros H. destruct (coordinate_system_thm v1 H) as (v2 & v3 & l & E1 & L & L2 & L3 & _). exists v2, v3. split; [exact E1|].
  assert (C : v3_cross r_elem v1 v2 = Done v3).
  { revert E1. unfold coordinate_system. cbn [obind]. intros E1.
    destruct (e_abs r_float (vx v1)) as [ax| |]; try discriminate. cbn [obind] in E1.
    destruct (e_abs r_float (vy v1)) as [ay| |]; try discriminate. cbn [obind] in E1.
    match type of E1 with obind ?m _ = _ => destruct m as [u| |]; try discriminate end. cbn [obind] in E1.
    change (fl_elem r_float) with r_elem in E1.
    destruct (v3_cross r_elem v1 u) as [w| |] eqn:Q; try discriminate. cbn [obind] in E1. injection E1 as <- <-. exact Q. }
  rewrite cross_r in C. injection C as <-. rewrite len_sq_r in L, L3. injection L as <-. injection L3 as L3. cbn [vx vy vz] in L3.
  assert (P : 0 < vx v1 * vx v1 + vy v1 * vy v1 + vz v1 * vz v1).
  { destruct H as [H|[H|H]]; nra. }
  unfold triple. cbn [vx vy vz]. nra.
Qed.

(** ** Inverse of integer matrices *)
Lemma to_mat_r m : to_mat4f 0 IZR m = Done (IZRm m). Proof. reflexivity. Qed.
Lemma to_mat_f f m : to_mat4f (f_of_int f 0) (f_of_int f) m = Done (mkm (fun r c => f_of_int f (mget m r c))). Proof. reflexivity. Qed.
Lemma detR_IZR m : detR (IZRm m) = IZR (detZ m).
Proof.
  unfold detR, detZ, det_of, minor, IZRm. rewrite !mget_mkm. 
  repeat rewrite ?plus_IZR, ?minus_IZR, ?mult_IZR. reflexivity.
Qed.
Lemma inverse_int m : (detZ m = 0%Z /\ m4_inverse_of r_elem IZR m = Panic) \/
  (detZ m <> 0%Z /\ exists b, m4_inverse_of r_elem IZR m = Done b /\ prodR (IZRm m) b = identR /\ prodR b (IZRm m) = identR).
Proof.
  unfold m4_inverse_of. change (e_from_int r_elem 0) with 0. rewrite to_mat_r. cbn [obind].
  destruct (inverse_R (IZRm m)) as [(D & P & _)|(D & b & I & H)]; rewrite detR_IZR in D.
  - left. split; [now apply eq_IZR_R0|exact P].
  - right. split; [intros Q; apply D; now rewrite Q|eauto].
Qed.
(** src/bin/pbrt.rs 18-19 *)
Lemma inverse_main f : exists b, m4_inverse_of (f_elem f) (f_of_int f) (W4 (W4 7 1 9 5) (W4 4 5 2 4) (W4 3 7 8 8) (W4 1 9 8 9))%Z = Done b.
Proof.
  set (o := m4_inverse_of _ _ _).
  assert (H : match o with Done _ => true | _ => false end = true) by (subst o; destruct f; vm_compute; reflexivity).
  destruct o as [b| |]; try discriminate. now exists b.
Qed.
