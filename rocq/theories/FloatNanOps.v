(** Proofs about C118: where NaN comes from. *)
From Coq Require Import ZArith Reals Lia Lra Bool List.
From Flocq Require Import Core.Core IEEE754.BinarySingleNaN.
From Verif Require Import Base Elem FloatInst GeoModel MatModel GeoSpec ArithSpec MatSpec OpsSpec NanSpec OrderProofs.
From Verif Require Import FloatErrSpec FloatCore FloatThms FloatErr OpsThms.
Import ListNotations.
Local Open Scope mon_scope.

Section U.
Context (f : fmt).
Notation E := (f_elem f).
Notation B := (flt f).
Notation zero := (f_of_int f 0).

Lemma fin_cases (x : B) : is_finite x = true -> ~ nan x /\ ~ infinite x.
Proof. unfold nan, infinite. destruct x; cbn; intuition discriminate. Qed.
Ltac kinds x y := destruct x as [[]|[]| |[] ? ? ?], y as [[]|[]| |[] ? ? ?].
Lemma add_nan (x y : B) : nan (f_add x y) <-> nan_sum x y.
Proof.
  destruct (is_finite x) eqn:Fx; [destruct (is_finite y) eqn:Fy|].
  - destruct (add_key f x y Fx Fy) as (N & _). destruct (fin_cases x Fx), (fin_cases y Fy). unfold nan_sum. split; [intros H'; red in H'; congruence|tauto].
  - kinds x y; try discriminate Fx; try discriminate Fy; unfold nan_sum, nan, infinite; cbn; intuition congruence.
  - kinds x y; try discriminate Fx; unfold nan_sum, nan, infinite; cbn; intuition congruence.
Qed.
Lemma sub_nan (x y : B) : nan (f_sub x y) <-> nan_diff x y.
Proof.
  destruct (is_finite x) eqn:Fx; [destruct (is_finite y) eqn:Fy|].
  - destruct (sub_key f x y Fx Fy) as (N & _). destruct (fin_cases x Fx), (fin_cases y Fy). unfold nan_diff. split; [intros H'; red in H'; congruence|tauto].
  - kinds x y; try discriminate Fx; try discriminate Fy; unfold nan_diff, nan, infinite; cbn; intuition congruence.
  - kinds x y; try discriminate Fx; unfold nan_diff, nan, infinite; cbn; intuition congruence.
Qed.
Lemma mult_nan (x y : B) : nan (f_mult x y) <-> nan_prod x y.
Proof.
  destruct (is_finite x) eqn:Fx; [destruct (is_finite y) eqn:Fy|].
  - destruct (mult_key f x y Fx Fy) as (N & _). destruct (fin_cases x Fx), (fin_cases y Fy). unfold nan_prod. split; [intros H'; red in H'; congruence|tauto].
  - kinds x y; try discriminate Fx; try discriminate Fy; unfold nan_prod, nan, infinite, null; cbn; intuition congruence.
  - kinds x y; try discriminate Fx; unfold nan_prod, nan, infinite, null; cbn; intuition congruence.
Qed.
Lemma nonzero_val (x : B) : is_finite x = true -> ~ null x -> B2R x <> 0%R.
Proof. destruct x as [s|s| |s m e Hx]; try discriminate; cbn; [tauto|]. intros _ _. apply F2R_neq_0. cbn. destruct s; discriminate. Qed.
Lemma div_nan (x y : B) : nan (f_div x y) <-> nan_quot x y.
Proof.
  destruct (is_finite x) eqn:Fx; [destruct (is_finite y) eqn:Fy|].
  - assert (D : null y \/ ~ null y) by (destruct y; cbn; tauto). destruct D as [D|D].
    + kinds x y; try discriminate Fx; try discriminate Fy; try contradiction D; unfold nan_quot, nan, infinite, null; cbn; intuition congruence.
    + destruct (div_key f x y Fx Fy (nonzero_val y Fy D)) as (N & _). destruct (fin_cases x Fx), (fin_cases y Fy). unfold nan_quot. split; [intros H'; red in H'; congruence|tauto].
  - kinds x y; try discriminate Fx; try discriminate Fy; unfold nan_quot, nan, infinite, null; cbn; intuition congruence.
  - kinds x y; try discriminate Fx; unfold nan_quot, nan, infinite, null; cbn; intuition congruence.
Qed.

(** ** Componentwise operations *)
Lemma where3 {A} (get : axis -> A -> B) (P : axis -> Prop) (a : A) : (nan (get AX a) <-> P AX) -> (nan (get AY a) <-> P AY) -> (nan (get AZ a) <-> P AZ) -> nan_where get P (Done a).
Proof. intros. exists a. split; [reflexivity|]. intros []; assumption. Qed.
Lemma points_nan (p q : Point3 B) (v : Vector3 B) (s : B) :
  nan_where coord (fun i => nan_sum (coord i p) (vcoord i v)) (p3_add E p v) /\ nan_where coord (fun i => nan_diff (coord i p) (vcoord i v)) (p3_sub_v E p v) /\
  nan_where vcoord (fun i => nan_diff (coord i p) (coord i q)) (p3_sub E p q) /\
  nan_where coord (fun i => nan_prod s (coord i p)) (p3_mul E p s) /\ nan_where coord (fun i => nan_quot (coord i p) s) (p3_div E p s).
Proof. split; [|split; [|split; [|split]]]; apply where3; (apply add_nan || apply sub_nan || apply mult_nan || apply div_nan). Qed.
Lemma vectors_nan (u v : Vector3 B) (s : B) :
  nan_where vcoord (fun i => nan_sum (vcoord i u) (vcoord i v)) (v3_add E u v) /\ nan_where vcoord (fun i => nan_diff (vcoord i u) (vcoord i v)) (v3_sub E u v) /\
  nan_where vcoord (fun i => nan_prod s (vcoord i u)) (v3_mul E u s) /\ nan_where vcoord (fun i => nan_quot (vcoord i u) s) (v3_div E u s) /\
  nan_where vcoord (fun i => nan (vcoord i u)) (v3_neg E u).
Proof.
  split; [|split; [|split; [|split]]]; apply where3; (apply add_nan || apply sub_nan || apply mult_nan || apply div_nan || idtac); cbn; unfold nan; rewrite is_nan_Bopp; reflexivity.
Qed.
(** ** Lengths and products *)
Lemma sq_inf (x : B) : infinite x -> f_mult x x = B754_infinity false.
Proof. intros [N F]. destruct x as [|[]| |]; try discriminate; reflexivity. Qed.
Lemma inf_pos (x : B) : infinite x -> fnn f x -> x = B754_infinity false.
Proof. intros [N F] [_ K]. pose proof (big_pos f). destruct x as [|[]| |]; try discriminate; [cbn in K; lra|reflexivity]. Qed.
Lemma add_inf_r (x : B) : fnn f x -> f_add x (B754_infinity false) = B754_infinity false.
Proof. intros [N K]. pose proof (big_pos f). destruct x as [|[]| |]; try discriminate; [reflexivity|cbn in K; lra|reflexivity|reflexivity]. Qed.
Lemma add_inf_l (x : B) : fnn f x -> f_add (B754_infinity false) x = B754_infinity false.
Proof. intros [N K]. pose proof (big_pos f). destruct x as [|[]| |]; try discriminate; [reflexivity|cbn in K; lra|reflexivity|reflexivity]. Qed.
Lemma length_nan (v : Vector3 B) : exists l, v3_len (f_float f) E (fun x => x) v = Done l /\
  (nan l <-> exists i, nan (vcoord i v)) /\ ((forall i, ~ nan (vcoord i v)) -> (exists i, infinite (vcoord i v)) -> l = B754_infinity false).
Proof.
  set (q := f_add (f_add (f_mult (vx v) (vx v)) (f_mult (vy v) (vy v))) (f_mult (vz v) (vz v))).
  exists (Bsqrt mode_NE q). split; [reflexivity|].
  assert (G : (forall i, ~ nan (vcoord i v)) -> forall i, fnn f (f_mult (vcoord i v) (vcoord i v))).
  { intros H i. apply fnn_sq. specialize (H i). unfold nan in H. now destruct (is_nan (vcoord i v)). }
  split; [split|].
  - intros N. destruct (is_nan (vx v)) eqn:Nx; [now exists AX|]. destruct (is_nan (vy v)) eqn:Ny; [now exists AY|]. destruct (is_nan (vz v)) eqn:Nz; [now exists AZ|].
    exfalso. assert (H : forall i, ~ nan (vcoord i v)) by (intros []; unfold nan; cbn [vcoord]; congruence). pose proof (G H) as G'.
    assert (P : fnn f (Bsqrt mode_NE q)) by (apply fnn_sqrt, fnn_add; [apply fnn_add|]; [apply (G' AX)|apply (G' AY)|apply (G' AZ)]).
    destruct P as [P _]. unfold nan in N. congruence.
  - intros (i & N). assert (Q : nan q).
    { apply add_nan. destruct i; [left|left|right; left].
      - apply add_nan. left. apply mult_nan. now left.
      - apply add_nan. right; left. apply mult_nan. now left.
      - apply mult_nan. now left. }
    unfold nan in Q |- *. destruct q; try discriminate. reflexivity.
  - intros H (i & I). pose proof (G H) as G'. pose proof (G' AX) as GX. pose proof (G' AY) as GY. pose proof (G' AZ) as GZ. cbn [vcoord] in GX, GY, GZ. assert (Q : q = B754_infinity false).
    { unfold q. destruct i; cbn [vcoord] in I; rewrite (sq_inf _ I).
      - rewrite (add_inf_l _ GY). apply add_inf_l, GZ.
      - rewrite (add_inf_r _ GX). apply add_inf_l, GZ.
      - apply add_inf_r, fnn_add; assumption. }
    rewrite Q. reflexivity.
Qed.
Lemma inf_or (x : B) : is_finite x = false -> nan x \/ infinite x.
Proof. unfold nan, infinite. destruct x; cbn; auto; discriminate. Qed.
Lemma fin_prod (x y : B) : is_finite x = true -> is_finite y = true -> ~ nan (f_mult x y).
Proof. intros Fx Fy. rewrite mult_nan. destruct (fin_cases _ Fx), (fin_cases _ Fy). unfold nan_prod. tauto. Qed.
Lemma products_nan (u v : Vector3 B) : vfinite u -> vfinite v ->
  (exists d, v3_dot E u v = Done d /\ (nan d -> exists i, infinite (f_mult (vcoord i u) (vcoord i v)))) /\
  nan_where vcoord (fun i => let '(j, k) := match i with AX => (AY, AZ) | AY => (AZ, AX) | AZ => (AX, AY) end in
    nan_diff (f_mult (vcoord j u) (vcoord k v)) (f_mult (vcoord k u) (vcoord j v))) (v3_cross E u v).
Proof.
  intros Hu Hv. split.
  - eexists. split; [reflexivity|]. intros N.
    assert (M : forall i, ~ nan (f_mult (vcoord i u) (vcoord i v))) by (intros i; now apply fin_prod).
    apply add_nan in N. destruct N as [N|[N|N]]; [|destruct (M AZ N)|].
    + apply add_nan in N. destruct N as [N|[N|(N1 & N2 & _)]]; [destruct (M AX N)|destruct (M AY N)|]. exists AX. exact N1.
    + destruct N as (N1 & N2 & _). exists AZ. exact N2.
  - apply where3; apply sub_nan.
Qed.
Lemma matrices_nan (a b : Matrix4 B) : mfinite a -> mfinite b ->
  exists p, m4_mul E a b = Done p /\ forall r c, nan (mget p r c) -> exists i, infinite (f_mult (mget a r i) (mget b i c)).
Proof.
  intros Ha Hb. eexists. split; [reflexivity|]. intros r c N.
  assert (M : forall i, ~ nan (f_mult (mget a r i) (mget b i c))) by (intros i; apply fin_prod; [apply Ha|apply Hb]).
  assert (G : nan (f_add (f_add (f_add (f_add zero (f_mult (mget a r I0) (mget b I0 c))) (f_mult (mget a r I1) (mget b I1 c)))
      (f_mult (mget a r I2) (mget b I2 c))) (f_mult (mget a r I3) (mget b I3 c)))) by (destruct r, c; exact N).
  clear N. assert (Z0 : ~ nan zero) by apply (fin_cases zero), zero_val.
  repeat match goal with H : nan (f_add _ _) |- _ => apply add_nan in H; destruct H as [H|[H|(_ & H & _)]] end;
    try (exfalso; first [exact (M I0 G)|exact (M I1 G)|exact (M I2 G)|exact (M I3 G)|exact (Z0 G)]);
    [exists I0|exists I1|exists I2|exists I3]; exact G.
Qed.
Lemma frame_nan (v : Vector3 B) : vfinite v -> exists u w, coordinate_system (f_float f) v = Done (u, w) /\
  let s := if Bltb (Babs (vy v)) (Babs (vx v)) then f_add (f_mult (vx v) (vx v)) (f_mult (vz v) (vz v)) else f_add (f_mult (vy v) (vy v)) (f_mult (vz v) (vz v)) in
  ((exists i, nan (vcoord i u)) <-> null s).
Proof.
  intros Hv. pose proof (Hv AX) as FX. pose proof (Hv AY) as FY. pose proof (Hv AZ) as FZ. cbn [vcoord] in FX, FY, FZ.
  assert (Q : forall x y : B, is_finite x = true -> is_finite y = true -> fnn f (f_add (f_mult x x) (f_mult y y))) by (intros; apply fnn_add; apply fnn_sq, fin_nan; assumption).
  assert (R : forall s : B, fnn f s -> (null (Bsqrt mode_NE s) <-> null s) /\ ~ nan (Bsqrt mode_NE s)).
  { intros s Hs. pose proof (fnn_sqrt f s Hs) as [Ns _]. split; [|unfold nan; congruence].
    destruct Hs as [N K]. destruct s as [sg|[]| |sg m e Hb]; try discriminate; [tauto|cbn; tauto|].
    pose proof (Bsqrt_correct _ _ (fprec_gt_0 f) (fprec_lt_emax f) mode_NE (B754_finite sg m e Hb)) as (HR & HF & _).
    split; [|cbn; tauto]. intros Z0. exfalso. destruct sg; [rewrite key_finite in K by reflexivity; cbn in K; assert (F2R (Float radix2 (Z.neg m) e) < 0)%R by (apply F2R_lt_0; reflexivity); cbn in *; lra|].
    assert (Z1 : B2R (Bsqrt mode_NE (B754_finite false m e Hb)) = 0%R) by (destruct (Bsqrt _ _); cbn in Z0; try contradiction; reflexivity).
    rewrite Z1 in HR. change (0%R = rnd f (sqrt (B2R (B754_finite false m e Hb)))) in HR.
    destruct (rnd_sqrt f _ (fmt_B f (B754_finite false m e Hb))) as (d & Hd & Ed). rewrite Ed in HR.
    assert (P : (0 < B2R (B754_finite false m e Hb))%R) by (cbn; apply F2R_gt_0; reflexivity). pose proof (sqrt_lt_R0 _ P). pose proof (u_small f).
    apply Rabs_def2b in Hd || apply Rabs_le_inv in Hd. nra. }
  unfold coordinate_system. cbn [e_abs e_neg e_lt e_mul e_add f_float fl_elem f_elem fl_sqrt obind lift2 v3_div mk3 e_div vx vy vz e_from_int].
  destruct (fin_cases _ FX) as [NX IX], (fin_cases _ FY) as [NY IY], (fin_cases _ FZ) as [NZ IZ]. destruct (fin_cases _ (proj2 (zero_val f))) as [N0 I0'].
  assert (OZ : forall x : B, ~ nan x -> ~ infinite x -> ~ nan (Bopp x) /\ ~ infinite (Bopp x)) by (intros x; unfold nan, infinite; rewrite is_nan_Bopp, is_finite_Bopp; tauto).
  destruct (OZ _ NZ IZ), (OZ _ NY IY).
  assert (NZ0 : null zero) by (destruct f; exact I).
  destruct (Bltb (Babs (vy v)) (Babs (vx v))); do 2 eexists; (split; [reflexivity|]); cbv zeta.
  - destruct (R _ (Q _ _ FX FZ)) as [R1 R2]. rewrite <- R1. split.
    + intros ([] & N); cbn [vcoord vx vy vz] in N; apply div_nan in N; unfold nan_quot in N; tauto.
    + intros Z0. exists AY. apply div_nan. right; right; left. split; assumption.
  - destruct (R _ (Q _ _ FY FZ)) as [R1 R2]. rewrite <- R1. split.
    + intros ([] & N); cbn [vcoord vx vy vz] in N; apply div_nan in N; unfold nan_quot in N; tauto.
    + intros Z0. exists AX. apply div_nan. right; right; left. split; assumption.
Qed.
(** ** Rays *)
Lemma ray_nan (r : Ray B) (t : B) : (forall i, is_finite (coord i (r_o r)) = true) -> vfinite (r_d r) -> ~ nan t ->
  nan_where coord (fun i => infinite t /\ null (vcoord i (r_d r))) (ray_at (f_float f) r t).
Proof.
  intros Ho Hd Ht. assert (G : forall i, nan (f_add (coord i (r_o r)) (f_mult t (vcoord i (r_d r)))) <-> infinite t /\ null (vcoord i (r_d r))).
  { intros i. rewrite add_nan. unfold nan_sum. rewrite mult_nan. unfold nan_prod. destruct (fin_cases _ (Ho i)), (fin_cases _ (Hd i)). tauto. }
  apply where3; [exact (G AX)|exact (G AY)|exact (G AZ)].
Qed.
(** ** Boxes *)
Lemma offset_nan (b : Bounds3 B) (p : Point3 B) : bfinite b -> (forall i, is_finite (coord i p) = true) ->
  nan_where vcoord (fun i => infinite (f_sub (coord i p) (coord i (b_min b))) /\ infinite (f_sub (coord i (b_max b)) (coord i (b_min b))) /\
    Bltb (coord i (b_min b)) (coord i (b_max b)) = true) (b3_offset E b p).
Proof.
  intros [H1 H2] Hp. set (o := fun i => f_sub (coord i p) (coord i (b_min b))). set (e := fun i => f_sub (coord i (b_max b)) (coord i (b_min b))).
  assert (N : forall i, ~ nan (o i) /\ ~ nan (e i)).
  { intros i. unfold o, e. rewrite !sub_nan. unfold nan_diff. destruct (fin_cases _ (H1 i)), (fin_cases _ (H2 i)), (fin_cases _ (Hp i)). tauto. }
  assert (P : forall i, Bltb (coord i (b_min b)) (coord i (b_max b)) = true -> ~ null (e i)).
  { intros i L. unfold e. destruct (sub_key f _ _ (H2 i) (H1 i)) as (_ & K & Q). intros Z0. unfold Bltb in L. apply ltb_key in L. destruct L as (_ & _ & L).
    rewrite !key_finite in L by auto. pose proof (rnd_sub_pos f _ _ L) as R.
    assert (K0 : key f (f_sub (coord i (b_max b)) (coord i (b_min b))) = 0%R) by (destruct (f_sub _ _); cbn in Z0; try contradiction; reflexivity).
    rewrite K0 in K. unfold sat in K. pose proof (big_pos f).
    assert (0 < Rmax (- big f) (Rmin (big f) (rnd f (B2R (coord i (b_max b)) - B2R (coord i (b_min b))))))%R; [|lra].
    eapply Rlt_le_trans; [|apply Rmax_r]. apply Rmin_glb_lt; auto. }
  assert (G : forall i, nan (if Bltb (coord i (b_min b)) (coord i (b_max b)) then f_div (o i) (e i) else o i) <->
    infinite (o i) /\ infinite (e i) /\ Bltb (coord i (b_min b)) (coord i (b_max b)) = true).
  { intros i. destruct (N i) as [N1 N2]. pose proof (P i). destruct (Bltb _ _); [|intuition congruence]. rewrite div_nan. unfold nan_quot. intuition auto. }
  exists (V3 (if Bltb (coord AX (b_min b)) (coord AX (b_max b)) then f_div (o AX) (e AX) else o AX)
    (if Bltb (coord AY (b_min b)) (coord AY (b_max b)) then f_div (o AY) (e AY) else o AY)
    (if Bltb (coord AZ (b_min b)) (coord AZ (b_max b)) then f_div (o AZ) (e AZ) else o AZ)).
  split; [|intros []; apply G]. unfold b3_offset. cbn [p3_sub mk3 lift2 obind e_sub f_elem e_lt e_div vx vy vz px py pz coord].
  destruct (Bltb (px (b_min b)) (px (b_max b))); cbn [obind vx vy vz]; destruct (Bltb (py (b_min b)) (py (b_max b))); cbn [obind vx vy vz];
    destruct (Bltb (pz (b_min b)) (pz (b_max b))); reflexivity.
Qed.
Lemma everything_nan (p : Point3 B) : (forall i, is_finite (coord i p) = true) -> exists b, b3_new_inf E = Done b /\
  nan_where vcoord (fun _ => True) (b3_offset E b p) /\
  (exists c, bounding_sphere (f_float f) b = Done (c, zero) /\ forall i, nan (coord i c)) /\
  b3_volume E b = Done (B754_infinity false) /\ b3_surface_area E b = Done (B754_infinity false).
Proof.
  intros Hp. set (a := B754_infinity false : B). set (z := B754_infinity true : B).
  exists (B3 (P3 z z z) (P3 a a a)). split; [reflexivity|].
  assert (O : forall i, f_sub (coord i p) z = a) by (intros i; specialize (Hp i); destruct (coord i p); try discriminate; reflexivity).
  split; [|split; [|split]].
  - exists (V3 B754_nan B754_nan B754_nan). split; [|intros []; split; reflexivity]. unfold b3_offset. cbn [p3_sub mk3 lift2 obind e_sub f_elem e_lt e_div vx vy vz px py pz b_min b_max].
    change (px p) with (coord AX p). change (py p) with (coord AY p). change (pz p) with (coord AZ p). rewrite !O. reflexivity.
  - exists (P3 B754_nan B754_nan B754_nan). split; [|intros []; reflexivity]. reflexivity.
  - reflexivity.
  - destruct f; reflexivity.
Qed.
End U.
Lemma nan_cases : let h := f32 (2 ^ 127) in let m := f32 (- 2 ^ 127) in let tiny := f_div (f32 1) (f32 (2 ^ 100)) in let inf := f_inf F32 in
  (vfinite (V3 h h (f32 0)) /\ vfinite (V3 h m (f32 0)) /\ omap B2SF (v3_dot (f_elem F32) (V3 h h (f32 0)) (V3 h m (f32 0))) = Done SpecFloat.S754_nan) /\
  (omap psf (ray_at (f_float F32) (mkRay (P3 (f32 1) (f32 2) (f32 3)) (V3 (f32 1) (f32 0) (f32 (-1))) inf (f32 0) tt) inf) =
    Done (SpecFloat.S754_infinity false, SpecFloat.S754_nan, SpecFloat.S754_infinity true)) /\
  (bfinite (bx m m m h h h) /\ omap vsf (b3_offset (f_elem F32) (bx m m m h h h) (P3 h (f32 0) m)) = Done (SpecFloat.S754_nan, SpecFloat.S754_zero false, SpecFloat.S754_zero false)) /\
  (vfinite (V3 tiny tiny tiny) /\ omap (fun p => vsf (fst p)) (coordinate_system (f_float F32) (V3 tiny tiny tiny)) =
    Done (SpecFloat.S754_nan, SpecFloat.S754_infinity false, SpecFloat.S754_infinity true)).
Proof.
  cbv zeta. repeat match goal with |- _ /\ _ => split end; lazymatch goal with
    | |- omap _ _ = _ => vm_compute; reflexivity
    | |- bfinite _ => split; intros []; vm_compute; reflexivity
    | |- _ => intros []; vm_compute; reflexivity end.
Qed.
