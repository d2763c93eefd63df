(** Examples for the theorems on rounding errors. *)
From Coq Require Import ZArith Reals Lra Lia List.
From Flocq Require Import Core.Core IEEE754.BinarySingleNaN.
From Verif Require Import Base Elem GeoModel MatModel MatSpec FloatInst GeoSpec ArithSpec OpsSpec FloatErrSpec FloatCore FloatThms FloatSphere.
Local Open Scope R_scope.

(** The value of a concrete float. *)
Lemma real_of f (x : flt f) s m e : B2SF x = SpecFloat.S754_finite s m e -> B2R x = F2R (Float radix2 (cond_Zopp s (Zpos m)) e).
Proof. intros H. rewrite <- SF2R_B2SF, H. reflexivity. Qed.
Lemma fin_of f (x : flt f) s m e : B2SF x = SpecFloat.S754_finite s m e -> is_finite x = true.
Proof. intros H. destruct x; try discriminate H. reflexivity. Qed.
Lemma inexact_dot : let v := V3 (f_div (f32 1) (f32 3)) (f32 0) (f32 0) in exists d, v3_dot (f_elem F32) v v = Done d /\
  is_finite d = true /\ B2R d <> dotR (v_real v) (v_real v).
Proof.
  intros v. eexists. split; [reflexivity|]. split; [vm_compute; reflexivity|].
  unfold dotR, v_real, v. cbn [vx vy vz]. unfold f32. rewrite (proj1 (zero_val F32)).
  set (t := f_div (f_of_int F32 1) (f_of_int F32 3)). set (d := f_add _ _).
  assert (Et : B2R t = F2R (Float radix2 11184811 (-25))) by (apply (real_of F32 t false); vm_compute; reflexivity).
  assert (Ed : B2R d = F2R (Float radix2 14913082 (-27))) by (apply (real_of F32 d false); vm_compute; reflexivity).
  rewrite Et, Ed. unfold F2R. cbn [Fnum Fexp]. change (bpow radix2 (-27)) with (/ IZR 134217728). change (bpow radix2 (-25)) with (/ IZR 33554432).
  intros H. lra.
Qed.
Lemma slack : exists c r, let b := bx (f32 0) (f32 0) (f32 0) (f32 2) (f32 2) (f32 2) in
  bounding_sphere (f_float F32) b = Done (c, r) /\ normalised (tle (TFloat F32)) b /\ bfinite b /\ (forall i, is_finite (coord i c) = true) /\
  is_finite r = true /\ 0 <= B2R r /\ inb Rle (b_real b) (P3 0 0 0) /\ B2R r < distR (P3 0 0 0) (p_real c).
Proof.
  set (b := bx (f32 0) (f32 0) (f32 0) (f32 2) (f32 2) (f32 2)).
  assert (Nb : normalised (tle (TFloat F32)) b) by (intros []; vm_compute; reflexivity).
  assert (Fb : bfinite b) by (split; intros []; vm_compute; reflexivity).
  destruct (sphere_inside F32 b Fb Nb) as (c & r & E & _); [intros []; vm_compute; reflexivity|].
  exists c, r. cbv zeta. split; [exact E|].
  assert (E' : omap (fun cr => (psf (fst cr), B2SF (snd cr))) (bounding_sphere (f_float F32) b) =
    Done (psf (P3 (f32 1) (f32 1) (f32 1)), SpecFloat.S754_finite false 14529495 (-23))) by (vm_compute; reflexivity).
  rewrite E in E'. cbn [omap obind fst snd psf px py pz] in E'. injection E' as E1 E2 E3 E4.
  assert (V1 : B2R (f32 1) = 1) by apply (one_val F32). assert (V2 : B2R (f32 2) = 2) by apply (two_val F32). assert (V0 : B2R (f32 0) = 0) by apply (zero_val F32).
  assert (One : forall x : flt F32, B2SF x = SpecFloat.S754_finite false 8388608 (SpecFloat.fexp 24 128 (1 + 0)) -> B2R x = 1).
  { intros x Hx. rewrite (real_of F32 x _ _ _ Hx). unfold F2R. cbn [Fnum Fexp cond_Zopp]. change (SpecFloat.fexp 24 128 (1 + 0)) with (-23)%Z.
    change (bpow radix2 (-23)) with (/ IZR 8388608). lra. }
  assert (Rc : p_real c = P3 1 1 1) by (unfold p_real; rewrite (One _ E1), (One _ E2), (One _ E3); reflexivity).
  assert (Rr : B2R r = F2R (Float radix2 14529495 (-23))) by exact (real_of F32 r _ _ _ E4).
  split; [exact Nb|]. split; [exact Fb|].
  split; [intros []; cbn [coord]; eapply (fin_of F32); eassumption|].
  split; [exact (fin_of F32 _ _ _ _ E4)|].
  assert (Vr : B2R r = 14529495 / 8388608) by (rewrite Rr; unfold F2R; cbn [Fnum Fexp]; change (bpow radix2 (-23)) with (/ IZR 8388608); reflexivity).
  split; [rewrite Vr; lra|]. split; [intros []; cbn [coord b_real b_min b_max p_real px py pz bx b]; rewrite V0, V2; lra|].
  rewrite Vr, Rc. unfold distR, normR, dotR. cbn [px py pz vx vy vz].
  rewrite <- (sqrt_square (14529495 / 8388608)) by lra. apply sqrt_lt_1_alt. lra.
Qed.
Lemma example_frame : vfinite (V3 (f32 1) (f32 2) (f32 (-2))) /\
  bpow radix2 (-50) <= normR (v_real (V3 (f32 1) (f32 2) (f32 (-2)))) <= bpow radix2 50.
Proof.
  split; [intros []; reflexivity|]. assert (V1 : B2R (f32 1) = 1) by apply (one_val F32). assert (V2 : B2R (f32 2) = 2) by apply (two_val F32).
  assert (V3' : B2R (f32 (-2)) = -2).
  { rewrite (real_of F32 (f32 (-2)) true 8388608 (-22)) by (vm_compute; reflexivity). unfold F2R. cbn [Fnum Fexp cond_Zopp]. change (bpow radix2 (-22)) with (/ IZR 4194304). change (Z.opp 8388608) with (-8388608)%Z. lra. }
  unfold normR, dotR, v_real. cbn [vx vy vz]. rewrite V1, V2, V3'. replace (1 * 1 + 2 * 2 + -2 * -2) with (3 * 3) by ring. rewrite sqrt_square by lra.
  split.
  - apply Rle_trans with (bpow radix2 0); [apply bpow_le; lia|cbn; lra].
  - apply Rle_trans with (bpow radix2 2); [change (bpow radix2 2) with 4; lra|apply bpow_le; lia].
Qed.
