(** Examples for C109. *)
From Coq Require Import ZArith Reals Lia Lra.
From Flocq Require Import Core.Core IEEE754.BinarySingleNaN.
From Verif Require Import Base Elem FloatInst GeoModel MatModel GeoSpec ArithSpec MatSpec OpsSpec FloatErrSpec OrderProofs MatThms FloatCore FloatErr FloatErrEx InvFloatEx FloatGauss.
Local Open Scope R_scope.

(** An invertible matrix that is taken for a singular one: 3, 1, 1 and the float nearest to 1/3. *)
Definition third f : flt f := f_div (f_of_int f 1) (f_of_int f 3).
Definition near_singular f : Matrix4 (flt f) :=
  let o := f_of_int f 0 in let i := f_of_int f 1 in
  W4 (W4 (f_of_int f 3) i o o) (W4 i (third f) o o) (W4 o o i o) (W4 o o o i).
Lemma third_val f : 3 * B2R (third f) - 1 <> 0 /\ is_finite (third f) = true.
Proof.
  destruct f; split.
  - rewrite (real_of F32 (third F32) false 11184811 (-25) ltac:(vm_compute; reflexivity)). unfold F2R. cbn [Fnum Fexp cond_Zopp].
    change (bpow radix2 (-25)) with (/ 33554432). lra.
  - vm_compute. reflexivity.
  - rewrite (real_of F64 (third F64) false 6004799503160661 (-54) ltac:(vm_compute; reflexivity)). unfold F2R. cbn [Fnum Fexp cond_Zopp].
    change (bpow radix2 (-54)) with (/ 18014398509481984). lra.
  - vm_compute. reflexivity.
Qed.
Definition near_inverse (t : R) : Matrix4 R :=
  let d := / (3 * t - 1) in W4 (W4 (t * d) (- d) 0 0) (W4 (- d) (3 * d) 0 0) (W4 0 0 1 0) (W4 0 0 0 1).
Lemma near_singular_ok f : exists C : Matrix4 R, (forall r c, is_finite (mget (near_singular f) r c) = true) /\
  (forall r c, Rabs (B2R (mget (near_singular f) r c)) <= 4) /\ prodR (m_real (near_singular f)) C = identR /\
  m4_inverse (f_elem f) (near_singular f) = Panic.
Proof.
  exists (near_inverse (B2R (third f))). destruct (third_val f) as [Ht Ft].
  destruct (int_correct f 3) as [V3 F3]; [destruct f; cbn; lia|]. destruct (one_val f) as [V1 F1]. destruct (zero_val f) as [V0 F0].
  split; [|split; [|split]].
  - unfold near_singular. intros [] []; cbn [mget vget w0 w1 w2 w3]; assumption.
  - assert (T : Rabs (B2R (third f)) <= 1).
    { destruct f.
      - rewrite (real_of F32 (third F32) false 11184811 (-25) ltac:(vm_compute; reflexivity)). unfold F2R. cbn [Fnum Fexp cond_Zopp].
        change (bpow radix2 (-25)) with (/ 33554432). apply Rabs_le. lra.
      - rewrite (real_of F64 (third F64) false 6004799503160661 (-54) ltac:(vm_compute; reflexivity)). unfold F2R. cbn [Fnum Fexp cond_Zopp].
        change (bpow radix2 (-54)) with (/ 18014398509481984). apply Rabs_le. lra. }
    unfold near_singular. intros [] []; cbn [mget vget w0 w1 w2 w3]; rewrite ?V0, ?V1, ?V3; try (apply Rabs_le; lra). lra.
  - apply mat_ext. intros r c. unfold prodR, prod_of, identR, ident_of, m_real, sum4. rewrite !mget_mkm.
    destruct r, c; cbn [near_singular near_inverse mget vget w0 w1 w2 w3 ix_eqb]; rewrite ?V0, ?V1, ?V3; field; exact Ht.
  - destruct f; vm_compute; reflexivity.
Qed.

Lemma taken_for_singular f : exists (A : Matrix4 (flt f)) (C : Matrix4 R), (forall r c, is_finite (mget A r c) = true) /\
  prodR (m_real A) C = identR /\ m4_inverse (f_elem f) A = Panic.
Proof. destruct (near_singular_ok f) as (C & H1 & _ & H2 & H3). now exists (near_singular f), C. Qed.

(** A matrix that is not special: ones and twos. *)
Definition shear f : Matrix4 (flt f) :=
  let o := f_of_int f 0 in let i := f_of_int f 1 in let ii := f_of_int f 2 in
  W4 (W4 i ii o o) (W4 o i ii o) (W4 o o i ii) (W4 o o o i).
Definition unshear : Matrix4 R := W4 (W4 1 (-2) 4 (-8)) (W4 0 1 (-2) 4) (W4 0 0 1 (-2)) (W4 0 0 0 1).
Lemma shear_ok f : (forall r c, is_finite (mget (shear f) r c) = true) /\ (forall r c, Rabs (B2R (mget (shear f) r c)) <= 2) /\
  prodR (m_real (shear f)) unshear = identR /\ (forall r c, Rabs (mget unshear r c) <= 8) /\
  bpow radix2 (-60) <= 2 <= bpow radix2 60 /\ 2 * 8 * half_ulp f <= 1 / 8192.
Proof.
  destruct (two_val f) as [V2 F2]. destruct (one_val f) as [V1 F1]. destruct (zero_val f) as [V0 F0].
  split; [|split; [|split; [|split; [|split]]]].
  - unfold shear. intros [] []; cbn [mget vget w0 w1 w2 w3]; assumption.
  - unfold shear. intros [] []; cbn [mget vget w0 w1 w2 w3]; rewrite ?V0, ?V1, ?V2; apply Rabs_le; lra.
  - apply mat_ext. intros r c. unfold prodR, prod_of, identR, ident_of, m_real, sum4. rewrite !mget_mkm.
    destruct r, c; cbn [shear unshear mget vget w0 w1 w2 w3 ix_eqb]; rewrite ?V0, ?V1, ?V2; ring.
  - unfold unshear. intros [] []; cbn [mget vget w0 w1 w2 w3]; apply Rabs_le; lra.
  - split; change 2 with (bpow radix2 1); apply bpow_le; lia.
  - pose proof (u_small f). lra.
Qed.
Lemma shear_last f c : c <> I3 -> B2R (mget (shear f) I3 c) = 0.
Proof. intros H. pose proof (proj1 (zero_val f)). destruct c; try congruence; assumption. Qed.
Definition shear_t f : Transform (flt f) := match t_new_ (f_float f) (shear f) with Done t => t | _ => mkT (shear f) (shear f) end.
Definition some_v f : Vector3 (flt f) := V3 (f_of_int f 5) (f_of_int f (-7)) (f_of_int f 3).
Lemma some_v_ok f : t_new_ (f_float f) (shear f) = Done (shear_t f) /\ (forall i, Rabs (B2R (vcoord i (some_v f))) <= 7) /\
  exists w x, v3_transform (f_float f) (fun a => a) (some_v f) (shear_t f) = Done w /\
    v3_transform (f_float f) (fun a => a) w (t_inverse (shear_t f)) = Done x /\ vfinite x.
Proof.
  split; [|split].
  - assert (H : is_done (t_new_ (f_float f) (shear f)) = true) by (destruct f; vm_compute; reflexivity).
    unfold shear_t. destruct (t_new_ (f_float f) (shear f)); [reflexivity|discriminate|discriminate].
  - intros []; cbn [vcoord some_v vx vy vz]; destruct (int_correct f 5) as [V5 _]; try (destruct f; cbn; lia);
      destruct (int_correct f (-7)) as [V7 _]; try (destruct f; cbn; lia); destruct (int_correct f 3) as [V3 _]; try (destruct f; cbn; lia);
      rewrite ?V5, ?V7, ?V3; apply Rabs_le; lra.
  - eexists. eexists. split; [reflexivity|]. split; [reflexivity|]. destruct f; intros []; vm_compute; reflexivity.
Qed.
Lemma shear_sizes f : (forall r c, is_finite (mget (shear f) r c) = true) /\ (forall r c, Rabs (B2R (mget (shear f) r c)) <= 2) /\
  prodR (m_real (shear f)) unshear = identR /\ (forall r c, Rabs (mget unshear r c) <= 8) /\
  bpow radix2 (-60) <= 2 <= bpow radix2 60 /\ bpow radix2 (-60) <= 8 <= bpow radix2 59 /\ 2 * 8 * half_ulp f <= 1 / 65536.
Proof.
  destruct (shear_ok f) as (H1 & H2 & H3 & H4 & H5 & _). repeat (split; [assumption|]). split.
  - split; change 8 with (bpow radix2 3); apply bpow_le; lia.
  - pose proof (u_small f). lra.
Qed.
