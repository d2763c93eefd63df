(** Concrete cases for C86 and C87. *)
From Coq Require Import ZArith Reals Lia Lra.
From Flocq Require Import Core.Core IEEE754.BinarySingleNaN.
From Verif Require Import Base Elem FloatInst GeoModel MatModel GeoSpec ArithSpec MatSpec OpsSpec FloatErrSpec OrderProofs MatThms FloatCore FloatThms.
Local Open Scope R_scope.

Lemma value_ne f (x y : flt f) : is_finite x = true -> is_finite y = true -> Beqb x y = false -> B2R x <> B2R y.
Proof. intros Fx Fy H E. rewrite Beqb_correct in H by assumption. rewrite E, Req_bool_true in H by reflexivity. discriminate. Qed.
Definition is_done {A} (o : out A) : bool := match o with Done _ => true | _ => false end.
Definition get_done {A} (o : out A) (d : A) : A := match o with Done a => a | _ => d end.
Lemma done_get {A} (o : out A) d : is_done o = true -> o = Done (get_done o d). Proof. destruct o; (reflexivity || discriminate). Qed.
Definition bad_shift f : flt f := f_of_int f (match f with F32 => 13 | F64 => 93 end).
Definition shift_mat f : Matrix4 (flt f) :=
  W4 (W4 (f_of_int f 1) (f_of_int f 0) (f_of_int f 0) (bad_shift f)) (W4 (f_of_int f 0) (f_of_int f 1) (f_of_int f 0) (f_of_int f 0))
    (W4 (f_of_int f 0) (f_of_int f 0) (f_of_int f 1) (f_of_int f 0)) (W4 (f_of_int f 0) (f_of_int f 0) (f_of_int f 0) (f_of_int f 1)).
Definition shifted f := get_done (m4_inverse (f_elem f) (shift_mat f)) (f_ident f).
Lemma large_translate f : exists d : Vector3 (flt f), vfinite d /\
  exists t B, t_translate (f_float f) d = Done t /\ m4_inverse (f_elem f) (t_m t) = Done B /\
    m4_eq (f_elem f) B (t_inv t) = false /\ B2R (mget B I3 I3) <> 1.
Proof.
  exists (V3 (bad_shift f) (f_of_int f 0) (f_of_int f 0)). split; [destruct f; intros []; vm_compute; reflexivity|].
  eexists. exists (shifted f). split; [reflexivity|]. split; [apply (done_get (m4_inverse (f_elem f) (shift_mat f))); destruct f; vm_compute; reflexivity|]. split; [destruct f; vm_compute; reflexivity|].
  rewrite <- (proj1 (one_val f)). apply value_ne; destruct f; vm_compute; reflexivity.
Qed.
Definition tiny f : flt f := match f with
  | F32 => f_div (f_div (f_of_int F32 1) (f_of_int F32 (2 ^ 100))) (f_of_int F32 (2 ^ 45))
  | F64 => f_div (f_div (f_of_int F64 1) (f_of_int F64 (2 ^ 1000))) (f_of_int F64 (2 ^ 60)) end.
Definition lost f : Matrix4 (flt f) := get_done (m4_inverse (f_elem f) (mset (f_ident f) I0 I0 (tiny f))) (f_ident f).
Lemma small_entry f : exists a : flt f, is_finite a = true /\ 0 < B2R a /\
  exists B, m4_inverse (f_elem f) (mset (f_ident f) I0 I0 a) = Done B /\
    forall r c, (r, c) <> (I0, I0) -> is_nan (mget B r c) = true.
Proof.
  exists (tiny f). assert (Ft : is_finite (tiny f) = true) by (destruct f; vm_compute; reflexivity). split; [exact Ft|]. split.
  - rewrite <- (proj1 (zero_val f)). assert (H : Bltb (f_of_int f 0) (tiny f) = true) by (destruct f; vm_compute; reflexivity).
    rewrite Bltb_correct in H; [|apply zero_val|exact Ft]. destruct (Rlt_bool_spec (B2R (f_of_int f 0)) (B2R (tiny f))); [assumption|discriminate].
  - exists (lost f). split; [apply done_get; destruct f; vm_compute; reflexivity|].
    intros r c H. destruct f, r, c; try congruence; vm_compute; reflexivity.
Qed.
Lemma small_recip n : (0 < Z.abs n <= 100)%Z -> Rabs (nearest F32 (/ B2R (f_of_int F32 n))) < bpow radix2 (femax F32).
Proof.
  intros H. destruct (int_correct F32 n) as [V _]; [cbn; lia|]. rewrite V.
  assert (N : 1 <= Rabs (IZR n)) by (rewrite <- abs_IZR; apply IZR_le; lia).
  apply Rle_lt_trans with (bpow radix2 0); [|apply bpow_lt; cbn; lia]. unfold nearest.
  apply abs_round_le_generic; [apply (fexp_correct (fprec F32) (femax F32) (fprec_gt_0 F32))|apply valid_rnd_N| |].
  - apply generic_format_bpow. vm_compute. discriminate.
  - rewrite Rabs_inv. cbn [bpow]. rewrite <- Rinv_1. apply Rinv_le; lra.
Qed.
Lemma nonzero n : (0 < Z.abs n <= 100)%Z -> B2R (f_of_int F32 n) <> 0.
Proof. intros H. destruct (int_correct F32 n) as [V _]; [cbn; lia|]. rewrite V. apply IZR_neq. lia. Qed.
Lemma monomial_example : let A := W4 (W4 (f32 0) (f32 3) (f32 0) (f32 0)) (W4 (f32 (-7)) (f32 0) (f32 0) (f32 0))
                                  (W4 (f32 0) (f32 0) (f32 0) (f32 1)) (W4 (f32 0) (f32 0) (f32 10) (f32 0)) in
  let sg r := match r with I0 => I1 | I1 => I0 | I2 => I3 | I3 => I2 end in
  (forall a b, sg a = sg b -> a = b) /\
  (forall r, is_finite (mget A r (sg r)) = true /\ B2R (mget A r (sg r)) <> 0 /\
             Rabs (nearest F32 (/ B2R (mget A r (sg r)))) < bpow radix2 (femax F32)) /\
  (forall r k, k <> sg r -> is_finite (mget A r k) = true /\ B2R (mget A r k) = 0).
Proof.
  intros A sg. split; [|split].
  - intros [] []; cbn; congruence.
  - intros []; cbn [sg A mget vget w0 w1 w2 w3]; (split; [vm_compute; reflexivity|split; [apply nonzero; lia|apply small_recip; lia]]).
  - intros r k H. destruct r, k; cbn [sg] in H; try congruence; cbn [A mget vget w0 w1 w2 w3]; (split; [vm_compute; reflexivity|apply (zero_val F32)]).
Qed.
Lemma scale_example : exists t, t_scale (f_float F32) (f32 1) (f32 3) (f32 1) = Done t /\
  (forall r c, r <> I3 -> c <> I3 -> is_finite (mget (t_m t) r c) = true) /\
  1001 / 1000000 < Rabs (col_sq (mkT (m_real (t_m t)) (m_real (t_inv t))) I1 - 1).
Proof.
  eexists. split; [reflexivity|]. split.
  - intros [] [] _ _; try (vm_compute; reflexivity).
  - unfold col_sq, m_real. cbn [t_m]. rewrite !mget_mkm. cbn [mget vget w0 w1 w2 w3].
    change (e_from_int (f_float F32) 0) with (f_of_int F32 0). rewrite !(proj1 (zero_val F32)).
    destruct (int_correct F32 3) as [V _]; [cbn; lia|]. unfold f32. rewrite V. rewrite Rabs_pos_eq by lra. lra.
Qed.
