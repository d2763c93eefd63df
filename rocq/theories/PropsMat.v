(** Property theorems about matrices and transformations. Nothing but statements, examples and [Print Assumptions]. *)
From Coq Require Import ZArith Reals QArith Qcanon Lra Lia.
From Flocq Require Import IEEE754.BinarySingleNaN.
From Verif Require Import Base Elem GeoModel MatModel MatSpec FloatInst ExactInst GeoSpec ArithSpec.
From Verif Require Import ExactThms IntThms MatThms TransThms FloatThms PropsMatLemmas.
Local Open Scope mon_scope.

(** ** C50: Matrix4::inverse inverts *)
Theorem C50_inverse_real : forall A B, m4_inverse r_elem A = Done B -> prodR A B = identR /\ prodR B A = identR.
Proof. exact inverse_R_done. Qed.
Print Assumptions C50_inverse_real.
Theorem C50_inverse_rational : forall A B, m4_inverse q_elem A = Done B -> prodQ A B = identQ /\ prodQ B A = identQ.
Proof. exact inverse_Q_done. Qed.
Print Assumptions C50_inverse_rational.
Theorem C50_inverse_involutive : forall A B, m4_inverse r_elem A = Done B -> m4_inverse r_elem B = Done A.
Proof. exact inverse_involutive. Qed.
Print Assumptions C50_inverse_involutive.
Definition qz (z : Z) : Qc := Q2Qc (inject_Z z).
Definition exQ : Matrix4 Qc :=
  W4 (W4 (qz 7) (qz 0) (qz (-3)) (qz 1)) (W4 (qz 2) (qz 3) (qz 4) (qz 2)) (W4 (qz 1) (qz (-1)) (qz (-2)) (qz 1)) (W4 (qz 0) (qz 1) (qz 0) (qz 5)).
Example C50_example : exists B, m4_inverse q_elem exQ = Done B /\ this (mget B I0 I0) = (-2 # 53)%Q /\ m4_eq q_elem (prodQ exQ B) identQ = true.
Proof. eexists. split; [vm_compute; reflexivity|]. split; vm_compute; reflexivity. Qed.

(** ** C51: Matrix4::inverse panics exactly on singular matrices *)
Theorem C51_panics_real : forall A,
  (m4_inverse r_elem A = Panic <-> ~ exists B, prodR A B = identR /\ prodR B A = identR) /\
  (m4_inverse r_elem A = Panic <-> detR A = 0%R) /\ m4_inverse r_elem A <> OutOfFuel.
Proof. exact inverse_R_panic. Qed.
Print Assumptions C51_panics_real.
Theorem C51_panics_rational : forall A,
  (m4_inverse q_elem A = Panic <-> ~ exists B, prodQ A B = identQ /\ prodQ B A = identQ) /\
  (m4_inverse q_elem A = Panic <-> detQ A = Q2Qc 0) /\ m4_inverse q_elem A <> OutOfFuel.
Proof. exact inverse_Q_panic. Qed.
Print Assumptions C51_panics_rational.
(** Whatever the first panic is replaced by, the result is the same. *)
Theorem C51_first_panic_real : forall A fp, inverse_with r_elem fp (@Panic) A = m4_inverse r_elem A.
Proof. exact first_panic_R. Qed.
Print Assumptions C51_first_panic_real.
Theorem C51_first_panic_rational : forall A fp, inverse_with q_elem fp (@Panic) A = m4_inverse q_elem A.
Proof. exact first_panic_Q. Qed.
Print Assumptions C51_first_panic_rational.
(** In f32 the first panic is reachable, through NaN. *)
Theorem C51_first_panic_float : exists A : Matrix4 (flt F32), inverse_with (f_elem F32) (@Panic) (@OutOfFuel) A = Panic.
Proof. exact (ex_intro _ (vconst (vconst f_nan)) eq_refl). Qed.
Print Assumptions C51_first_panic_float.
Example C51_example_singular : m4_inverse q_elem (W4 (w0 exQ) (w1 exQ) (w0 exQ) (w3 exQ)) = Panic /\ m4_inverse q_elem exQ <> Panic.
Proof. split; [vm_compute; reflexivity|vm_compute; discriminate]. Qed.

(** ** C52: laws of the product *)
Theorem C52_laws_real : forall a b c,
  (p <~ m4_mul r_elem a b ;; m4_mul r_elem p c) = (p <~ m4_mul r_elem b c ;; m4_mul r_elem a p) /\
  (s <~ m4_add r_elem b c ;; m4_mul r_elem a s) = (p <~ m4_mul r_elem a b ;; q <~ m4_mul r_elem a c ;; m4_add r_elem p q) /\
  (s <~ m4_add r_elem a b ;; m4_mul r_elem s c) = (p <~ m4_mul r_elem a c ;; q <~ m4_mul r_elem b c ;; m4_add r_elem p q) /\
  m4_mul r_elem identR a = Done a /\ m4_mul r_elem a identR = Done a.
Proof. exact lawsR. Qed.
Print Assumptions C52_laws_real.
Theorem C52_product_real : forall a b, m4_mul r_elem a b = Done (prodR a b) /\ m4_add r_elem a b = Done (sumR a b).
Proof. exact (fun a b => conj (mulR a b) (addR a b)). Qed.
Print Assumptions C52_product_real.
Theorem C52_laws_wrapping : forall a b c, mat_range a -> mat_range b -> mat_range c ->
  (p <~ m4_mul (i64 false) a b ;; m4_mul (i64 false) p c) = (p <~ m4_mul (i64 false) b c ;; m4_mul (i64 false) a p) /\
  (s <~ m4_add (i64 false) b c ;; m4_mul (i64 false) a s) =
    (p <~ m4_mul (i64 false) a b ;; q <~ m4_mul (i64 false) a c ;; m4_add (i64 false) p q) /\
  (s <~ m4_add (i64 false) a b ;; m4_mul (i64 false) s c) =
    (p <~ m4_mul (i64 false) a c ;; q <~ m4_mul (i64 false) b c ;; m4_add (i64 false) p q) /\
  m4_mul (i64 false) identZ a = Done a /\ m4_mul (i64 false) a identZ = Done a.
Proof. exact lawsZ. Qed.
Print Assumptions C52_laws_wrapping.
Theorem C52_unit_float : forall f (a : Matrix4 (flt f)), mfinite a ->
  exists l r, m4_mul (f_elem f) (f_ident f) a = Done l /\ m4_mul (f_elem f) a (f_ident f) = Done r /\
    m4_eq (f_elem f) l a = true /\ m4_eq (f_elem f) r a = true.
Proof. exact ident_unit_float. Qed.
Print Assumptions C52_unit_float.
Definition exZ : Matrix4 Z := (W4 (W4 7 0 (-3) 1) (W4 2 3 4 2) (W4 1 (-1) (-2) 1) (W4 0 1 0 5))%Z.
Example C52_example : mat_range exZ /\ mfinite (vconst (vconst (f32 3))) /\
  m4_mul (i64 false) exZ exZ = Done (W4 (W4 46 4 (-15) 9) (W4 24 7 (-2) 22) (W4 3 0 (-3) 2) (W4 2 8 4 27))%Z.
Proof. split; [|split]; [intros [] []; reflexivity|intros [] []; reflexivity|vm_compute; reflexivity]. Qed.

(** ** C53: laws of the transpose *)
Theorem C53_transpose : forall T (m : Matrix4 T), m4_transpose (m4_transpose m) = m /\ forall r c, mget (m4_transpose m) r c = mget m c r.
Proof. exact (fun T m => conj (transpose_invol m) (transpose_get m)). Qed.
Print Assumptions C53_transpose.
Theorem C53_product : forall ty (a b : Matrix4 (car ty)),
  (m <~ m4_mul (elem ty) a b ;; Done (m4_transpose m)) = m4_mul (elem ty) (m4_transpose b) (m4_transpose a).
Proof. exact transpose_mul_ty. Qed.
Print Assumptions C53_product.
Theorem C53_sum : forall ty (a b : Matrix4 (car ty)),
  (m <~ m4_add (elem ty) a b ;; Done (m4_transpose m)) = m4_add (elem ty) (m4_transpose a) (m4_transpose b).
Proof. exact transpose_add_ty. Qed.
Print Assumptions C53_sum.
Theorem C53_product_real : forall a b : Matrix4 R,
  (m <~ m4_mul r_elem a b ;; Done (m4_transpose m)) = m4_mul r_elem (m4_transpose b) (m4_transpose a).
Proof. exact transpose_mul_r. Qed.
Print Assumptions C53_product_real.
Example C53_example : m4_transpose exZ <> exZ /\
  m4_mul (i64 true) (m4_transpose exZ) (m4_transpose exZ) = Done (W4 (W4 46 24 3 2) (W4 4 7 0 8) (W4 (-15) (-2) (-3) 4) (W4 9 22 2 27))%Z.
Proof. split; [discriminate|vm_compute; reflexivity]. Qed.

(** ** C54: i64 arithmetic is exact, or panics under overflow checks *)
Theorem C54_dot : forall chk u v, vec_range u -> vec_range v -> exactly chk (dotZ u v) (v3_dot (i64 chk) u v).
Proof. exact dot_exact. Qed.
Print Assumptions C54_dot.
Theorem C54_cross : forall chk u v, vec_range u -> vec_range v -> exactly3 chk (crossZ u v) (v3_cross (i64 chk) u v).
Proof. exact cross_exact. Qed.
Print Assumptions C54_cross.
Theorem C54_len_sq : forall chk u, vec_range u -> exactly chk (dotZ u u) (v3_len_sq (i64 chk) u).
Proof. exact len_sq_exact. Qed.
Print Assumptions C54_len_sq.
Theorem C54_product_checked : forall a b, mat_range a -> mat_range b ->
  m4_mul (i64 true) a b = Panic \/ (m4_mul (i64 true) a b = Done (prodZ a b) /\ mat_range (prodZ a b)).
Proof. exact mul_exact_checked. Qed.
Print Assumptions C54_product_checked.
Theorem C54_product_wrapping : forall a b, mat_range a -> mat_range b -> m4_mul (i64 false) a b = Done (wrapm (prodZ a b)).
Proof. exact mul_wrap. Qed.
Print Assumptions C54_product_wrapping.
Theorem C54_volume : forall chk b, box_range b -> exactly chk (extZ b AX * extZ b AY * extZ b AZ) (b3_volume (i64 chk) b).
Proof. exact volume_exact. Qed.
Print Assumptions C54_volume.
Theorem C54_area : forall chk b, box_range b ->
  exactly chk (2 * (extZ b AX * extZ b AY + extZ b AX * extZ b AZ + extZ b AY * extZ b AZ)) (b3_surface_area (i64 chk) b).
Proof. exact area_exact. Qed.
Print Assumptions C54_area.
(** Moderate values never panic. *)
Theorem C54_small : forall chk u v a b, vec_small 30 u -> vec_small 30 v -> mat_small 30 a -> mat_small 30 b ->
  v3_dot (i64 chk) u v = Done (dotZ u v) /\ v3_cross (i64 chk) u v = Done (crossZ u v) /\ m4_mul (i64 chk) a b = Done (prodZ a b).
Proof. exact (fun chk u v a b Hu Hv Ha Hb => conj (dot_small chk u v Hu Hv) (conj (cross_small chk u v Hu Hv) (mul_small chk a b Ha Hb))). Qed.
Print Assumptions C54_small.
Theorem C54_small_box : forall chk b, box_small 19 b ->
  b3_volume (i64 chk) b = Done (extZ b AX * extZ b AY * extZ b AZ)%Z /\
  b3_surface_area (i64 chk) b = Done (2 * (extZ b AX * extZ b AY + extZ b AX * extZ b AZ + extZ b AY * extZ b AZ))%Z.
Proof. exact volume_small. Qed.
Print Assumptions C54_small_box.
Example C54_example : vec_range (V3 int_max int_max 3)%Z /\ v3_dot (i64 true) (V3 int_max 0 0)%Z (V3 2 0 0)%Z = Panic /\
  v3_dot (i64 false) (V3 int_max 0 0)%Z (V3 2 0 0)%Z = Done (-2)%Z /\ box_small 19 (bx 0 (-524288) 0 524288 524288 5)%Z /\
  v3_dot (i64 true) (V3 2 3 4)%Z (V3 5 6 7)%Z = Done 56%Z.
Proof.
  split; [intros []; reflexivity|]. split; [reflexivity|]. split; [reflexivity|].
  split; [intros []; unfold small; cbn; lia|reflexivity].
Qed.

(** ** C55: the two matrices of a Transform stay inverse to each other *)
Theorem C55_inverse : forall t, mutual t -> mutual (t_inverse t).
Proof. exact mutual_inverse. Qed.
Print Assumptions C55_inverse.
Theorem C55_transpose : forall t, mutual t -> mutual (t_transpose t).
Proof. exact mutual_transpose. Qed.
Print Assumptions C55_transpose.
Theorem C55_laws : forall F (t : Transform F), t_inverse (t_inverse t) = t /\ t_transpose (t_transpose t) = t /\
  t_inverse (t_transpose t) = t_transpose (t_inverse t).
Proof. exact (fun F => @inverse_transpose_laws F). Qed.
Print Assumptions C55_laws.
Theorem C55_new : forall m, (detR m <> 0%R -> exists t, t_new_ r_float m = Done t /\ t_m t = m /\ mutual t) /\
  (detR m = 0%R -> t_new_ r_float m = Panic).
Proof. exact new_thm. Qed.
Print Assumptions C55_new.
Definition ex55 : Matrix4 R := (W4 (W4 2 0 0 7) (W4 0 4 0 0) (W4 0 0 1 0) (W4 0 0 0 1))%R.
Example C55_example : mutual (mkT ex55 (W4 (W4 (1/2) 0 0 (-7/2)) (W4 0 (1/4) 0 0) (W4 0 0 1 0) (W4 0 0 0 1))%R) /\ detR ex55 = 8%R.
Proof.
  split; [split; apply mat_ext; intros [] []|]; unfold prodR, prod_of, sum4, identR, ident_of, detR, det_of, minor; rewrite ?mget_mkm;
    cbn [mget vget w0 w1 w2 w3 ex55 t_m t_inv ix_eqb]; lra.
Qed.

(** ** C56: translate carries a correct inverse *)
Theorem C56_translate_float : forall f (d : Vector3 (flt f)), vfinite d ->
  exists t, t_translate (f_float f) d = Done t /\
    m4_mul (f_elem f) (t_m t) (t_inv t) = Done (f_ident f) /\ m4_mul (f_elem f) (t_inv t) (t_m t) = Done (f_ident f).
Proof. exact translate_float. Qed.
Print Assumptions C56_translate_float.
Theorem C56_translate_real : forall d, exists t, t_translate r_float d = Done t /\ mutual t.
Proof. exact translate_mutual. Qed.
Print Assumptions C56_translate_real.
Theorem C56_inverse_float : forall f (d : Vector3 (flt f)), exists t nd, t_translate (f_float f) d = Done t /\ v3_neg (f_elem f) d = Done nd /\
  t_translate (f_float f) nd = Done (t_inverse t).
Proof. exact translate_inverse_f. Qed.
Print Assumptions C56_inverse_float.
Theorem C56_inverse_real : forall d, exists t nd, t_translate r_float d = Done t /\ v3_neg r_elem d = Done nd /\
  t_translate r_float nd = Done (t_inverse t).
Proof. exact translate_inverse_R. Qed.
Print Assumptions C56_inverse_real.
Example C56_example : vfinite (V3 (f32 1) (f32 (-7)) (f32 0)).
Proof. intros []; reflexivity. Qed.

(** ** C57: scale carries a correct inverse. Refuted for every choice of non-zero factors. *)
Theorem C57_scale_refuted : forall x y z, x <> 0%R -> y <> 0%R -> z <> 0%R -> exists t, t_scale r_float x y z = Done t /\
  ~ prodR (t_m t) (t_inv t) = identR /\ ~ prodR (t_inv t) (t_m t) = identR /\
  prodR (t_m t) (t_inv t) = mset identR I3 I2 z /\ prodR (t_inv t) (t_m t) = mset identR I3 I2 (z * z)%R.
Proof. exact scale_not_inverse. Qed.
Print Assumptions C57_scale_refuted.
Theorem C57_scale_zero : forall x y z, x = 0%R \/ y = 0%R \/ z = 0%R -> t_scale r_float x y z = Panic.
Proof. exact scale_zero. Qed.
Print Assumptions C57_scale_zero.
Example C57_example : exists t, t_scale (f_float F32) (f32 1) (f32 1) (f32 1) = Done t /\
  match m4_mul (f_elem F32) (t_m t) (t_inv t) with Done p => m4_eq (f_elem F32) p (f_ident F32) | _ => true end = false.
Proof. eexists. split; [reflexivity|vm_compute; reflexivity]. Qed.

(** ** C58: has_scale detects changed axis lengths *)
Theorem C58_has_scale : forall t, exists b, t_has_scale r_float t = Done b /\
  (b = true <-> exists j, (j = I0 \/ j = I1 \/ j = I2) /\ (col_sq t j < 999 / 1000 \/ 1001 / 1000 < col_sq t j)%R).
Proof. exact has_scale_thm. Qed.
Print Assumptions C58_has_scale.
Theorem C58_rotation : forall t, (forall j, j <> I3 -> col_sq t j = 1%R) -> t_has_scale r_float t = Done false.
Proof. exact has_scale_false. Qed.
Print Assumptions C58_rotation.
Theorem C58_translation : forall d, exists t, t_translate r_float d = Done t /\ t_has_scale r_float t = Done false.
Proof. exact has_scale_translate. Qed.
Print Assumptions C58_translation.
Theorem C58_identity : forall t, (t_is_identity r_float t = true <-> t_m t = identR) /\
  (t_is_identity r_float t = true -> t_has_scale r_float t = Done false).
Proof. exact (fun t => conj (is_identity_thm t) (identity_has_scale t)). Qed.
Print Assumptions C58_identity.
Example C58_example : forall j, j <> I3 ->
  col_sq (mkT (W4 (W4 (3/5) (-4/5) 0 9) (W4 (4/5) (3/5) 0 9) (W4 0 0 1 9) (W4 0 0 0 1))%R identR) j = 1%R.
Proof. intros [] H; try congruence; unfold col_sq; cbn; lra. Qed.
