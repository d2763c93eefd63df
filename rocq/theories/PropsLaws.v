(** Property theorems about the laws of matrices in floats: C124. Nothing but statements, examples and [Print Assumptions]. *)
From Coq Require Import ZArith Reals Lra.
From Flocq Require Import Core.Core IEEE754.BinarySingleNaN.
From Verif Require Import Base Elem GeoModel FloatInst MatModel MatSpec GeoSpec ArithSpec OpsSpec FloatErrSpec LawSpec FloatLaws.
Local Open Scope R_scope.
Local Open Scope mon_scope.

(** ** C124: the laws of matrices hold in floats up to rounding errors *)
(** (a b) c and a (b c) *)
Theorem C124_associative : forall f (a b c p q p' q' : Matrix4 (flt f)) r s, m4_mul (f_elem f) a b = Done p -> m4_mul (f_elem f) p c = Done q ->
  m4_mul (f_elem f) b c = Done p' -> m4_mul (f_elem f) a p' = Done q' -> is_finite (mget q r s) = true -> is_finite (mget q' r s) = true ->
  Rabs (B2R (mget q r s) - B2R (mget q' r s)) <= 18 * half_ulp f * three_abs (m_real a) (m_real b) (m_real c) r s +
    8 * half_tiny f * (2 + row_size (m_real a) r + col_size (m_real c) s).
Proof. exact assoc_near. Qed.
Print Assumptions C124_associative.
(** a (b + c) and a b + a c *)
Theorem C124_left : forall f (a b c t p p1 p2 q : Matrix4 (flt f)) r s, m4_add (f_elem f) b c = Done t -> m4_mul (f_elem f) a t = Done p ->
  m4_mul (f_elem f) a b = Done p1 -> m4_mul (f_elem f) a c = Done p2 -> m4_add (f_elem f) p1 p2 = Done q ->
  is_finite (mget p r s) = true -> is_finite (mget q r s) = true ->
  Rabs (B2R (mget p r s) - B2R (mget q r s)) <= 12 * half_ulp f * left_abs (m_real a) (m_real b) (m_real c) r s + 24 * half_tiny f.
Proof. exact left_near. Qed.
Print Assumptions C124_left.
(** (a + b) c and a c + b c *)
Theorem C124_right : forall f (a b c t p p1 p2 q : Matrix4 (flt f)) r s, m4_add (f_elem f) a b = Done t -> m4_mul (f_elem f) t c = Done p ->
  m4_mul (f_elem f) a c = Done p1 -> m4_mul (f_elem f) b c = Done p2 -> m4_add (f_elem f) p1 p2 = Done q ->
  is_finite (mget p r s) = true -> is_finite (mget q r s) = true ->
  Rabs (B2R (mget p r s) - B2R (mget q r s)) <= 12 * half_ulp f * right_abs (m_real a) (m_real b) (m_real c) r s + 24 * half_tiny f.
Proof. exact right_near. Qed.
Print Assumptions C124_right.
(** Sums do not depend on the order of the two matrices, for every type of numbers. *)
Theorem C124_sum : forall ty (a b : Matrix4 (car ty)), m4_add (elem ty) a b = m4_add (elem ty) b a.
Proof. exact sum_commutes. Qed.
Print Assumptions C124_sum.
(** A vector taken through one transform and then another, and through the transform of their product. The matrix applied first
    must not mix directions into the last row. *)
Theorem C124_successive : forall f (ta tb tp : Transform (flt f)) (v w x y : Vector3 (flt f)) i,
  (forall c, c <> I3 -> B2R (mget (t_m tb) I3 c) = 0) ->
  m4_mul (f_elem f) (t_m ta) (t_m tb) = Done (t_m tp) ->
  v3_transform (f_float f) (fun x => x) v tb = Done w -> v3_transform (f_float f) (fun x => x) w ta = Done x ->
  v3_transform (f_float f) (fun x => x) v tp = Done y -> is_finite (vcoord i x) = true -> is_finite (vcoord i y) = true ->
  Rabs (B2R (vcoord i x) - B2R (vcoord i y)) <=
    15 * half_ulp f * twice_abs (m_real (t_m ta)) (m_real (t_m tb)) (v_real v) (axis_ix i) +
    6 * half_tiny f * (2 + linear_size (m_real (t_m ta)) (axis_ix i)) + 8 * half_tiny f * vec_size (v_real v).
Proof. exact successive_near. Qed.
Print Assumptions C124_successive.

(** None of these laws holds exactly. (2/3, 2/3 and 3 on the diagonal; 3 times the sum of 1 and 2^-24.) *)
Theorem C124_associative_refuted : exists (a b c : Matrix4 (flt F32)) x y,
  omap (fun m => B2SF (mget m I0 I0)) (p <~ m4_mul (f_elem F32) a b ;; m4_mul (f_elem F32) p c) = Done x /\
  omap (fun m => B2SF (mget m I0 I0)) (p <~ m4_mul (f_elem F32) b c ;; m4_mul (f_elem F32) a p) = Done y /\
  is_finite_SF x = true /\ is_finite_SF y = true /\ x <> y.
Proof.
  exists (dia F32 (f_div (f32 2) (f32 3))), (dia F32 (f_div (f32 2) (f32 3))), (dia F32 (f32 3)). do 2 eexists.
  split; [vm_compute; reflexivity|]. split; [vm_compute; reflexivity|]. split; [reflexivity|]. split; [reflexivity|]. discriminate.
Qed.
Print Assumptions C124_associative_refuted.
Theorem C124_left_refuted : exists (a b c : Matrix4 (flt F32)) x y,
  omap (fun m => B2SF (mget m I0 I0)) (t <~ m4_add (f_elem F32) b c ;; m4_mul (f_elem F32) a t) = Done x /\
  omap (fun m => B2SF (mget m I0 I0)) (p <~ m4_mul (f_elem F32) a b ;; q <~ m4_mul (f_elem F32) a c ;; m4_add (f_elem F32) p q) = Done y /\
  is_finite_SF x = true /\ is_finite_SF y = true /\ x <> y.
Proof.
  exists (dia F32 (f32 3)), (dia F32 (f32 1)), (dia F32 (f_div (f32 1) (f32 (2 ^ 24)))). do 2 eexists.
  split; [vm_compute; reflexivity|]. split; [vm_compute; reflexivity|]. split; [reflexivity|]. split; [reflexivity|]. discriminate.
Qed.
Print Assumptions C124_left_refuted.
(** If the first transform has a last row (1, 0, 0, 1) and the second moves by 1 along x, the two ways give 1 and 2. *)
Theorem C124_successive_refuted : exists (ta tb : Transform (flt F32)) (v : Vector3 (flt F32)),
  omap (fun w => B2SF (vx w)) (w <~ v3_transform (f_float F32) (fun x => x) v tb ;; v3_transform (f_float F32) (fun x => x) w ta) = Done (B2SF (f32 1)) /\
  omap (fun w => B2SF (vx w)) (p <~ m4_mul (f_elem F32) (t_m ta) (t_m tb) ;; v3_transform (f_float F32) (fun x => x) v (mkT p p)) = Done (B2SF (f32 2)).
Proof.
  pose (o := f32 0). pose (l := f32 1).
  pose (ma := W4 (W4 l o o l) (W4 o l o o) (W4 o o l o) (W4 o o o l)). pose (mb := W4 (W4 l o o o) (W4 o l o o) (W4 o o l o) (W4 l o o l)).
  exists (mkT ma ma), (mkT mb mb), (V3 l o o). split; vm_compute; reflexivity.
Qed.
Print Assumptions C124_successive_refuted.
(** The hypotheses of the theorems above are met, by diagonal matrices. *)
Example C124_example : let a := dia F32 (f_div (f32 2) (f32 3)) in let c := dia F32 (f32 3) in let fin m := is_finite (mget (A := flt F32) m I0 I0) in
  omap fin (p <~ m4_mul (f_elem F32) a a ;; m4_mul (f_elem F32) p c) = Done true /\
  omap fin (p <~ m4_mul (f_elem F32) a c ;; m4_mul (f_elem F32) a p) = Done true /\
  omap fin (t <~ m4_add (f_elem F32) a c ;; m4_mul (f_elem F32) a t) = Done true /\
  omap fin (p <~ m4_mul (f_elem F32) a a ;; q <~ m4_mul (f_elem F32) a c ;; m4_add (f_elem F32) p q) = Done true /\
  omap (fun w => is_finite (vx w)) (w <~ v3_transform (f_float F32) (fun x => x) (V3 (f32 1) (f32 2) (f32 3)) (mkT a a) ;; v3_transform (f_float F32) (fun x => x) w (mkT c c)) = Done true.
Proof.
  cbv zeta. split; [vm_compute; reflexivity|]. split; [vm_compute; reflexivity|]. split; [vm_compute; reflexivity|]. split; vm_compute; reflexivity.
Qed.
