(** Property theorems about Matrix4::inverse and has_scale in floats. Nothing but statements, examples and [Print Assumptions]. *)
From Coq Require Import ZArith Reals Lra Lia.
From Flocq Require Import Core.Core IEEE754.BinarySingleNaN.
From Verif Require Import Base Elem GeoModel MatModel MatSpec FloatInst GeoSpec ArithSpec OpsSpec FloatErrSpec.
From Verif Require Import FloatInv FloatScale FloatScaleNan FloatCompose InvFloatEx.
Local Open Scope R_scope.

(** ** C86: inverse in f32 and f64 on matrices with one non-zero entry in every row and column, and on translations *)
Theorem C86_monomial : forall f (A : Matrix4 (flt f)) (sg : ix -> ix), (forall a b, sg a = sg b -> a = b) ->
  (forall r, is_finite (mget A r (sg r)) = true /\ B2R (mget A r (sg r)) <> 0 /\
             Rabs (nearest f (/ B2R (mget A r (sg r)))) < bpow radix2 (femax f)) ->
  (forall r k, k <> sg r -> is_finite (mget A r k) = true /\ B2R (mget A r k) = 0) ->
  exists B, m4_inverse (f_elem f) A = Done B /\ forall r,
    is_finite (mget B (sg r) r) = true /\ B2R (mget B (sg r) r) = nearest f (/ B2R (mget A r (sg r))) /\
    forall k, k <> r -> is_finite (mget B (sg r) k) = true /\ B2R (mget B (sg r) k) = 0.
Proof. exact monomial. Qed.
Print Assumptions C86_monomial.
(** Exact for powers of two: the identity, permutations, reflections, doublings. *)
Theorem C86_powers_of_two : forall f (A : Matrix4 (flt f)) (sg : ix -> ix) (e : ix -> Z), (forall a b, sg a = sg b -> a = b) ->
  (forall r, is_finite (mget A r (sg r)) = true /\ Rabs (B2R (mget A r (sg r))) = bpow radix2 (e r) /\ (- femax f < e r < femax f)%Z) ->
  (forall r k, k <> sg r -> is_finite (mget A r k) = true /\ B2R (mget A r k) = 0) ->
  exists B, m4_inverse (f_elem f) A = Done B /\ (forall r c, is_finite (mget B r c) = true) /\
    prodR (m_real A) (m_real B) = identR /\ prodR (m_real B) (m_real A) = identR.
Proof. exact pow2_exact. Qed.
Print Assumptions C86_powers_of_two.
(** The inverse of the matrix of [scale] is the one [scale] stores, except for the wrong entry of C57. *)
Theorem C86_scale : forall f (x y z : flt f), (forall a, a = x \/ a = y \/ a = z ->
    is_finite a = true /\ B2R a <> 0 /\ Rabs (nearest f (/ B2R a)) < bpow radix2 (femax f)) ->
  exists t B, t_scale (f_float f) x y z = Done t /\ m4_inverse (f_elem f) (t_m t) = Done B /\
    B2R (mget B I3 I2) = 0 /\ mget (t_inv t) I3 I2 = z /\
    forall r c, (r, c) <> (I3, I2) -> Beqb (mget B r c) (mget (t_inv t) r c) = true.
Proof. exact scale_inverse. Qed.
Print Assumptions C86_scale.
Theorem C86_translate : forall f (d : Vector3 (flt f)), (forall i, is_finite (vcoord i d) = true /\ Rabs (B2R (vcoord i d)) <= 1) ->
  exists t B, t_translate (f_float f) d = Done t /\ m4_inverse (f_elem f) (t_m t) = Done B /\ m4_eq (f_elem f) B (t_inv t) = true.
Proof. exact trans_small. Qed.
Print Assumptions C86_translate.
(** Not for all translations: by (13, 0, 0) in f32 and by (93, 0, 0) in f64 the corner of the inverse is not 1. *)
Theorem C86_large_translate_refuted : forall f, exists d : Vector3 (flt f), vfinite d /\
  exists t B, t_translate (f_float f) d = Done t /\ m4_inverse (f_elem f) (t_m t) = Done B /\
    m4_eq (f_elem f) B (t_inv t) = false /\ B2R (mget B I3 I3) <> 1.
Proof. exact large_translate. Qed.
Print Assumptions C86_large_translate_refuted.
(** Not for all diagonal matrices: the reciprocal of a small entry overflows and the rest of the result is lost. *)
Theorem C86_small_entry_refuted : forall f, exists a : flt f, is_finite a = true /\ 0 < B2R a /\
  exists B, m4_inverse (f_elem f) (mset (f_ident f) I0 I0 a) = Done B /\
    forall r c, (r, c) <> (I0, I0) -> is_nan (mget B r c) = true.
Proof. exact small_entry. Qed.
Print Assumptions C86_small_entry_refuted.
Example C86_example : let A := W4 (W4 (f32 0) (f32 3) (f32 0) (f32 0)) (W4 (f32 (-7)) (f32 0) (f32 0) (f32 0))
                                  (W4 (f32 0) (f32 0) (f32 0) (f32 1)) (W4 (f32 0) (f32 0) (f32 10) (f32 0)) in
  let sg r := match r with I0 => I1 | I1 => I0 | I2 => I3 | I3 => I2 end in
  (forall a b, sg a = sg b -> a = b) /\
  (forall r, is_finite (mget A r (sg r)) = true /\ B2R (mget A r (sg r)) <> 0 /\
             Rabs (nearest F32 (/ B2R (mget A r (sg r)))) < bpow radix2 (femax F32)) /\
  (forall r k, k <> sg r -> is_finite (mget A r k) = true /\ B2R (mget A r k) = 0).
Proof. exact monomial_example. Qed.

(** ** C87: has_scale in f32 and f64 *)
Theorem C87_has_scale : forall f (t : Transform (flt f)), (forall r c, r <> I3 -> c <> I3 -> is_finite (mget (t_m t) r c) = true) ->
  let t' := mkT (m_real (t_m t)) (m_real (t_inv t)) in
  exists b, t_has_scale (f_float f) t = Done b /\
  ((forall j, j <> I3 -> Rabs (col_sq t' j - 1) <= 999 / 1000000) -> b = false) /\
  ((exists j, j <> I3 /\ 1001 / 1000000 < Rabs (col_sq t' j - 1)) -> b = true).
Proof. exact has_scale_f. Qed.
Print Assumptions C87_has_scale.
Theorem C87_translate : forall f (d : Vector3 (flt f)), exists t, t_translate (f_float f) d = Done t /\ t_has_scale (f_float f) t = Done false.
Proof. exact has_scale_trans. Qed.
Print Assumptions C87_translate.
(** An entry that is not finite makes the lengths of the other two columns NaN, and NaN does not count as scale:
    true exactly if one column alone has such entries, none of them NaN. *)
Theorem C87_not_finite : forall f (t : Transform (flt f)),
  (forall r c r' c', r <> I3 -> c <> I3 -> r' <> I3 -> c' <> I3 -> c <> c' ->
     is_finite (mget (t_m t) r c) = false -> is_finite (mget (t_m t) r' c') = false -> t_has_scale (f_float f) t = Done false) /\
  (forall r c, r <> I3 -> c <> I3 -> is_nan (mget (t_m t) r c) = true -> t_has_scale (f_float f) t = Done false) /\
  (forall r c, r <> I3 -> c <> I3 -> is_finite (mget (t_m t) r c) = false ->
     (forall r', r' <> I3 -> is_nan (mget (t_m t) r' c) = false) ->
     (forall r' c', r' <> I3 -> c' <> I3 -> c' <> c -> is_finite (mget (t_m t) r' c') = true) -> t_has_scale (f_float f) t = Done true).
Proof. exact scale_not_finite. Qed.
Print Assumptions C87_not_finite.
Example C87_case_not_finite : let inf := f_div (f32 1) (f32 0) in let t := mkT (f_ident F32) (f_ident F32) in
  (is_finite inf = false /\ is_nan inf = false) /\
  (t_has_scale (f_float F32) (mkT (mset (t_m t) I0 I1 inf) (t_inv t)) = Done true) /\
  (t_has_scale (f_float F32) (mkT (mset (mset (t_m t) I1 I1 inf) I2 I2 inf) (t_inv t)) = Done false).
Proof. exact scale_not_finite_case. Qed.
Example C87_example : exists t, t_scale (f_float F32) (f32 1) (f32 3) (f32 1) = Done t /\
  (forall r c, r <> I3 -> c <> I3 -> is_finite (mget (t_m t) r c) = true) /\
  1001 / 1000000 < Rabs (col_sq (mkT (m_real (t_m t)) (m_real (t_inv t))) I1 - 1).
Proof. exact scale_example. Qed.

(** ** C88: products of translations and of scalings in f32 and f64 *)
Theorem C88_translations : forall f (a b : Vector3 (flt f)), vfinite a -> vfinite b -> exists ta tb s ts,
  t_translate (f_float f) a = Done ta /\ t_translate (f_float f) b = Done tb /\
  v3_add (f_elem f) a b = Done s /\ t_translate (f_float f) s = Done ts /\
  (exists p, m4_mul (f_elem f) (t_m ta) (t_m tb) = Done p /\ m4_eq (f_elem f) p (t_m ts) = true) /\
  (exists q, m4_mul (f_elem f) (t_inv tb) (t_inv ta) = Done q /\ m4_eq (f_elem f) q (t_inv ts) = true).
Proof. exact translate_product. Qed.
Print Assumptions C88_translations.
Theorem C88_scalings : forall f (a b : Vector3 (flt f)), vfinite a -> vfinite b -> exists ta tb ts,
  t_scale (f_float f) (vx a) (vy a) (vz a) = Done ta /\ t_scale (f_float f) (vx b) (vy b) (vz b) = Done tb /\
  t_scale (f_float f) (f_mult (vx a) (vx b)) (f_mult (vy a) (vy b)) (f_mult (vz a) (vz b)) = Done ts /\
  exists p, m4_mul (f_elem f) (t_m ta) (t_m tb) = Done p /\ m4_eq (f_elem f) p (t_m ts) = true.
Proof. exact scale_product. Qed.
Print Assumptions C88_scalings.
Example C88_example : vfinite (V3 (f32 16777216) (f32 (-7)) (f32 0)) /\ vfinite (V3 (f32 1) (f32 7) (f32 3)).
Proof. split; intros []; reflexivity. Qed.
