(** Property theorems about the accuracy of Matrix4::inverse in floats. Nothing but statements, examples and [Print Assumptions]. *)
From Coq Require Import ZArith Reals.
From Flocq Require Import Core.Core IEEE754.BinarySingleNaN.
From Verif Require Import Base Elem FloatInst GeoModel MatModel MatSpec FloatErrSpec FloatGauss GaussEx.
Local Open Scope R_scope.

(** ** C109: the inverse computed in f32 and f64 is accurate. [A] is the matrix, [C] its inverse over the reals, [S] and [K] bound
    their entries, so that [S * K] is a condition number. *)
Theorem C109_inverse_accuracy : forall f (S K : R) (A : Matrix4 (flt f)) (C : Matrix4 R),
  bpow radix2 (-60) <= S -> S <= bpow radix2 60 ->
  (forall r c, is_finite (mget A r c) = true) -> (forall r c, Rabs (B2R (mget A r c)) <= S) ->
  prodR (m_real A) C = identR -> (forall r c, Rabs (mget C r c) <= K) -> S * K * half_ulp f <= 1 / 8192 ->
  exists B, m4_inverse (f_elem f) A = Done B /\ forall r c, is_finite (mget B r c) = true /\
    Rabs (mget (prodR (m_real B) (m_real A)) r c - mget identR r c) <= 2800 * (S * K) * half_ulp f /\
    Rabs (B2R (mget B r c) - mget C r c) <= 1400 * K * (S * K + 1) * half_ulp f.
Proof. exact inverse_bounds. Qed.
Print Assumptions C109_inverse_accuracy.
(** A panic means that the matrix is singular or nearly so. *)
Theorem C109_panic : forall f (S : R) (A : Matrix4 (flt f)) (C : Matrix4 R), bpow radix2 (-60) <= S -> S <= bpow radix2 60 ->
  (forall r c, is_finite (mget A r c) = true) -> (forall r c, Rabs (B2R (mget A r c)) <= S) ->
  prodR (m_real A) C = identR -> m4_inverse (f_elem f) A = Panic -> exists r c, 1 / 8192 < S * Rabs (mget C r c) * half_ulp f.
Proof. exact panic_near_singular. Qed.
Print Assumptions C109_panic.
(** Transforms made from a matrix hold it and its inverse. *)
Theorem C109_transform : forall f (S K : R) (A : Matrix4 (flt f)) (C : Matrix4 R), bpow radix2 (-60) <= S -> S <= bpow radix2 60 ->
  (forall r c, is_finite (mget A r c) = true) -> (forall r c, Rabs (B2R (mget A r c)) <= S) ->
  prodR (m_real A) C = identR -> (forall r c, Rabs (mget C r c) <= K) -> S * K * half_ulp f <= 1 / 8192 ->
  exists t, t_new_ (f_float f) A = Done t /\ t_m t = A /\ forall r c, is_finite (mget (t_inv t) r c) = true /\
    Rabs (B2R (mget (t_inv t) r c) - mget C r c) <= 1400 * K * (S * K + 1) * half_ulp f.
Proof. exact transform_bounds. Qed.
Print Assumptions C109_transform.
(** Without the bound on the condition number even the panic is possible. *)
Theorem C109_any_invertible_refuted : forall f, exists (A : Matrix4 (flt f)) (C : Matrix4 R), (forall r c, is_finite (mget A r c) = true) /\
  prodR (m_real A) C = identR /\ m4_inverse (f_elem f) A = Panic.
Proof. exact taken_for_singular. Qed.
Print Assumptions C109_any_invertible_refuted.

(** The hypotheses are satisfiable: a matrix of ones and twos, whose inverse has entries up to 8. *)
Example C109_accuracy_case : forall f, (forall r c, is_finite (mget (shear f) r c) = true) /\ (forall r c, Rabs (B2R (mget (shear f) r c)) <= 2) /\
  prodR (m_real (shear f)) unshear = identR /\ (forall r c, Rabs (mget unshear r c) <= 8) /\
  bpow radix2 (-60) <= 2 <= bpow radix2 60 /\ 2 * 8 * half_ulp f <= 1 / 8192.
Proof. exact shear_ok. Qed.
(** And so are those of the theorem about panics: the matrix 3, 1, 1, 1/3 rounded. *)
Example C109_panic_case : forall f, exists C : Matrix4 R, (forall r c, is_finite (mget (near_singular f) r c) = true) /\
  (forall r c, Rabs (B2R (mget (near_singular f) r c)) <= 4) /\ prodR (m_real (near_singular f)) C = identR /\
  m4_inverse (f_elem f) (near_singular f) = Panic.
Proof. exact near_singular_ok. Qed.
