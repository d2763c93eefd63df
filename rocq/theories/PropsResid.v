(** Property theorems about the product of a float matrix and its computed inverse. Nothing but statements, examples and
    [Print Assumptions]. *)
From Coq Require Import ZArith Reals.
From Flocq Require Import Core.Core IEEE754.BinarySingleNaN.
From Verif Require Import Base Elem FloatInst GeoModel MatModel GeoSpec ArithSpec MatSpec OpsSpec FloatErrSpec FloatResid GaussEx.
Local Open Scope R_scope.

(** ** C136: the product of a well-conditioned matrix and its computed inverse, computed in floats too, is near the identity on either side.
    [A] is the matrix, [C] its inverse over the reals, [S] and [K] bound their entries. *)
Theorem C136_both : forall f (S K : R) (A : Matrix4 (flt f)) (C : Matrix4 R),
  bpow radix2 (-60) <= S -> S <= bpow radix2 60 ->
  (forall r c, is_finite (mget A r c) = true) -> (forall r c, Rabs (B2R (mget A r c)) <= S) ->
  prodR (m_real A) C = identR -> (forall r c, Rabs (mget C r c) <= K) -> S * K * half_ulp f <= 1 / 8192 ->
  exists B P Q, m4_inverse (f_elem f) A = Done B /\ m4_mul (f_elem f) B A = Done P /\ m4_mul (f_elem f) A B = Done Q /\
    forall r c, is_finite (mget P r c) = true /\ is_finite (mget Q r c) = true /\
      Rabs (B2R (mget P r c) - mget identR r c) <= 2840 * (S * K) * half_ulp f /\
      Rabs (B2R (mget Q r c) - mget identR r c) <= 5640 * (S * K) * (S * K + 1) * half_ulp f.
Proof. exact both_sides. Qed.
Print Assumptions C136_both.
(** The two matrices of the transform made from [A]. *)
Theorem C136_transform : forall f (S K : R) (A : Matrix4 (flt f)) (C : Matrix4 R),
  bpow radix2 (-60) <= S -> S <= bpow radix2 60 ->
  (forall r c, is_finite (mget A r c) = true) -> (forall r c, Rabs (B2R (mget A r c)) <= S) ->
  prodR (m_real A) C = identR -> (forall r c, Rabs (mget C r c) <= K) -> S * K * half_ulp f <= 1 / 8192 ->
  exists t P Q, t_new_ (f_float f) A = Done t /\ m4_mul (f_float f) (t_inv t) (t_m t) = Done P /\ m4_mul (f_float f) (t_m t) (t_inv t) = Done Q /\
    forall r c, is_finite (mget P r c) = true /\ is_finite (mget Q r c) = true /\
      Rabs (B2R (mget P r c) - mget identR r c) <= 2840 * (S * K) * half_ulp f /\
      Rabs (B2R (mget Q r c) - mget identR r c) <= 5640 * (S * K) * (S * K + 1) * half_ulp f.
Proof. exact both_sides_t. Qed.
Print Assumptions C136_transform.
(** It need not be the identity itself. *)
Theorem C136_exact_refuted : forall f, exists A : Matrix4 (flt f), (forall r c, is_finite (mget A r c) = true) /\
  exists B P, m4_inverse (f_elem f) A = Done B /\ m4_mul (f_elem f) B A = Done P /\
  exists r c, Beqb (mget P r c) (f_of_int f (if ix_eqb r c then 1 else 0)%Z) = false.
Proof. exact (fun f => ex_intro _ (tenths f) (tenths_off f)). Qed.
Print Assumptions C136_exact_refuted.

(** The hypotheses are satisfiable: the matrix of ones and twos of C109. *)
Example C136_case : forall f, (forall r c, is_finite (mget (shear f) r c) = true) /\ (forall r c, Rabs (B2R (mget (shear f) r c)) <= 2) /\
  prodR (m_real (shear f)) unshear = identR /\ (forall r c, Rabs (mget unshear r c) <= 8) /\
  bpow radix2 (-60) <= 2 <= bpow radix2 60 /\ 2 * 8 * half_ulp f <= 1 / 8192.
Proof. exact shear_ok. Qed.
