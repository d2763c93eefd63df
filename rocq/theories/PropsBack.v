(** Property theorems about inverting twice and transforming there and back in floats. Nothing but statements, examples and
    [Print Assumptions]. *)
From Coq Require Import ZArith Reals.
From Flocq Require Import Core.Core IEEE754.BinarySingleNaN.
From Verif Require Import Base Elem FloatInst GeoModel MatModel GeoSpec ArithSpec MatSpec OpsSpec FloatErrSpec FloatBack GaussEx.
Local Open Scope R_scope.

(** ** C111: in f32 and f64 the inverse undoes a well-conditioned matrix. [A] is the matrix, [C] its inverse over the reals, [S] and [K]
    bound their entries. *)
Theorem C111_inverse_twice : forall f (S K : R) (A : Matrix4 (flt f)) (C : Matrix4 R),
  bpow radix2 (-60) <= S -> S <= bpow radix2 60 -> bpow radix2 (-60) <= K -> K <= bpow radix2 59 ->
  (forall r c, is_finite (mget A r c) = true) -> (forall r c, Rabs (B2R (mget A r c)) <= S) ->
  prodR (m_real A) C = identR -> (forall r c, Rabs (mget C r c) <= K) -> S * K * half_ulp f <= 1 / 65536 ->
  exists B A', m4_inverse (f_elem f) A = Done B /\ m4_inverse (f_elem f) B = Done A' /\
    forall r c, is_finite (mget A' r c) = true /\
      Rabs (B2R (mget A' r c) - B2R (mget A r c)) <= 80000 * S * (S * K) * half_ulp f.
Proof. exact inverse_twice. Qed.
Print Assumptions C111_inverse_twice.
(** A vector sent through a transform and back. The last row of the matrix must begin with three zeros: v3_transform leaves it out. *)
Theorem C111_vector : forall f (S K V : R) (A : Matrix4 (flt f)) (C : Matrix4 R) (t : Transform (flt f)) (v w x : Vector3 (flt f)),
  bpow radix2 (-60) <= S -> S <= bpow radix2 60 ->
  (forall r c, is_finite (mget A r c) = true) -> (forall r c, Rabs (B2R (mget A r c)) <= S) -> (forall c, c <> I3 -> B2R (mget A I3 c) = 0) ->
  prodR (m_real A) C = identR -> (forall r c, Rabs (mget C r c) <= K) -> S * K * half_ulp f <= 1 / 8192 ->
  t_new_ (f_float f) A = Done t -> (forall i, Rabs (B2R (vcoord i v)) <= V) ->
  v3_transform (f_float f) (fun a => a) v t = Done w -> v3_transform (f_float f) (fun a => a) w (t_inverse t) = Done x ->
  forall i, is_finite (vcoord i x) = true ->
  Rabs (B2R (vcoord i x) - B2R (vcoord i v)) <= 8600 * (S * K) * half_ulp f * V + (18 * K + 4) * half_tiny f.
Proof. exact there_and_back. Qed.
Print Assumptions C111_vector.

(** The hypotheses are satisfiable: the matrix of ones and twos of C109, and the vector (5, -7, 3). *)
Example C111_case : forall f, (forall r c, is_finite (mget (shear f) r c) = true) /\ (forall r c, Rabs (B2R (mget (shear f) r c)) <= 2) /\
  prodR (m_real (shear f)) unshear = identR /\ (forall r c, Rabs (mget unshear r c) <= 8) /\
  bpow radix2 (-60) <= 2 <= bpow radix2 60 /\ bpow radix2 (-60) <= 8 <= bpow radix2 59 /\ 2 * 8 * half_ulp f <= 1 / 65536.
Proof. exact shear_sizes. Qed.
Example C111_vector_case : forall f, (forall c, c <> I3 -> B2R (mget (shear f) I3 c) = 0) /\
  t_new_ (f_float f) (shear f) = Done (shear_t f) /\ (forall i, Rabs (B2R (vcoord i (some_v f))) <= 7) /\
  exists w x, v3_transform (f_float f) (fun a => a) (some_v f) (shear_t f) = Done w /\
    v3_transform (f_float f) (fun a => a) w (t_inverse (shear_t f)) = Done x /\ vfinite x.
Proof. exact (fun f => conj (shear_last f) (some_v_ok f)). Qed.
