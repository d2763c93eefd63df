(** Property theorems about Euclid's inequalities in floats: C134. Nothing but statements, examples and [Print Assumptions]. *)
From Coq Require Import ZArith Reals.
From Flocq Require Import Core.Core IEEE754.BinarySingleNaN.
From Verif Require Import GeoSpec Base Elem FloatInst GeoModel FloatErrSpec EuclidSpec FloatEuclid.
Local Open Scope R_scope.

(** ** C134: the inequalities of Cauchy and Schwarz and of the triangle hold in floats up to rounding *)
Theorem C134_dot : forall f (v w : Vector3 (flt f)) d l m, v3_dot (f_elem f) v w = Done d -> is_finite d = true -> len_is v l -> len_is w m ->
  Rabs (B2R d) <= (1 + 17 * half_ulp f) * ((B2R l + 2 * tiny_len f) * (B2R m + 2 * tiny_len f)).
Proof. exact dot_len. Qed.
Print Assumptions C134_dot.
Theorem C134_sum : forall f (v w s : Vector3 (flt f)) l m k, v3_add (f_elem f) v w = Done s -> len_is v l -> len_is w m -> len_is s k ->
  B2R k <= (1 + 13 * half_ulp f) * (B2R l + B2R m + 3 * tiny_len f).
Proof. exact sum_len. Qed.
Print Assumptions C134_sum.
Theorem C134_distance : forall f (p q r : Point3 (flt f)) a b c l m k,
  p3_sub (f_elem f) p q = Done a -> p3_sub (f_elem f) q r = Done b -> p3_sub (f_elem f) p r = Done c ->
  len_is a l -> len_is b m -> len_is c k -> B2R k <= (1 + 15 * half_ulp f) * (B2R l + B2R m + 3 * tiny_len f).
Proof. exact distance_len. Qed.
Print Assumptions C134_distance.
Theorem C134_cross : forall f (v w c : Vector3 (flt f)) l m k, v3_cross (f_elem f) v w = Done c -> len_is v l -> len_is w m -> len_is c k ->
  B2R k <= (1 + 24 * half_ulp f) * ((B2R l + 2 * tiny_len f) * (B2R m + 2 * tiny_len f) + tiny_len f).
Proof. exact cross_len. Qed.
Print Assumptions C134_cross.
Theorem C134_n_dot : forall f (v w : Normal3 (flt f)) d l m, n3_dot (f_elem f) v w = Done d -> is_finite d = true -> n_len_is v l -> n_len_is w m ->
  Rabs (B2R d) <= (1 + 17 * half_ulp f) * ((B2R l + 2 * tiny_len f) * (B2R m + 2 * tiny_len f)).
Proof. exact n_dot_len. Qed.
Print Assumptions C134_n_dot.
Theorem C134_n_sum : forall f (v w s : Normal3 (flt f)) l m k, n3_add (f_elem f) v w = Done s -> n_len_is v l -> n_len_is w m -> n_len_is s k ->
  B2R k <= (1 + 13 * half_ulp f) * (B2R l + B2R m + 3 * tiny_len f).
Proof. exact n_sum_len. Qed.
Print Assumptions C134_n_sum.
Theorem C134_n_cross : forall f (v w c : Normal3 (flt f)) l m k, n3_cross (f_elem f) v w = Done c -> n_len_is v l -> n_len_is w m -> n_len_is c k ->
  B2R k <= (1 + 24 * half_ulp f) * ((B2R l + 2 * tiny_len f) * (B2R m + 2 * tiny_len f) + tiny_len f).
Proof. exact n_cross_len. Qed.
Print Assumptions C134_n_cross.
(** They do not hold without rounding errors: (1, 1, 0) with itself, and (1, 1, 0) + (6, 6, 0). *)
Theorem C134_dot_refuted : exists (v : Vector3 (flt F32)) d l, v3_dot (f_elem F32) v v = Done d /\ len_is v l /\ Bltb (f_mult l l) d = true.
Proof. exact dot_case. Qed.
Print Assumptions C134_dot_refuted.
Theorem C134_sum_refuted : exists (v w s : Vector3 (flt F32)) l m k, v3_add (f_elem F32) v w = Done s /\ len_is v l /\ len_is w m /\ len_is s k /\
  Bltb (f_add l m) k = true.
Proof. exact sum_case. Qed.
Print Assumptions C134_sum_refuted.
Example C134_example : exists d l m, v3_dot (f_elem F32) (V3 (f32 3) (f32 (-5)) (f32 2)) (V3 (f32 1) (f32 7) (f32 9)) = Done d /\ is_finite d = true /\
  len_is (V3 (f32 3) (f32 (-5)) (f32 2)) l /\ len_is (V3 (f32 1) (f32 7) (f32 9)) m.
Proof. do 3 eexists. split; [reflexivity|]. split; [vm_compute; reflexivity|]. split; (split; [reflexivity|vm_compute; reflexivity]). Qed.
