(** Specification for C134: how short a length in floats must be for underflow to matter. *)
From Coq Require Import Reals.
From Verif Require Import FloatInst GeoModel FloatErrSpec.
Local Open Scope R_scope.

(** 2^-74 (f32), about 2^-536 (f64): lengths of this size may be wrong because squares underflow. *)
Definition tiny_len f : R := 2 * sqrt (half_tiny f).
(** The length of a vector or normal of floats as the program computes it. *)
Definition len_is {f} (v : Vector3 (flt f)) (l : flt f) : Prop := v3_len (f_float f) (f_elem f) (fun x => x) v = Base.Done l /\ BinarySingleNaN.is_finite l = true.
Definition n_len_is {f} (n : Normal3 (flt f)) (l : flt f) : Prop := n3_len (f_float f) (f_elem f) (fun x => x) n = Base.Done l /\ BinarySingleNaN.is_finite l = true.
