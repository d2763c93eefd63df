(** Specification for C128 and C129: floats that are whole numbers. *)
From Coq Require Import ZArith Reals List.
From Flocq Require Import Core.Core IEEE754.BinarySingleNaN.
From Verif Require Import Base Elem FloatInst GeoModel MatModel GeoSpec ArithSpec MatSpec OpsSpec ChkSpec.
Local Open Scope Z_scope.

(** Whole numbers up to 2^24 (f32) or 2^53 (f64). *)
Definition whole f (z : Z) : Prop := Z.abs z <= 2 ^ fprec f.
(** The float is the whole number [z]. *)
Definition holds {f} (x : flt f) (z : Z) : Prop := is_finite x = true /\ B2R x = IZR z.
Section Types.
Context {f : fmt}.
Notation B := (flt f).
Definition h_p2 (a : Point2 B) (b : Point2 Z) : Prop := holds (p2x a) (p2x b) /\ holds (p2y a) (p2y b).
Definition h_v2 (a : Vector2 B) (b : Vector2 Z) : Prop := holds (v2x a) (v2x b) /\ holds (v2y a) (v2y b).
Definition h_p3 (a : Point3 B) (b : Point3 Z) : Prop := holds (px a) (px b) /\ holds (py a) (py b) /\ holds (pz a) (pz b).
Definition h_v3 (a : Vector3 B) (b : Vector3 Z) : Prop := holds (vx a) (vx b) /\ holds (vy a) (vy b) /\ holds (vz a) (vz b).
Definition h_n3 (a : Normal3 B) (b : Normal3 Z) : Prop := holds (nx a) (nx b) /\ holds (ny a) (ny b) /\ holds (nz a) (nz b).
Definition h_b3 (a : Bounds3 B) (b : Bounds3 Z) : Prop := h_p3 (b_min a) (b_min b) /\ h_p3 (b_max a) (b_max b).
Definition h_m4 (a : Matrix4 B) (b : Matrix4 Z) : Prop := forall r c, holds (mget a r c) (mget b r c).
End Types.
(** If all [steps] are such whole numbers, the computation with floats returns [z] exactly, and so does the one with i64. *)
Definition agree {A C} f (R : A -> C -> Prop) (steps : list Z) (o : out A) (oi : bool -> out C) (z : C) : Prop :=
  Forall (whole f) steps -> (exists x, o = Done x /\ R x z) /\ forall chk, oi chk = Done z.
(** The same without a computation in i64. *)
Definition exactly {A C} f (R : A -> C -> Prop) (steps : list Z) (o : out A) (z : C) : Prop :=
  Forall (whole f) steps -> exists x, o = Done x /\ R x z.
(** The two computations return the same whole numbers. *)
Definition same {A C} (R : A -> C -> Prop) (o : out A) (oi : bool -> out C) : Prop :=
  exists x z, o = Done x /\ (forall chk, oi chk = Done z) /\ R x z.
(** Steps of the operations on Float alone. *)
Definition at_steps (o : Point3 Z) (d : Vector3 Z) (t : Z) : list Z := steps_of (scaleZ t d) ++ steps_of (addZ (loc o) (scaleZ t d)).
Definition lerpZ (t a b : Z) : Z := (1 - t) * a + t * b.
Definition lerp_steps (t a b : Z) : list Z := [1 - t; (1 - t) * a; t * b; lerpZ t a b].
Definition rowZ (m : Matrix4 Z) (v : Vector3 Z) (r : ix) : Z := mget m r I0 * vx v + mget m r I1 * vy v + mget m r I2 * vz v.
Definition row_steps (m : Matrix4 Z) (v : Vector3 Z) (r : ix) : list Z :=
  [mget m r I0 * vx v; mget m r I1 * vy v; mget m r I0 * vx v + mget m r I1 * vy v; mget m r I2 * vz v; rowZ m v r].
(** Numbers from -2^24 to 2^24 (f32), or -2^53 to 2^53 (f64). *)
Definition in_reach {f} (x : flt f) : Prop := is_finite x = true /\ (- IZR (2 ^ fprec f) <= B2R x <= IZR (2 ^ fprec f))%R.
(** Not NaN and at most 2^24 or 2^53. *)
Definition reachable {f} (x : flt f) : Prop := x = B754_infinity true \/ (is_finite x = true /\ (B2R x <= IZR (2 ^ fprec f))%R).
Definition unlimited {f} (x : flt f) : Prop := x = B754_infinity false \/ is_nan x = true.
