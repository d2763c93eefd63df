(** Vocabulary of the properties about arithmetic: exact quantities, exactness on i64, finite floats. *)
From Coq Require Import ZArith Reals.
From Flocq Require Import IEEE754.BinarySingleNaN.
From Verif Require Import Base Elem GeoModel MatModel MatSpec FloatInst GeoSpec.

(** ** Real numbers *)
(** Extent of a box along an axis. *)
Definition ext (b : Bounds3 R) i : R := (coord i (b_max b) - coord i (b_min b))%R.
(** Squared distance. *)
Definition dist_sq (p q : Point3 R) : R :=
  ((px p - px q) * (px p - px q) + (py p - py q) * (py p - py q) + (pz p - pz q) * (pz p - pz q))%R.
(** Squared length of a column of the upper 3x3 block. *)
Definition col_sq (t : Transform R) (j : ix) : R :=
  (mget (t_m t) I0 j * mget (t_m t) I0 j + mget (t_m t) I1 j * mget (t_m t) I1 j + mget (t_m t) I2 j * mget (t_m t) I2 j)%R.
(** The two matrices of a transformation are inverse to each other. *)
Definition mutual (t : Transform R) : Prop := prodR (t_m t) (t_inv t) = identR /\ prodR (t_inv t) (t_m t) = identR.
Definition integral (x : R) : Prop := exists z : Z, x = IZR z.

(** ** 64-bit integers *)
(** A computation whose exact value is [z]: with overflow checks it panics or returns [z], without it returns [z] mod 2^64. *)
Definition exactly (chk : bool) (z : Z) (o : out Z) : Prop :=
  if chk then o = Panic \/ (o = Done z /\ in_range z = true) else o = Done (wrap z).
Definition vec_range (v : Vector3 Z) := forall i, in_range (vcoord i v) = true.
Definition exactly3 (chk : bool) (w : Vector3 Z) (o : out (Vector3 Z)) : Prop :=
  if chk then o = Panic \/ (o = Done w /\ vec_range w) else o = Done (V3 (wrap (vx w)) (wrap (vy w)) (wrap (vz w))).
Definition dotZ (u v : Vector3 Z) := (vx u * vx v + vy u * vy v + vz u * vz v)%Z.
Definition crossZ (u v : Vector3 Z) : Vector3 Z :=
  (V3 (vy u * vz v - vz u * vy v) (vz u * vx v - vx u * vz v) (vx u * vy v - vy u * vx v))%Z.
Definition box_range (b : Bounds3 Z) := forall i, in_range (coord i (b_min b)) = true /\ in_range (coord i (b_max b)) = true.
Definition extZ (b : Bounds3 Z) i := (coord i (b_max b) - coord i (b_min b))%Z.
(** At most 2^k in absolute value. *)
Definition small (k z : Z) := (- 2 ^ k <= z <= 2 ^ k)%Z.
Definition vec_small k (v : Vector3 Z) := forall i, small k (vcoord i v).
Definition mat_small k (m : Matrix4 Z) := forall r c, small k (mget m r c).
Definition box_small k (b : Bounds3 Z) := forall i, small k (coord i (b_min b)) /\ small k (coord i (b_max b)).

(** ** Floats *)
Definition pfinite {f} (p : Point3 (flt f)) : Prop := forall i, is_finite (coord i p) = true.
Definition vfinite {f} (v : Vector3 (flt f)) : Prop := forall i, is_finite (vcoord i v) = true.
Definition bfinite {f} (b : Bounds3 (flt f)) : Prop := pfinite (b_min b) /\ pfinite (b_max b).
Definition mfinite {f} (m : Matrix4 (flt f)) : Prop := forall r c, is_finite (mget m r c) = true.
(** Equal up to the sign of zero, NaN equal to NaN. *)
Definition veq f (a b : flt f) : Prop := Beqb a b = true \/ (is_nan a = true /\ is_nan b = true).
Definition vveq f (u v : Vector3 (flt f)) : Prop := forall i, veq f (vcoord i u) (vcoord i v).
(** The identity matrix of floats. *)
Definition f_ident f : Matrix4 (flt f) := ident_of (f_of_int f 0) (f_of_int f 1).

(** ** For examples: floats without the proof they carry *)
Definition omap {A B} (g : A -> B) (o : out A) : out B := obind o (fun a => Done (g a)).
Definition vsf (v : Vector3 (flt F32)) := (B2SF (vx v), B2SF (vy v), B2SF (vz v)).
Definition psf (p : Point3 (flt F32)) := (B2SF (px p), B2SF (py p), B2SF (pz p)).
