(** Spec for C123: integer geometry and overflow checks. *)
From Coq Require Import ZArith.
From Verif Require Import Base Elem GeoModel MatModel GeoSpec MatSpec ArithSpec.
Local Open Scope Z_scope.

(** The values of i64. *)
Definition fits (z : Z) : Prop := - 2 ^ 63 <= z <= 2 ^ 63 - 1.
(** [o] is a computation for builds with ([true]) and without overflow checks; [steps] are the exact values of what it computes on
    the way. If they all fit, both builds return [x]; if not, the build with checks panics. *)
Definition checked {A} (o : bool -> out A) (steps : list Z) (x : A) : Prop :=
  (Forall fits steps -> forall chk, o chk = Done x) /\ (~ Forall fits steps -> o true = Panic).
(** Without checks there is a result, whatever overflows. *)
Definition no_panic {A} (o : out A) : Prop := exists x, o = Done x.

Definition addZ (u v : Vector3 Z) : Vector3 Z := V3 (vx u + vx v) (vy u + vy v) (vz u + vz v).
Definition subZ (u v : Vector3 Z) : Vector3 Z := V3 (vx u - vx v) (vy u - vy v) (vz u - vz v).
Definition scaleZ (s : Z) (v : Vector3 Z) : Vector3 Z := V3 (s * vx v) (s * vy v) (s * vz v).
Definition negZ (v : Vector3 Z) : Vector3 Z := V3 (- vx v) (- vy v) (- vz v).
Definition steps_of (v : Vector3 Z) : list Z := [vx v; vy v; vz v].
Definition dot_steps (u v : Vector3 Z) : list Z :=
  [vx u * vx v; vy u * vy v; vx u * vx v + vy u * vy v; vz u * vz v; dotZ u v].
Definition cross_steps (u v : Vector3 Z) : list Z :=
  [vy u * vz v; vz u * vy v; vy u * vz v - vz u * vy v; vz u * vx v; vx u * vz v; vz u * vx v - vx u * vz v;
   vx u * vy v; vy u * vx v; vx u * vy v - vy u * vx v].
Definition vec_of (n : Normal3 Z) : Vector3 Z := V3 (nx n) (ny n) (nz n).
Definition nrm_of (v : Vector3 Z) : Normal3 Z := N3 (vx v) (vy v) (vz v).
Definition pnt_of (v : Vector3 Z) : Point3 Z := P3 (vx v) (vy v) (vz v).
Definition loc (p : Point3 Z) : Vector3 Z := V3 (px p) (py p) (pz p).
Definition mapv (g : Z -> Z) (v : Vector3 Z) : Vector3 Z := V3 (g (vx v)) (g (vy v)) (g (vz v)).
Definition zipv (g : Z -> Z -> Z) (u v : Vector3 Z) : Vector3 Z := V3 (g (vx u) (vx v)) (g (vy u) (vy v)) (g (vz u) (vz v)).
(** Dividing by s is not possible: s is 0, or the quotient of some coordinate is 2^63. *)
Definition no_div (v : Vector3 Z) (s : Z) : Prop := s = 0 \/ (s = -1 /\ (vx v = - 2 ^ 63 \/ vy v = - 2 ^ 63 \/ vz v = - 2 ^ 63)).

(** Boxes *)
Definition exts (b : Bounds3 Z) : Vector3 Z := V3 (extZ b AX) (extZ b AY) (extZ b AZ).
Definition areaZ (b : Bounds3 Z) : Z := 2 * (extZ b AX * extZ b AY + extZ b AX * extZ b AZ + extZ b AY * extZ b AZ).
Definition volumeZ (b : Bounds3 Z) : Z := extZ b AX * extZ b AY * extZ b AZ.
(** The box with the corners p and q, whichever is the lower one. *)
Definition spanZ (p q : Vector3 Z) : Bounds3 Z := B3 (pnt_of (zipv Z.min p q)) (pnt_of (zipv Z.max p q)).
(** Lower bounds at most upper bounds. *)
Definition orderedZ (b : Bounds3 Z) : Prop := forall i, coord i (b_min b) <= coord i (b_max b).
Definition area_steps (b : Bounds3 Z) : list Z :=
  let x := extZ b AX in let y := extZ b AY in let z := extZ b AZ in
  [x; y; z; x * y; x * z; x * y + x * z; y * z; x * y + x * z + y * z; areaZ b].
Definition volume_steps (b : Bounds3 Z) : list Z :=
  let x := extZ b AX in let y := extZ b AY in let z := extZ b AZ in [x; y; z; x * y; volumeZ b].
(** The axis of the longest extent; on ties the later one. *)
Definition longestZ (b : Bounds3 Z) : nat :=
  let x := extZ b AX in let y := extZ b AY in let z := extZ b AZ in
  if ((y <? x) && (z <? x))%Z then 0%nat else if (z <? y)%Z then 1%nat else 2%nat.
Definition diagZ (d : Z) : Vector3 Z := V3 d d d.
(** Place of a coordinate between two bounds, in whole widths. *)
Definition placeZ (p lo hi : Z) : Z := if lo <? hi then Z.quot (p - lo) (hi - lo) else p - lo.
Definition width (lo hi : Z) : list Z := if lo <? hi then [hi - lo] else [].
(** Offset of a point in a box: differences to the lower corner, and the widths of the axes that have one. *)
Definition offset_steps (b : Bounds3 Z) (p : Point3 Z) : list Z :=
  steps_of (subZ (loc p) (loc (b_min b))) ++ width (px (b_min b)) (px (b_max b)) ++ width (py (b_min b)) (py (b_max b)) ++ width (pz (b_min b)) (pz (b_max b)).
Definition offsetZ (b : Bounds3 Z) (p : Point3 Z) : Vector3 Z :=
  V3 (placeZ (px p) (px (b_min b)) (px (b_max b))) (placeZ (py p) (py (b_min b)) (py (b_max b))) (placeZ (pz p) (pz (b_min b)) (pz (b_max b))).

(** Matrices: the products and partial sums of one entry. *)
Definition entry_steps (a b : Matrix4 Z) r c : list Z :=
  let p i := mget a r i * mget b i c in
  [p I0; p I0; p I1; p I0 + p I1; p I2; p I0 + p I1 + p I2; p I3; p I0 + p I1 + p I2 + p I3].
Definition all_ix : list ix := [I0; I1; I2; I3].
Definition prod_steps (a b : Matrix4 Z) : list Z := flat_map (fun r => flat_map (entry_steps a b r) all_ix) all_ix.
Definition sum_steps (a b : Matrix4 Z) : list Z := flat_map (fun r => map (fun c => mget a r c + mget b r c) all_ix) all_ix.
