(** A scene of integer points and boxes, and its mirror image (C144). *)
From Coq Require Import ZArith.
From Verif Require Import Base GeoModel GeoSpec ArithSpec.
Local Open Scope Z_scope.

(** [S i]: axis [i] is reversed. *)
Definition flip (S : axis -> bool) (i : axis) (z : Z) : Z := if S i then - z else z.
Definition flip_pt (S : axis -> bool) (p p' : Point3 Z) : Prop := forall i, coord i p' = flip S i (coord i p).
Definition flip_vec (S : axis -> bool) (v v' : Vector3 Z) : Prop := forall i, vcoord i v' = flip S i (vcoord i v).
(** On a reversed axis the bounds are exchanged. *)
Definition flip_box (S : axis -> bool) (b b' : Bounds3 Z) : Prop := forall i,
  coord i (b_min b') = flip S i (coord i (if S i then b_max b else b_min b)) /\ coord i (b_max b') = flip S i (coord i (if S i then b_min b else b_max b)).
