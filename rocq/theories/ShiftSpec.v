(** A scene of integer points and boxes, and the same scene moved (C142). *)
From Coq Require Import ZArith.
From Verif Require Import Base GeoModel GeoSpec ArithSpec.
Local Open Scope Z_scope.

Definition moved_pt (v : Vector3 Z) (p p' : Point3 Z) : Prop := forall i, coord i p' = coord i p + vcoord i v.
Definition moved_box (v : Vector3 Z) (b b' : Bounds3 Z) : Prop := moved_pt v (b_min b) (b_min b') /\ moved_pt v (b_max b) (b_max b').
(** Two dimensions: a point, and an iterator and the box behind it. *)
Definition moved_pt2 (v : Vector2 Z) (p p' : Point2 Z) : Prop := p2x p' = p2x p + v2x v /\ p2y p' = p2y p + v2y v.
Definition moved_iter (v : Vector2 Z) (i i' : Bounds2Iter Z) : Prop :=
  moved_pt2 v (it_max i) (it_max i') /\ it_x i' = it_x i + v2x v /\ it_y i' = it_y i + v2y v.
(** Room for the box expanded by [d]. *)
Definition room (b : Bounds3 Z) (d : Z) : Prop := forall i, in_range (coord i (b_min b) - d) = true /\ in_range (coord i (b_max b) + d) = true.
