(** A scene of integer points and boxes, and the same scene enlarged (C143). *)
From Coq Require Import ZArith.
From Verif Require Import Base GeoModel GeoSpec ArithSpec.
Local Open Scope Z_scope.

Definition times (k z z' : Z) : Prop := z' = k * z.
Definition grown_pt (k : Z) (p p' : Point3 Z) : Prop := forall i, coord i p' = k * coord i p.
Definition grown_vec (k : Z) (v v' : Vector3 Z) : Prop := forall i, vcoord i v' = k * vcoord i v.
Definition grown_box (k : Z) (b b' : Bounds3 Z) : Prop := grown_pt k (b_min b) (b_min b') /\ grown_pt k (b_max b) (b_max b').
(** If the computation on the enlarged scene does not panic, neither does the one on the scene itself, and the results are related. *)
Definition grows {A} (R : A -> A -> Prop) (o o' : out A) : Prop := forall w', o' = Done w' -> exists w, o = Done w /\ R w w'.
