(** Property theorems about mirrored integer scenes. Nothing but statements, examples and [Print Assumptions]. *)
From Coq Require Import ZArith List.
From Verif Require Import Base Elem GeoModel GeoSpec ArithSpec AxesSpec ShiftSpec FlipSpec IntFlip.
Local Open Scope mon_scope.
Local Open Scope Z_scope.

(** ** C144: the mirror image of an integer scene *)
Theorem C144_boxes : forall S chk a b p q a' b' p' q', flip_box S a a' -> flip_box S b b' -> flip_pt S p p' -> flip_pt S q q' ->
  alike (flip_box S) (b3_new (i64 chk) p q) (b3_new (i64 chk) p' q') /\
  alike (flip_box S) (b3_new_pt (i64 chk) p) (b3_new_pt (i64 chk) p') /\
  alike (flip_box S) (b3_union (i64 chk) a b) (b3_union (i64 chk) a' b') /\
  alike (flip_box S) (b3_union_pt (i64 chk) a p) (b3_union_pt (i64 chk) a' p') /\
  alike (flip_box S) (b3_intersect (i64 chk) a b) (b3_intersect (i64 chk) a' b').
Proof. exact boxes_flipped. Qed.
Print Assumptions C144_boxes.
Theorem C144_tests : forall S chk a b p a' b' p', flip_box S a a' -> flip_box S b b' -> flip_pt S p p' ->
  b3_inside (i64 chk) a' p' = b3_inside (i64 chk) a p /\ b3_overlaps (i64 chk) a' b' = b3_overlaps (i64 chk) a b.
Proof. exact tests_flipped. Qed.
Print Assumptions C144_tests.
(** Panics included. *)
Theorem C144_measures : forall S chk a a', flip_box S a a' ->
  b3_diagonal (i64 chk) a' = b3_diagonal (i64 chk) a /\ b3_volume (i64 chk) a' = b3_volume (i64 chk) a /\
  b3_surface_area (i64 chk) a' = b3_surface_area (i64 chk) a /\ b3_maximum_extent (i64 chk) a' = b3_maximum_extent (i64 chk) a.
Proof. exact measures_flipped. Qed.
Print Assumptions C144_measures.
Theorem C144_vectors : forall S chk u v u' v', flip_vec S u u' -> flip_vec S v v' ->
  v3_dot (i64 chk) u' v' = v3_dot (i64 chk) u v /\ v3_len_sq (i64 chk) u' = v3_len_sq (i64 chk) u.
Proof. exact vectors_flipped. Qed.
Print Assumptions C144_vectors.
Theorem C144_expand : forall S chk a a' d, flip_box S a a' -> room a d -> room a' d -> alike (flip_box S) (b3_expand (i64 chk) a d) (b3_expand (i64 chk) a' d).
Proof. exact expand_flipped. Qed.
Print Assumptions C144_expand.
(** The exclusive test leaves out the upper faces only, and the largest component is not the one largest in size. *)
Theorem C144_exclusive_refuted : exists S a a' p p', flip_box S a a' /\ flip_pt S p p' /\
  b3_inside_exclusive (i64 true) a p = true /\ b3_inside_exclusive (i64 true) a' p' = false.
Proof. exact exclusive_flips. Qed.
Print Assumptions C144_exclusive_refuted.
Theorem C144_dimension_refuted : exists S u u', flip_vec S u u' /\ v3_max_dimension (i64 true) u <> v3_max_dimension (i64 true) u'.
Proof. exact extent_flips_not. Qed.
Print Assumptions C144_dimension_refuted.
Example C144_example : let S := fun i => match i with AY => false | _ => true end in let a := bx 0 1 2 3 5 7 in let a' := bx (-3) 1 (-7) 0 5 (-2) in
  flip_box S a a' /\ room a 9 /\ room a' 9 /\ flip_pt S (P3 9 9 9) (P3 (-9) 9 (-9)) /\
  b3_union_pt (i64 true) a (P3 9 9 9) = Done (bx 0 1 2 9 9 9) /\ b3_union_pt (i64 true) a' (P3 (-9) 9 (-9)) = Done (bx (-9) 1 (-9) 0 9 (-2)) /\
  b3_volume (i64 true) a' = Done 60.
Proof. repeat split; try (intros []; split; reflexivity); try (intros []; reflexivity); try (destruct i; reflexivity). Qed.
