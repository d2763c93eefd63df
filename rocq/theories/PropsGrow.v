(** Property theorems about enlarged scenes. Nothing but statements, examples and [Print Assumptions]. *)
From Coq Require Import ZArith List.
From Verif Require Import Base Elem GeoModel GeoSpec ArithSpec AxesSpec GrowSpec IntGrow.
Local Open Scope mon_scope.
Local Open Scope Z_scope.

(** ** C143: enlarging the scene *)
Theorem C143_mul : forall k, 1 <= k -> forall p p', p3_mul (i64 true) p k = Done p' -> grown_pt k p p'.
Proof. exact (fun k _ => mul_grows k). Qed.
Print Assumptions C143_mul.
(** Nothing here can overflow. *)
Theorem C143_boxes : forall k, 1 <= k -> forall chk a b p q a' b' p' q', grown_box k a a' -> grown_box k b b' -> grown_pt k p p' -> grown_pt k q q' ->
  alike (grown_pt k) (p3_min (i64 chk) p q) (p3_min (i64 chk) p' q') /\ alike (grown_pt k) (p3_max (i64 chk) p q) (p3_max (i64 chk) p' q') /\
  alike (grown_box k) (b3_new (i64 chk) p q) (b3_new (i64 chk) p' q') /\
  alike (grown_box k) (b3_union (i64 chk) a b) (b3_union (i64 chk) a' b') /\
  alike (grown_box k) (b3_union_pt (i64 chk) a p) (b3_union_pt (i64 chk) a' p') /\
  alike (grown_box k) (b3_intersect (i64 chk) a b) (b3_intersect (i64 chk) a' b') /\
  forall c, grown_pt k (b3_corner a c) (b3_corner a' c).
Proof. exact boxes_grown. Qed.
Print Assumptions C143_boxes.
Theorem C143_tests : forall k, 1 <= k -> forall chk a b p a' b' p', grown_box k a a' -> grown_box k b b' -> grown_pt k p p' ->
  b3_inside (i64 chk) a' p' = b3_inside (i64 chk) a p /\ b3_inside_exclusive (i64 chk) a' p' = b3_inside_exclusive (i64 chk) a p /\
  b3_overlaps (i64 chk) a' b' = b3_overlaps (i64 chk) a b.
Proof. exact tests_grown. Qed.
Print Assumptions C143_tests.
(** With overflow checks: what does not panic on the enlarged scene does not panic on the scene. *)
Theorem C143_points : forall k, 1 <= k -> forall p q v p' q' v', grown_pt k p p' -> grown_pt k q q' -> grown_vec k v v' ->
  grows (grown_vec k) (p3_sub (i64 true) p q) (p3_sub (i64 true) p' q') /\ grows (grown_pt k) (p3_add (i64 true) p v) (p3_add (i64 true) p' v') /\
  grows (grown_pt k) (p3_sub_v (i64 true) p v) (p3_sub_v (i64 true) p' v').
Proof. exact points_grown. Qed.
Print Assumptions C143_points.
Theorem C143_vectors : forall k, 1 <= k -> forall u v u' v', grown_vec k u u' -> grown_vec k v v' ->
  grows (times (k * k)) (v3_dot (i64 true) u v) (v3_dot (i64 true) u' v') /\ grows (times (k * k)) (v3_len_sq (i64 true) u) (v3_len_sq (i64 true) u') /\
  grows (grown_vec (k * k)) (v3_cross (i64 true) u v) (v3_cross (i64 true) u' v') /\
  v3_max_dimension (i64 true) u' = v3_max_dimension (i64 true) u.
Proof. exact vectors_grown. Qed.
Print Assumptions C143_vectors.
Theorem C143_measures : forall k, 1 <= k -> forall a a', grown_box k a a' ->
  grows (grown_vec k) (b3_diagonal (i64 true) a) (b3_diagonal (i64 true) a') /\ grows (times (k * k)) (b3_surface_area (i64 true) a) (b3_surface_area (i64 true) a') /\
  grows (times (k * k * k)) (b3_volume (i64 true) a) (b3_volume (i64 true) a') /\ grows eq (b3_maximum_extent (i64 true) a) (b3_maximum_extent (i64 true) a').
Proof. exact measures_grown. Qed.
Print Assumptions C143_measures.
Theorem C143_expand : forall k, 1 <= k -> forall a a' d, grown_box k a a' -> grows (grown_box k) (b3_expand (i64 true) a d) (b3_expand (i64 true) a' (k * d)).
Proof. exact expand_grown. Qed.
Print Assumptions C143_expand.
(** On an axis without width the offset is a difference and grows, on the others it stays. *)
Theorem C143_offset : forall k, 1 <= k -> forall a a' p p', grown_box k a a' -> grown_pt k p p' ->
  grows (fun o o' => forall i, vcoord i o' = if coord i (b_min a) <? coord i (b_max a) then vcoord i o else k * vcoord i o)
    (b3_offset (i64 true) a p) (b3_offset (i64 true) a' p').
Proof. exact offset_grown. Qed.
Print Assumptions C143_offset.
(** Without the checks the longest axis can change. *)
Theorem C143_extent_refuted : exists k a a' e e', 1 <= k /\ box_range a /\ box_range a' /\ grown_box k a a' /\
  b3_maximum_extent (i64 false) a = Done e /\ b3_maximum_extent (i64 false) a' = Done e' /\ e <> e'.
Proof. exact extent_wraps. Qed.
Print Assumptions C143_extent_refuted.
Example C143_example : let a := bx 0 (-1) 2 2 3 2 in let a' := bx 0 (-5) 10 10 15 10 in
  grown_box 5 a a' /\ grown_pt 5 (P3 1 1 5) (P3 5 5 25) /\ p3_mul (i64 true) (P3 1 1 5) 5 = Done (P3 5 5 25) /\
  b3_surface_area (i64 true) a = Done 16 /\ b3_surface_area (i64 true) a' = Done 400 /\ b3_expand (i64 true) a 2 = Done (bx (-2) (-3) 0 4 5 4) /\
  b3_expand (i64 true) a' 10 = Done (bx (-10) (-15) 0 20 25 20) /\ b3_offset (i64 true) a (P3 1 1 5) = Done (V3 0 0 3) /\
  b3_offset (i64 true) a' (P3 5 5 25) = Done (V3 0 0 15).
Proof. repeat split; try (intros []; reflexivity). Qed.
