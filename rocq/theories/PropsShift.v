(** Property theorems about moved scenes. Nothing but statements, examples and [Print Assumptions]. *)
From Coq Require Import ZArith List.
From Flocq Require Import Core.Core IEEE754.BinarySingleNaN.
From Verif Require Import Base Elem GeoModel FloatInst GeoSpec ArithSpec AxesSpec ShiftSpec IntShift.
Local Open Scope mon_scope.
Local Open Scope Z_scope.

(** ** C142: moving the scene *)
(** Adding a vector moves a point, where the checks do not panic. *)
Theorem C142_add : forall p v p', p3_add (i64 true) p v = Done p' -> moved_pt v p p'.
Proof. exact add_moves. Qed.
Print Assumptions C142_add.
Theorem C142_points : forall chk v p q p' q', moved_pt v p p' -> moved_pt v q q' ->
  p3_sub (i64 chk) p' q' = p3_sub (i64 chk) p q /\ alike (moved_pt v) (p3_min (i64 chk) p q) (p3_min (i64 chk) p' q') /\
  alike (moved_pt v) (p3_max (i64 chk) p q) (p3_max (i64 chk) p' q').
Proof. exact points_moved. Qed.
Print Assumptions C142_points.
Theorem C142_boxes : forall chk v a b p q a' b' p' q', moved_box v a a' -> moved_box v b b' -> moved_pt v p p' -> moved_pt v q q' ->
  alike (moved_box v) (b3_new (i64 chk) p q) (b3_new (i64 chk) p' q') /\
  alike (moved_box v) (b3_new_pt (i64 chk) p) (b3_new_pt (i64 chk) p') /\
  alike (moved_box v) (b3_union (i64 chk) a b) (b3_union (i64 chk) a' b') /\
  alike (moved_box v) (b3_union_pt (i64 chk) a p) (b3_union_pt (i64 chk) a' p') /\
  alike (moved_box v) (b3_intersect (i64 chk) a b) (b3_intersect (i64 chk) a' b') /\
  forall c, moved_pt v (b3_corner a c) (b3_corner a' c).
Proof. exact boxes_moved. Qed.
Print Assumptions C142_boxes.
Theorem C142_tests : forall chk v a b p a' b' p', moved_box v a a' -> moved_box v b b' -> moved_pt v p p' ->
  b3_inside (i64 chk) a' p' = b3_inside (i64 chk) a p /\ b3_inside_exclusive (i64 chk) a' p' = b3_inside_exclusive (i64 chk) a p /\
  b3_overlaps (i64 chk) a' b' = b3_overlaps (i64 chk) a b.
Proof. exact tests_moved. Qed.
Print Assumptions C142_tests.
(** Panics included. *)
Theorem C142_measures : forall chk v a p a' p', moved_box v a a' -> moved_pt v p p' ->
  b3_diagonal (i64 chk) a' = b3_diagonal (i64 chk) a /\ b3_volume (i64 chk) a' = b3_volume (i64 chk) a /\
  b3_surface_area (i64 chk) a' = b3_surface_area (i64 chk) a /\ b3_maximum_extent (i64 chk) a' = b3_maximum_extent (i64 chk) a /\
  b3_offset (i64 chk) a' p' = b3_offset (i64 chk) a p.
Proof. exact measures_moved. Qed.
Print Assumptions C142_measures.
Theorem C142_expand : forall chk v a a' d, moved_box v a a' -> room a d -> room a' d ->
  alike (moved_box v) (b3_expand (i64 chk) a d) (b3_expand (i64 chk) a' d).
Proof. exact expand_moved. Qed.
Print Assumptions C142_expand.
Theorem C142_expand_refuted : exists v a a' d u u', box_range a /\ box_range a' /\ moved_box v a a' /\
  b3_expand (i64 false) a d = Done u /\ b3_expand (i64 false) a' d = Done u' /\ ~ moved_box v u u'.
Proof. exact expand_wraps. Qed.
Print Assumptions C142_expand_refuted.
(** The iterator begins each row at 0 and not at the edge of the box. *)
Theorem C142_iter_refuted : exists v i i' p j p' j', moved_iter v i i' /\ b2_next (i64 true) i = Done (Some p, j) /\
  b2_next (i64 true) i' = Done (Some p', j') /\ ~ moved_pt2 v p p'.
Proof. exact iter_resets. Qed.
Print Assumptions C142_iter_refuted.
(** In floats what is inside stays inside. *)
Theorem C142_float_inside : forall f (b : Bounds3 (flt f)) p v lo hi p', p3_add (f_elem f) (b_min b) v = Done lo ->
  p3_add (f_elem f) (b_max b) v = Done hi -> p3_add (f_elem f) p v = Done p' ->
  (forall i, is_nan (coord i lo) = false /\ is_nan (coord i hi) = false /\ is_nan (coord i p') = false) ->
  b3_inside (f_elem f) b p = true -> b3_inside (f_elem f) (B3 lo hi) p' = true.
Proof. exact inside_moved. Qed.
Print Assumptions C142_float_inside.
Theorem C142_float_overlaps : forall f (a b : Bounds3 (flt f)) v la ha lb hb, p3_add (f_elem f) (b_min a) v = Done la ->
  p3_add (f_elem f) (b_max a) v = Done ha -> p3_add (f_elem f) (b_min b) v = Done lb -> p3_add (f_elem f) (b_max b) v = Done hb ->
  (forall i, is_nan (coord i la) = false /\ is_nan (coord i ha) = false /\ is_nan (coord i lb) = false /\ is_nan (coord i hb) = false) ->
  b3_overlaps (f_elem f) a b = true -> b3_overlaps (f_elem f) (B3 la ha) (B3 lb hb) = true.
Proof. exact overlaps_moved. Qed.
Print Assumptions C142_float_overlaps.
(** Nothing else: differences, the exclusive test, and what is outside. *)
Theorem C142_float_refuted : forall f, exists (p q : Point3 (flt f)) v p' q' d d', p3_add (f_elem f) p v = Done p' /\ p3_add (f_elem f) q v = Done q' /\
  pfinite p' /\ pfinite q' /\ p3_sub (f_elem f) q p = Done d /\ p3_sub (f_elem f) q' p' = Done d' /\ Beqb (vx d) (vx d') = false /\
  b3_inside_exclusive (f_elem f) (B3 p q) p = true /\ b3_inside_exclusive (f_elem f) (B3 p' q') p' = false /\
  b3_inside (f_elem f) (B3 p p) q = false /\ b3_inside (f_elem f) (B3 p' p') q' = true.
Proof. exact far_moved. Qed.
Print Assumptions C142_float_refuted.
Example C142_example : let v := V3 100 (-7) 0 in let a := bx 0 0 0 2 3 4 in let a' := bx 100 (-7) 0 102 (-4) 4 in let b := bx 1 1 1 9 2 9 in let b' := bx 101 (-6) 1 109 (-5) 9 in
  moved_box v a a' /\ moved_box v b b' /\ room a 5 /\ room a' 5 /\ p3_add (i64 true) (P3 1 2 3) v = Done (P3 101 (-5) 3) /\
  b3_overlaps (i64 true) a b = true /\ b3_intersect (i64 true) a b = Done (bx 1 1 1 2 2 4) /\ b3_intersect (i64 true) a' b' = Done (bx 101 (-6) 1 102 (-5) 4) /\
  b3_volume (i64 true) a = Done 24 /\ b3_volume (i64 true) a' = Done 24.
Proof. repeat split; try (intros []; split; reflexivity); try (intros []; reflexivity); try (destruct i; reflexivity). Qed.
Example C142_float_example : let n := f_of_int F32 in let b := bx (n 0) (n 0) (n 0) (n 2) (n 2) (n 2) in let p := P3 (n 1) (n 2) (n 0) in let v := V3 (n 16777216) (n 1) (n 0) in
  b3_inside (f_elem F32) b p = true /\ forall q, q = b_min b \/ q = b_max b \/ q = p -> exists q', p3_add (f_elem F32) q v = Done q' /\ forall i, is_nan (coord i q') = false.
Proof. split; [vm_compute; reflexivity|]. intros q [-> | [-> | ->]]; (eexists; split; [reflexivity|]; intros []; vm_compute; reflexivity). Qed.
