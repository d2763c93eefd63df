(** Property theorems about NaN in boxes and about boxes around many points. Nothing but statements, examples and
    [Print Assumptions]. *)
From Coq Require Import ZArith Permutation.
From Flocq Require Import IEEE754.BinarySingleNaN.
From Verif Require Import Base Elem GeoModel FloatInst GeoSpec ManySpec BoxNan.

(** ** C107: what the box functions do with NaN, for all f32 and f64 coordinates *)
Theorem C107_new : forall f p q, exists b, b3_new (f_elem f) p q = Done b /\ forall i,
  low f (coord i p) (coord i q) (coord i (b_min b)) /\ high f (coord i p) (coord i q) (coord i (b_max b)).
Proof. exact new_nan. Qed.
Print Assumptions C107_new.
Theorem C107_union_pt : forall f s p, exists u, b3_union_pt (f_elem f) s p = Done u /\ forall i, exists lo hi,
  low f (coord i (b_min s)) (coord i p) lo /\ high f (coord i (b_max s)) (coord i p) hi /\
  low f lo hi (coord i (b_min u)) /\ high f lo hi (coord i (b_max u)).
Proof. exact union_pt_nan. Qed.
Print Assumptions C107_union_pt.
Theorem C107_union : forall f s b, exists u, b3_union (f_elem f) s b = Done u /\ forall i, exists lo hi,
  low f (coord i (b_min s)) (coord i (b_min b)) lo /\ high f (coord i (b_max s)) (coord i (b_max b)) hi /\
  low f lo hi (coord i (b_min u)) /\ high f lo hi (coord i (b_max u)).
Proof. exact union_nan. Qed.
Print Assumptions C107_union.
Theorem C107_intersect : forall f s b, exists u, b3_intersect (f_elem f) s b = Done u /\ forall i, exists lo hi,
  high f (coord i (b_min s)) (coord i (b_min b)) lo /\ low f (coord i (b_max s)) (coord i (b_max b)) hi /\
  low f lo hi (coord i (b_min u)) /\ high f lo hi (coord i (b_max u)).
Proof. exact intersect_nan. Qed.
Print Assumptions C107_intersect.
(** NaN in what is added does not count. *)
Theorem C107_added_point : forall f s p u i, b3_union_pt (f_elem f) s p = Done u ->
  Bleb (coord i (b_min s)) (coord i (b_max s)) = true -> is_nan (coord i p) = true ->
  coord i (b_min u) = coord i (b_min s) /\ same (TFloat f) (coord i (b_max u)) (coord i (b_max s)).
Proof. exact union_pt_ignores. Qed.
Print Assumptions C107_added_point.
Theorem C107_added_box : forall f s b u i, b3_union (f_elem f) s b = Done u ->
  Bleb (coord i (b_min s)) (coord i (b_max s)) = true -> is_nan (coord i (b_min b)) = true -> is_nan (coord i (b_max b)) = true ->
  coord i (b_min u) = coord i (b_min s) /\ same (TFloat f) (coord i (b_max u)) (coord i (b_max s)).
Proof. exact union_ignores. Qed.
Print Assumptions C107_added_box.
(** NaN in the box itself stays. *)
Theorem C107_kept_point : forall f s p u i, b3_union_pt (f_elem f) s p = Done u -> is_nan (coord i (b_min s)) = true ->
  is_nan (coord i (b_min u)) = true /\ is_nan (coord i (b_max u)) = true.
Proof. exact union_pt_keeps. Qed.
Print Assumptions C107_kept_point.
Theorem C107_kept_box : forall f s b u i, b3_union (f_elem f) s b = Done u -> is_nan (coord i (b_min s)) = true ->
  is_nan (coord i (b_min u)) = true /\ is_nan (coord i (b_max u)) = true.
Proof. exact union_keeps. Qed.
Print Assumptions C107_kept_box.
(** So that the order of the arguments matters. *)
Theorem C107_order_refuted : forall f, exists (p q : Point3 (flt f)) b b', b3_new (f_elem f) p q = Done b /\ b3_new (f_elem f) q p = Done b' /\
  inb (tle (TFloat f)) b p /\ forall x, ~ inb (tle (TFloat f)) b' x.
Proof. exact new_nan_order. Qed.
Print Assumptions C107_order_refuted.
Theorem C107_union_order_refuted : forall f, exists (a b : Bounds3 (flt f)) u u', good_box (TFloat f) a /\
  b3_union (f_elem f) a b = Done u /\ b3_union (f_elem f) b a = Done u' /\ eqbox (tle (TFloat f)) u a /\
  forall x, ~ inb (tle (TFloat f)) u' x.
Proof. exact union_nan_order. Qed.
Print Assumptions C107_union_order_refuted.
(** The answer yes is never given with a NaN around. *)
Theorem C107_overlaps : forall f a b, b3_overlaps (f_elem f) a b = true -> box_valid (TFloat f) a /\ box_valid (TFloat f) b.
Proof. exact overlaps_no_nan. Qed.
Print Assumptions C107_overlaps.
Theorem C107_inside : forall f b p, b3_inside (f_elem f) b p = true -> box_valid (TFloat f) b /\ pt_valid (TFloat f) p.
Proof. exact inside_no_nan. Qed.
Print Assumptions C107_inside.
Example C107_example : b3_new (f_elem F32) (P3 (f32 1) f_nan (f32 3)) (P3 f_nan (f32 2) (f32 (-3))) =
  Done (B3 (P3 (f32 1) f_nan (f32 (-3))) (P3 (f32 1) f_nan (f32 3))) /\
  b3_union_pt (f_elem F32) (bx (f32 0) (f32 0) (f32 0) (f32 1) (f32 1) (f32 1)) (P3 f_nan (f32 2) f_nan) =
  Done (bx (f32 0) (f32 0) (f32 0) (f32 1) (f32 2) (f32 1)).
Proof. split; reflexivity. Qed.

(** ** C108: a box grown point by point, or box by box, is the smallest around all of them *)
Theorem C108_points : forall ty p ps, (forall q, In q (p :: ps) -> pt_valid ty q) ->
  exists b, box_of_points (elem ty) p ps = Done b /\ good_box ty b /\ (forall q, In q (p :: ps) -> inb (tle ty) b q) /\
  forall c, (forall q, In q (p :: ps) -> inb (tle ty) c q) -> subbox (tle ty) b c.
Proof. exact points_smallest. Qed.
Print Assumptions C108_points.
Theorem C108_order : forall ty p ps q qs, Permutation (p :: ps) (q :: qs) -> (forall x, In x (p :: ps) -> pt_valid ty x) ->
  exists b b', box_of_points (elem ty) p ps = Done b /\ box_of_points (elem ty) q qs = Done b' /\ eqbox (tle ty) b b'.
Proof. exact points_order. Qed.
Print Assumptions C108_order.
Theorem C108_boxes : forall ty l a, good_box ty a -> (forall b, In b l -> good_box ty b) ->
  exists u, box_of_boxes (elem ty) a l = Done u /\ good_box ty u /\ (forall b, In b (a :: l) -> subbox (tle ty) b u) /\
  forall c, (forall b, In b (a :: l) -> subbox (tle ty) b c) -> subbox (tle ty) u c.
Proof. exact boxes_smallest. Qed.
Print Assumptions C108_boxes.
(** Points first put into two boxes. *)
Theorem C108_split : forall ty p ps q qs, (forall x, In x (p :: ps ++ q :: qs) -> pt_valid ty x) ->
  exists a b u w, box_of_points (elem ty) p ps = Done a /\ box_of_points (elem ty) q qs = Done b /\ b3_union (elem ty) a b = Done u /\
  box_of_points (elem ty) p (ps ++ q :: qs) = Done w /\ eqbox (tle ty) u w.
Proof. exact points_split. Qed.
Print Assumptions C108_split.
(** With NaN: an axis is lost if the first point has NaN there, and otherwise NaN does not count. *)
Theorem C108_nan : forall f p ps, exists b, box_of_points (f_elem f) p ps = Done b /\ forall i,
  if is_nan (coord i p) then is_nan (coord i (b_min b)) = true /\ is_nan (coord i (b_max b)) = true
  else least f (map (coord i) (p :: ps)) (coord i (b_min b)) /\ greatest f (map (coord i) (p :: ps)) (coord i (b_max b)).
Proof. exact points_nan. Qed.
Print Assumptions C108_nan.
Example C108_example : box_of_points (i64 true) (P3 1 5 3)%Z [P3 0 7 3; P3 2 6 (-3)]%Z = Done (bx 0 5 (-3) 2 7 3)%Z /\
  pt_valid (TInt true) (P3 0 7 3)%Z /\
  box_of_points (f_elem F32) (P3 (f32 1) f_nan (f32 0)) [P3 f_nan (f32 2) (f32 1); P3 (f32 (-2)) (f32 2) f_nan] =
  Done (bx (f32 (-2)) f_nan (f32 0) (f32 1) f_nan (f32 1)).
Proof. split; [reflexivity|]. split; [intros []; reflexivity|reflexivity]. Qed.
