(** Property theorems about boxes, extremes and dimensions. They hold for every element type of the code: [TFloat F32],
    [TFloat F64], [TInt true] (overflow checks on) and [TInt false]. Nothing but statements, examples and
    [Print Assumptions]. *)
From Coq Require Import ZArith Reals.
From Flocq Require Import IEEE754.BinarySingleNaN.
From Verif Require Import Base Elem GeoModel FloatInst GeoSpec BoxThms PropsBoxLemmas.

(** ** C30: pmin and pmax return an extremal element *)
Theorem C30_pmin : forall ty l, l <> [] -> Forall (valid ty) l ->
  exists m, pmin (elem ty) l = Done m /\ In m l /\ Forall (fun x => tle ty m x) l.
Proof. exact pmin_thm. Qed.
Print Assumptions C30_pmin.
Theorem C30_pmax : forall ty l, l <> [] -> Forall (valid ty) l ->
  exists m, pmax (elem ty) l = Done m /\ In m l /\ Forall (fun x => tle ty x m) l.
Proof. exact pmax_thm. Qed.
Print Assumptions C30_pmax.
Theorem C30_empty : forall ty, pmin (elem ty) [] = Panic /\ pmax (elem ty) [] = Panic.
Proof. exact (fun ty => conj eq_refl eq_refl). Qed.
Print Assumptions C30_empty.
Theorem C30_nan_first : forall f l, pmin (f_elem f) (B754_nan :: l) = Done B754_nan /\ pmax (f_elem f) (B754_nan :: l) = Done B754_nan.
Proof. exact (fun f l => conj (pmin_nan f l) (pmax_nan f l)). Qed.
Print Assumptions C30_nan_first.
Theorem C30_nan_later : forall f x l,
  pmin (f_elem f) (x :: l) = pmin (f_elem f) (x :: filter (fun y => negb (is_nan y)) l) /\
  pmax (f_elem f) (x :: l) = pmax (f_elem f) (x :: filter (fun y => negb (is_nan y)) l).
Proof. exact (fun f x l => conj (pmin_skip f x l) (pmax_skip f x l)). Qed.
Print Assumptions C30_nan_later.
Example C30_example : Forall (valid (TFloat F32)) [f32 3; f32 (-1); f32 2] /\
  pmin (f_elem F32) [f32 3; f_nan; f32 (-1); f32 2] = Done (f32 (-1)) /\ pmax (i64 true) [3; -1; 7; 2]%Z = Done 7%Z.
Proof. repeat split; repeat constructor. Qed.

(** ** C31: Bounds3::new is the smallest box around two points *)
Theorem C31_new : forall ty p q, pt_valid ty p -> pt_valid ty q ->
  exists b, b3_new (elem ty) p q = Done b /\ good_box ty b /\ inb (tle ty) b p /\ inb (tle ty) b q /\
    forall c, inb (tle ty) c p -> inb (tle ty) c q -> subbox (tle ty) b c.
Proof. exact new_thm. Qed.
Print Assumptions C31_new.
Theorem C31_new_order : forall ty p q, pt_valid ty p -> pt_valid ty q ->
  exists b b', b3_new (elem ty) p q = Done b /\ b3_new (elem ty) q p = Done b' /\ eqbox (tle ty) b b'.
Proof. exact new_comm_thm. Qed.
Print Assumptions C31_new_order.
Theorem C31_new_pt : forall ty p, pt_valid ty p -> exists b, b3_new_pt (elem ty) p = Done b /\ good_box ty b /\
  forall q, inb (tle ty) b q <-> forall i, same ty (coord i p) (coord i q).
Proof. exact new_pt_thm. Qed.
Print Assumptions C31_new_pt.
Example C31_example : pt_valid (TFloat F32) (P3 (f32 1) (f_inf F32) (f32 (-3))) /\ pt_valid (TInt true) (P3 1 int_max (-3))%Z /\
  b3_new (i64 true) (P3 1 5 (-3))%Z (P3 0 7 2)%Z = Done (bx 0 5 (-3) 1 7 2)%Z.
Proof. repeat split; intros []; reflexivity. Qed.

(** ** C32: union is the least upper bound *)
Theorem C32_union : forall ty a b, good_box ty a -> good_box ty b ->
  exists u, b3_union (elem ty) a b = Done u /\ good_box ty u /\ subbox (tle ty) a u /\ subbox (tle ty) b u /\
    forall c, subbox (tle ty) a c -> subbox (tle ty) b c -> subbox (tle ty) u c.
Proof. exact union_thm. Qed.
Print Assumptions C32_union.
Theorem C32_commutative : forall ty a b, good_box ty a -> good_box ty b ->
  exists u u', b3_union (elem ty) a b = Done u /\ b3_union (elem ty) b a = Done u' /\ eqbox (tle ty) u u'.
Proof. exact union_comm_thm. Qed.
Print Assumptions C32_commutative.
Theorem C32_associative : forall ty a b c, good_box ty a -> good_box ty b -> good_box ty c ->
  exists ab bc l r, b3_union (elem ty) a b = Done ab /\ b3_union (elem ty) b c = Done bc /\
    b3_union (elem ty) ab c = Done l /\ b3_union (elem ty) a bc = Done r /\ eqbox (tle ty) l r.
Proof. exact union_assoc_thm. Qed.
Print Assumptions C32_associative.
Theorem C32_idempotent : forall ty a, good_box ty a -> exists u, b3_union (elem ty) a a = Done u /\ eqbox (tle ty) u a.
Proof. exact union_idem_thm. Qed.
Print Assumptions C32_idempotent.
Example C32_example : good_box (TInt true) (bx 0 0 0 1 2 3)%Z /\ good_box (TFloat F32) (bx (f32 0) (f32 0) (f32 0) (f32 1) (f_inf F32) (f32 3)) /\
  b3_union (i64 true) (bx 0 0 0 1 2 3)%Z (bx 5 (-4) 1 6 9 2)%Z = Done (bx 0 (-4) 0 6 9 3)%Z.
Proof. exact box_examples. Qed.

(** ** C33: union_pt adds exactly the point *)
Theorem C33_union_pt : forall ty a p, good_box ty a -> pt_valid ty p ->
  exists u, b3_union_pt (elem ty) a p = Done u /\ good_box ty u /\ subbox (tle ty) a u /\ inb (tle ty) u p /\
    forall c, subbox (tle ty) a c -> inb (tle ty) c p -> subbox (tle ty) u c.
Proof. exact union_pt_thm. Qed.
Print Assumptions C33_union_pt.
Example C33_example : good_box (TInt true) (bx 0 0 0 1 2 3)%Z /\ pt_valid (TInt true) (P3 5 1 (-1))%Z /\
  b3_union_pt (i64 true) (bx 0 0 0 1 2 3)%Z (P3 5 1 (-1))%Z = Done (bx 0 0 (-1) 5 2 3)%Z.
Proof. split; [exact (proj1 box_examples)|]. split; [intros []; reflexivity | reflexivity]. Qed.

(** ** C34: intersect *)
(** Expected: [forall a b p, good_box ty a -> good_box ty b -> inb (intersect a b) p <-> inb a p /\ inb b p]. *)
Theorem C34_intersection_refuted : exists (a b : Bounds3 Z) u p, good_box (TInt true) a /\ good_box (TInt true) b /\
  b3_intersect (elem (TInt true)) a b = Done u /\ inb (tle (TInt true)) u p /\
  ~ inb (tle (TInt true)) a p /\ ~ inb (tle (TInt true)) b p.
Proof. exact intersect_refuted. Qed.
Print Assumptions C34_intersection_refuted.
(** True of boxes with a common point. *)
Theorem C34_intersection_partial : forall ty a b, good_box ty a -> good_box ty b ->
  (exists p, inb (tle ty) a p /\ inb (tle ty) b p) ->
  exists u, b3_intersect (elem ty) a b = Done u /\ good_box ty u /\
    forall p, inb (tle ty) u p <-> inb (tle ty) a p /\ inb (tle ty) b p.
Proof. exact intersect_thm. Qed.
Print Assumptions C34_intersection_partial.
(** Where [a] ends before [b] begins on an axis, the result spans the gap. *)
Theorem C34_gap : forall ty a b i, good_box ty a -> good_box ty b ->
  tle ty (coord i (b_max a)) (coord i (b_min b)) -> ~ tle ty (coord i (b_min b)) (coord i (b_max a)) ->
  exists u, b3_intersect (elem ty) a b = Done u /\ good_box ty u /\
    coord i (b_min u) = coord i (b_max a) /\ coord i (b_max u) = coord i (b_min b).
Proof. exact intersect_gap_thm. Qed.
Print Assumptions C34_gap.
Example C34_example : good_box (TInt true) (bx 0 0 0 1 2 3)%Z /\ inb (tle (TInt true)) (bx 0 0 0 1 2 3)%Z (P3 1 1 1)%Z /\
  b3_intersect (i64 true) (bx 0 0 0 1 2 3)%Z (bx 1 (-4) 1 6 9 2)%Z = Done (bx 1 0 1 1 2 2)%Z.
Proof. split; [exact (proj1 box_examples)|]. split; [intros []; split; cbn; lia | reflexivity]. Qed.

(** ** C35: overlaps decides common points *)
Theorem C35_overlaps : forall ty a b, good_box ty a -> good_box ty b ->
  (b3_overlaps (elem ty) a b = true <-> exists p, pt_valid ty p /\ inb (tle ty) a p /\ inb (tle ty) b p).
Proof. exact overlaps_thm. Qed.
Print Assumptions C35_overlaps.
Theorem C35_symmetric : forall ty a b, b3_overlaps (elem ty) a b = b3_overlaps (elem ty) b a.
Proof. exact overlaps_symmetric. Qed.
Print Assumptions C35_symmetric.
Example C35_example : b3_overlaps (i64 true) (bx 0 0 0 1 2 3)%Z (bx 1 (-4) 1 6 9 2)%Z = true /\
  b3_overlaps (i64 true) (bx 0 0 0 1 2 3)%Z (bx 2 0 0 3 2 3)%Z = false.
Proof. split; reflexivity. Qed.

(** ** C36: inside and inside_exclusive *)
Theorem C36_inside : forall ty b p, b3_inside (elem ty) b p = true <-> inb (tle ty) b p.
Proof. exact inside_thm. Qed.
Print Assumptions C36_inside.
Theorem C36_exclusive : forall ty b p, b3_inside_exclusive (elem ty) b p = true <->
  inb (tle ty) b p /\ forall i, ~ same ty (coord i p) (coord i (b_max b)).
Proof. exact exclusive_thm. Qed.
Print Assumptions C36_exclusive.
Theorem C36_nan : forall f b p i, is_nan (coord i p) = true ->
  b3_inside (f_elem f) b p = false /\ b3_inside_exclusive (f_elem f) b p = false.
Proof. exact inside_nan_false. Qed.
Print Assumptions C36_nan.
Example C36_example : b3_inside (i64 true) (bx 0 0 0 1 2 3)%Z (P3 1 1 1)%Z = true /\
  b3_inside_exclusive (i64 true) (bx 0 0 0 1 2 3)%Z (P3 1 1 1)%Z = false /\
  b3_inside (f_elem F32) (bx (f32 0) (f32 0) (f32 0) (f32 1) (f32 1) (f32 1)) (P3 f_nan (f32 0) (f32 0)) = false.
Proof. repeat split. Qed.

(** ** C38: corner *)
Theorem C38_low_bits : forall ty (b : Bounds3 (car ty)) n, b3_corner b n = b3_corner b (n mod 8)%N.
Proof. exact corner_mod8. Qed.
Print Assumptions C38_low_bits.
Theorem C38_bit : forall ty (b : Bounds3 (car ty)) n i,
  coord i (b3_corner b n) = if N.testbit n (N.of_nat (axis_nat i)) then coord i (b_min b) else coord i (b_max b).
Proof. exact corner_axis. Qed.
Print Assumptions C38_bit.
Theorem C38_all_corners : forall ty (b : Bounds3 (car ty)) p,
  (forall i, coord i p = coord i (b_min b) \/ coord i p = coord i (b_max b)) -> exists n, (n < 8)%N /\ b3_corner b n = p.
Proof. exact corner_all. Qed.
Print Assumptions C38_all_corners.
Theorem C38_corner_inside : forall ty b n, good_box ty b -> b3_inside (elem ty) b (b3_corner b n) = true.
Proof. exact corner_inside. Qed.
Print Assumptions C38_corner_inside.
Example C38_example : b3_corner (bx 0 0 0 1 2 3)%Z 0%N = (P3 1 2 3)%Z /\ b3_corner (bx 0 0 0 1 2 3)%Z 13%N = (P3 0 2 0)%Z.
Proof. split; reflexivity. Qed.

(** ** C39: new_inf is the box of everything *)
Theorem C39_everything : forall ty, exists b, b3_new_inf (elem ty) = Done b /\ good_box ty b /\ forall p, pt_valid ty p -> inb (tle ty) b p.
Proof. exact new_inf_thm. Qed.
Print Assumptions C39_everything.
Theorem C39_union : forall ty a, good_box ty a -> exists b u, b3_new_inf (elem ty) = Done b /\ b3_union (elem ty) a b = Done u /\
  forall p, pt_valid ty p -> inb (tle ty) u p.
Proof. exact new_inf_union. Qed.
Print Assumptions C39_union.
Theorem C39_intersect : forall ty a, good_box ty a -> exists b u, b3_new_inf (elem ty) = Done b /\ b3_intersect (elem ty) a b = Done u /\
  forall p, pt_valid ty p -> (inb (tle ty) u p <-> inb (tle ty) a p).
Proof. exact new_inf_intersect. Qed.
Print Assumptions C39_intersect.
Example C39_example : b3_new_inf (i64 false) = Done (bx int_min int_min int_min int_max int_max int_max).
Proof. reflexivity. Qed.

(** ** C40: maximum_extent and max_dimension *)
(** A longest axis; the last one if there are several. *)
Theorem C40_max_dimension : forall ty v, (forall i, valid ty (vcoord i v)) ->
  exists i, v3_max_dimension (elem ty) v = axis_nat i /\ forall j,
    tle ty (vcoord j v) (vcoord i v) /\ (axis_nat i < axis_nat j -> ~ tle ty (vcoord i v) (vcoord j v)).
Proof. exact max_dimension_thm. Qed.
Print Assumptions C40_max_dimension.
Theorem C40_normal : forall ty n, n3_max_dimension (elem ty) n = v3_max_dimension (elem ty) (V3 (nx n) (ny n) (nz n)).
Proof. exact n3_max_dimension_eq. Qed.
Print Assumptions C40_normal.
(** For all boxes, NaN included. *)
Theorem C40_maximum_extent : forall ty b, b3_maximum_extent (elem ty) b =
  match b3_diagonal (elem ty) b with Done d => Done (v3_max_dimension (elem ty) d) | Panic => Panic | OutOfFuel => OutOfFuel end.
Proof. exact extent_dimension. Qed.
Print Assumptions C40_maximum_extent.
(** An axis along which the box is longest; the last one if there are several. *)
Theorem C40_longest_axis : forall ty b (d : axis -> car ty),
  (forall i, e_sub (elem ty) (coord i (b_max b)) (coord i (b_min b)) = Done (d i)) -> (forall i, valid ty (d i)) ->
  exists i, b3_maximum_extent (elem ty) b = Done (axis_nat i) /\ forall j,
    tle ty (d j) (d i) /\ (axis_nat i < axis_nat j -> ~ tle ty (d i) (d j)).
Proof. exact longest_axis. Qed.
Print Assumptions C40_longest_axis.
Example C40_longest_example : let b := (bx 0 0 0 5 2 3)%Z in let d i := match i with AX => 5 | AY => 2 | AZ => 3 end%Z in
  forall i, e_sub (elem (TInt true)) (coord i (b_max b)) (coord i (b_min b)) = Done (d i) /\ valid (TInt true) (d i).
Proof. intros b d []; repeat split. Qed.
Example C40_example : v3_max_dimension (i64 true) (V3 4 4 1)%Z = 1 /\ b3_maximum_extent (i64 true) (bx 0 0 0 5 2 3)%Z = Done 0 /\
  v3_max_dimension (f_elem F32) (V3 (f32 4) (f32 4) (f32 4)) = 2.
Proof. repeat split. Qed.

(** ** C69: componentwise min and max *)
Theorem C69_point_min : forall ty p q, pt_valid ty p -> pt_valid ty q ->
  exists m, p3_min (elem ty) p q = Done m /\ forall i, smaller ty (coord i m) (coord i p) (coord i q).
Proof. exact p3_min_thm. Qed.
Print Assumptions C69_point_min.
Theorem C69_point_max : forall ty p q, pt_valid ty p -> pt_valid ty q ->
  exists m, p3_max (elem ty) p q = Done m /\ forall i, larger ty (coord i m) (coord i p) (coord i q).
Proof. exact p3_max_thm. Qed.
Print Assumptions C69_point_max.
Theorem C69_vector_min : forall ty p q, (forall i, valid ty (vcoord i p)) -> (forall i, valid ty (vcoord i q)) ->
  exists m, v3_min (elem ty) p q = Done m /\ forall i, smaller ty (vcoord i m) (vcoord i p) (vcoord i q).
Proof. exact v3_min_thm. Qed.
Print Assumptions C69_vector_min.
Theorem C69_vector_max : forall ty p q, (forall i, valid ty (vcoord i p)) -> (forall i, valid ty (vcoord i q)) ->
  exists m, v3_max (elem ty) p q = Done m /\ forall i, larger ty (vcoord i m) (vcoord i p) (vcoord i q).
Proof. exact v3_max_thm. Qed.
Print Assumptions C69_vector_max.
Theorem C69_normal_min : forall ty p q, (forall i, valid ty (ncoord i p)) -> (forall i, valid ty (ncoord i q)) ->
  exists m, n3_min (elem ty) p q = Done m /\ forall i, smaller ty (ncoord i m) (ncoord i p) (ncoord i q).
Proof. exact n3_min_thm. Qed.
Print Assumptions C69_normal_min.
Theorem C69_normal_max : forall ty p q, (forall i, valid ty (ncoord i p)) -> (forall i, valid ty (ncoord i q)) ->
  exists m, n3_max (elem ty) p q = Done m /\ forall i, larger ty (ncoord i m) (ncoord i p) (ncoord i q).
Proof. exact n3_max_thm. Qed.
Print Assumptions C69_normal_max.
Theorem C69_vector_components : forall ty v, (forall i, valid ty (vcoord i v)) ->
  (exists m, v3_min_component (elem ty) v = Done m /\ (exists i, m = vcoord i v) /\ forall i, tle ty m (vcoord i v)) /\
  (exists m, v3_max_component (elem ty) v = Done m /\ (exists i, m = vcoord i v) /\ forall i, tle ty (vcoord i v) m).
Proof. exact v3_components. Qed.
Print Assumptions C69_vector_components.
Theorem C69_normal_components : forall ty v, (forall i, valid ty (ncoord i v)) ->
  (exists m, n3_min_component (elem ty) v = Done m /\ (exists i, m = ncoord i v) /\ forall i, tle ty m (ncoord i v)) /\
  (exists m, n3_max_component (elem ty) v = Done m /\ (exists i, m = ncoord i v) /\ forall i, tle ty (ncoord i v) m).
Proof. exact n3_components. Qed.
Print Assumptions C69_normal_components.
Example C69_example : p3_min (i64 true) (P3 1 5 3)%Z (P3 2 4 6)%Z = Done (P3 1 4 3)%Z /\
  v3_max_component (f_elem F32) (V3 (f32 1) (f32 5) (f32 (-7))) = Done (f32 5).
Proof. split; reflexivity. Qed.
