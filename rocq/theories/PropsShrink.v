(** Property theorems about boxes made smaller. Nothing but statements, examples and [Print Assumptions]. *)
From Coq Require Import ZArith Reals List.
From Flocq Require Import Core.Core IEEE754.BinarySingleNaN.
From Verif Require Import Base Elem GeoModel FloatInst GeoSpec ArithSpec FloatErrSpec BoxShrink.

(** ** C140: expand by a negative amount, and there and back *)
(** i64, in both build modes. The points of the result, where nothing overflows. *)
Theorem C140_int_points : forall chk (b : Bounds3 Z) d,
  (forall i, in_range (coord i (b_min b) - d) = true /\ in_range (coord i (b_max b) + d) = true) ->
  exists u, b3_expand (i64 chk) b d = Done u /\ forall p, inb Z.le u p <->
  forall i, (coord i (b_min b) - d <= coord i p <= coord i (b_max b) + d)%Z \/ (coord i (b_max b) + d <= coord i p <= coord i (b_min b) - d)%Z.
Proof. exact int_points. Qed.
Print Assumptions C140_int_points.
(** Twice is once by the sum, unless the bounds cross on the way. *)
Theorem C140_int_twice : forall chk (b : Bounds3 Z) d e,
  (forall i, in_range (coord i (b_min b) - d) = true /\ in_range (coord i (b_max b) + d) = true) ->
  (forall i, in_range (coord i (b_min b) - (d + e)) = true /\ in_range (coord i (b_max b) + (d + e)) = true) ->
  (forall i, coord i (b_min b) - d <= coord i (b_max b) + d)%Z ->
  exists u v, b3_expand (i64 chk) b d = Done u /\ b3_expand (i64 chk) u e = Done v /\ b3_expand (i64 chk) b (d + e)%Z = Done v.
Proof. exact int_twice. Qed.
Print Assumptions C140_int_twice.
Theorem C140_int_back : forall chk (b : Bounds3 Z) d, good_box (TInt chk) b ->
  (forall i, in_range (coord i (b_min b) - d) = true /\ in_range (coord i (b_max b) + d) = true) ->
  (forall i, coord i (b_min b) - d <= coord i (b_max b) + d)%Z ->
  exists u, b3_expand (i64 chk) b d = Done u /\ b3_expand (i64 chk) u (- d)%Z = Done b.
Proof. exact int_back. Qed.
Print Assumptions C140_int_back.
Theorem C140_int_back_refuted : exists (b : Bounds3 Z) d u v, good_box (TInt true) b /\
  (forall i, in_range (coord i (b_min b) - d) = true /\ in_range (coord i (b_max b) + d) = true) /\
  b3_expand (i64 true) b d = Done u /\ b3_expand (i64 true) u (- d)%Z = Done v /\ v <> b.
Proof. exact int_back_refuted. Qed.
Print Assumptions C140_int_back_refuted.
(** Taking away more than there is makes the box larger. *)
Theorem C140_int_smaller_refuted : exists (b : Bounds3 Z) d u, good_box (TInt true) b /\
  (forall i, in_range (coord i (b_min b) - d) = true /\ in_range (coord i (b_max b) + d) = true) /\ (d < 0)%Z /\
  b3_expand (i64 true) b d = Done u /\ subbox Z.le b u /\ exists p, inb Z.le u p /\ ~ inb Z.le b p.
Proof. exact int_grows_refuted. Qed.
Print Assumptions C140_int_smaller_refuted.
(** All element types: bounds that cross are exchanged. *)
Theorem C140_crossed : forall ty (b u : Bounds3 (car ty)) (x y : axis -> car ty) i d,
  (forall j, e_sub (elem ty) (coord j (b_min b)) d = Done (x j)) -> (forall j, e_add (elem ty) (coord j (b_max b)) d = Done (y j)) ->
  valid ty (x i) -> valid ty (y i) -> ~ tle ty (x i) (y i) -> b3_expand (elem ty) b d = Done u ->
  coord i (b_min u) = y i /\ coord i (b_max u) = x i.
Proof. exact crossed. Qed.
Print Assumptions C140_crossed.
(** f32 and f64. *)
Theorem C140_smaller : forall f (b : Bounds3 (flt f)) d, bfinite b -> is_finite d = true -> (B2R d <= 0)%R ->
  (forall i, Bleb (f_sub (coord i (b_min b)) d) (f_add (coord i (b_max b)) d) = true) ->
  exists v, b3_expand (f_elem f) b d = Done v /\ subbox (tle (TFloat f)) v b.
Proof. exact shrink. Qed.
Print Assumptions C140_smaller.
Theorem C140_smaller_refuted : forall f, exists (b : Bounds3 (flt f)) d u, bfinite b /\ normalised (tle (TFloat f)) b /\ (B2R d < 0)%R /\
  b3_expand (f_elem f) b d = Done u /\ exists p, inb (tle (TFloat f)) u p /\ ~ inb (tle (TFloat f)) b p.
Proof. exact float_grows_refuted. Qed.
Print Assumptions C140_smaller_refuted.
Theorem C140_back : forall f (b v w : Bounds3 (flt f)) d, normalised (tle (TFloat f)) b ->
  (forall i, Bleb (f_sub (coord i (b_min b)) d) (f_add (coord i (b_max b)) d) = true) ->
  b3_expand (f_elem f) b d = Done v -> b3_expand (f_elem f) v (Bopp d) = Done w -> bfinite v -> bfinite w ->
  forall i, let m := Rmax (Rabs (B2R (coord i (b_min b)))) (Rabs (B2R (coord i (b_max b)))) in
  (Rabs (B2R (coord i (b_min w)) - B2R (coord i (b_min b))) <= 3 * half_ulp f * (m + Rabs (B2R d)))%R /\
  (Rabs (B2R (coord i (b_max w)) - B2R (coord i (b_max b))) <= 3 * half_ulp f * (m + Rabs (B2R d)))%R.
Proof. exact float_back. Qed.
Print Assumptions C140_back.
(** Growing and shrinking again can lose points in floats. *)
Theorem C140_back_refuted : forall f, exists (b : Bounds3 (flt f)) d v w p, bfinite b /\ normalised (tle (TFloat f)) b /\ (0 < B2R d)%R /\
  b3_expand (f_elem f) b d = Done v /\ b3_expand (f_elem f) v (Bopp d) = Done w /\ bfinite v /\ bfinite w /\
  inb (tle (TFloat f)) b p /\ ~ inb (tle (TFloat f)) w p.
Proof. exact float_back_refuted. Qed.
Print Assumptions C140_back_refuted.
Example C140_example_int : let b := (bx 0 0 0 4 6 8)%Z in good_box (TInt true) b /\
  (forall i, in_range (coord i (b_min b) - -1) = true /\ in_range (coord i (b_max b) + -1) = true) /\
  (forall i, coord i (b_min b) - -1 <= coord i (b_max b) + -1)%Z /\
  (forall i, in_range (coord i (b_min b) - (-1 + -1)) = true /\ in_range (coord i (b_max b) + (-1 + -1)) = true) /\
  b3_expand (i64 true) b (-1)%Z = Done (bx 1 1 1 3 5 7)%Z.
Proof. exact shrink_example. Qed.
Example C140_example : forall f, let n := f_of_int f in let cube x y := B3 (P3 x x x) (P3 y y y) in let b := cube (n 0%Z) (n 4%Z) in let d := n (-1)%Z in
  bfinite b /\ normalised (tle (TFloat f)) b /\ is_finite d = true /\ (B2R d <= 0)%R /\
  (forall i, Bleb (f_sub (coord i (b_min b)) d) (f_add (coord i (b_max b)) d) = true) /\
  exists v, b3_expand (f_elem f) b d = Done v /\ forall i, Beqb (coord i (b_min v)) (n 1%Z) = true /\ Beqb (coord i (b_max v)) (n 3%Z) = true.
Proof. exact shrink_float_example. Qed.
