(** Property theorems about interpolation from the other end and half-way. Nothing but statements, examples and
    [Print Assumptions]. *)
From Coq Require Import ZArith Reals Lra Lia.
From Flocq Require Import Core.Core IEEE754.BinarySingleNaN.
From Verif Require Import Base Elem GeoModel MatModel MatSpec FloatInst GeoSpec ArithSpec OpsSpec FloatErrSpec UnitSpec.
From Verif Require Import FloatLerp FloatHalf.
Local Open Scope R_scope.

(** ** C138: lerp in f32 and f64 from the other end, and half-way *)
(** Going back by [1 - t] gives the same as going forth by [t], whatever the end points, exactly when [t] is a multiple of
    2^-24 (f32) or 2^-53 (f64). *)
Theorem C138_backwards : forall f (t : flt f), is_finite t = true -> 0 <= B2R t <= 1 ->
  ((forall a b : flt f, is_finite a = true -> is_finite b = true ->
    exists d d', lerp (f_float f) t a b = Done d /\ lerp (f_float f) (f_sub (f_of_int f 1) t) b a = Done d' /\ Beqb d d' = true) <->
   exists k : Z, B2R t = IZR k * half_ulp f).
Proof. exact lerp_backwards. Qed.
Print Assumptions C138_backwards.
Theorem C138_points : forall f (t : flt f) (p q : Point3 (flt f)), is_finite t = true -> 0 <= B2R t <= 1 ->
  (exists k : Z, B2R t = IZR k * half_ulp f) -> pfinite p -> pfinite q ->
  exists w w', p3_lerp (f_float f) t p q = Done w /\ p3_lerp (f_float f) (f_sub (f_of_int f 1) t) q p = Done w' /\
  forall i, Beqb (coord i w) (coord i w') = true.
Proof. exact points_backwards. Qed.
Print Assumptions C138_points.
(** All [t] from 1/2 on are such multiples. *)
Theorem C138_upper : forall f (t : flt f), is_finite t = true -> 1 / 2 <= B2R t -> exists k : Z, B2R t = IZR k * half_ulp f.
Proof. exact upper_grid. Qed.
Print Assumptions C138_upper.
(** Not all [t] are. *)
Theorem C138_backwards_refuted : forall f, exists t a b d d' : flt f, is_finite t = true /\ is_finite a = true /\ is_finite b = true /\
  0 < B2R t < 1 /\ lerp (f_float f) t a b = Done d /\ lerp (f_float f) (f_sub (f_of_int f 1) t) b a = Done d' /\ B2R d <> B2R d'.
Proof. exact backwards_refuted. Qed.
Print Assumptions C138_backwards_refuted.
(** Half-way is the mean, rounded once, and between the end points. *)
Theorem C138_half : forall f (t a b : flt f), is_finite t = true -> B2R t = 1 / 2 -> is_finite a = true -> is_finite b = true ->
  not_tiny f (B2R a / 2) -> not_tiny f (B2R b / 2) ->
  exists d, lerp (f_float f) t a b = Done d /\ is_finite d = true /\ B2R d = nearest f ((B2R a + B2R b) / 2).
Proof. exact lerp_half. Qed.
Print Assumptions C138_half.
Theorem C138_between : forall f (t a b d : flt f), is_finite t = true -> B2R t = 1 / 2 -> is_finite a = true -> is_finite b = true ->
  not_tiny f (B2R a / 2) -> not_tiny f (B2R b / 2) -> lerp (f_float f) t a b = Done d ->
  Rmin (B2R a) (B2R b) <= B2R d <= Rmax (B2R a) (B2R b).
Proof. exact half_between. Qed.
Print Assumptions C138_between.
Theorem C138_inside : forall f (b : Bounds3 (flt f)) (t : flt f) (p q : Point3 (flt f)), is_finite t = true -> B2R t = 1 / 2 ->
  pfinite p -> pfinite q -> (forall i, not_tiny f (B2R (coord i p) / 2)) -> (forall i, not_tiny f (B2R (coord i q) / 2)) ->
  b3_inside (f_elem f) b p = true -> b3_inside (f_elem f) b q = true ->
  exists w, p3_lerp (f_float f) t p q = Done w /\ b3_inside (f_elem f) b w = true.
Proof. exact half_inside. Qed.
Print Assumptions C138_inside.
Theorem C138_tiny_refuted : forall f, exists t a d : flt f, is_finite t = true /\ B2R t = 1 / 2 /\ is_finite a = true /\ 0 < B2R a /\
  lerp (f_float f) t a a = Done d /\ B2R d = 0.
Proof. exact tiny_refuted. Qed.
Print Assumptions C138_tiny_refuted.
(** The middle of a box by lerp is the centre of its bounding sphere, as long as the sums of the corners do not overflow. *)
Theorem C138_centre : forall f (b : Bounds3 (flt f)) (t : Point3 (flt f)), bfinite b -> pfinite t -> (forall i, B2R (coord i t) = 1 / 2) ->
  (forall i, not_tiny f (B2R (coord i (b_min b)) / 2)) -> (forall i, not_tiny f (B2R (coord i (b_max b)) / 2)) ->
  (forall i, is_finite (f_add (coord i (b_min b)) (coord i (b_max b))) = true) ->
  exists c r w, bounding_sphere (f_float f) b = Done (c, r) /\ b3_lerp (f_float f) b t = Done w /\
  forall i, Beqb (coord i c) (coord i w) = true.
Proof. exact centre_half. Qed.
Print Assumptions C138_centre.
Theorem C138_overflow_refuted : forall f, exists (b : Bounds3 (flt f)) t c r w, bfinite b /\ normalised (tle (TFloat f)) b /\ pfinite t /\
  (forall i, B2R (coord i t) = 1 / 2) /\ bounding_sphere (f_float f) b = Done (c, r) /\ b3_lerp (f_float f) b t = Done w /\
  forall i, is_finite (coord i c) = false /\ Beqb (coord i w) (coord i (b_min b)) = true.
Proof. exact overflow_refuted. Qed.
Print Assumptions C138_overflow_refuted.
Example C138_example_backwards : forall f, let t := f_div (f_of_int f 3) (f_of_int f 4) in
  is_finite t = true /\ (exists k : Z, B2R t = IZR k * half_ulp f) /\ 0 <= B2R t <= 1.
Proof. exact grid_quarter. Qed.
Example C138_example_half : forall f, let t := f_div (f_of_int f 1) (f_of_int f 2) in is_finite t = true /\ B2R t = 1 / 2.
Proof. exact half_val. Qed.
Example C138_example_ends : forall f k, (1 <= k <= 100)%Z -> not_tiny f (B2R (f_of_int f k) / 2).
Proof. exact not_tiny_int. Qed.
Example C138_example_box : forall f, let n := f_of_int f in let b := B3 (P3 (n 1%Z) (n 2%Z) (n 3%Z)) (P3 (n 2%Z) (n 8%Z) (n 30%Z)) in
  bfinite b /\ (forall i, is_finite (f_add (coord i (b_min b)) (coord i (b_max b))) = true).
Proof. exact box_meets. Qed.
