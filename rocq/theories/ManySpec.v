(** What C107 and C108 speak about: the smaller and the larger of two numbers of which one may be NaN, and boxes around many
    points. *)
From Coq Require Import ZArith Bool.
From Flocq Require Import IEEE754.BinarySingleNaN.
From Verif Require Import Base Elem GeoModel FloatInst GeoSpec.

(** The first of the two if one is NaN. *)
Definition low f (a b m : flt f) : Prop := if is_nan a || is_nan b then m = a else smaller (TFloat f) m a b.
Definition high f (a b m : flt f) : Prop := if is_nan a || is_nan b then m = a else larger (TFloat f) m a b.

(** The box grown from the first point by adding the others one after the other. *)
Definition box_of_points {T} (E : Elem T) (p : Point3 T) (ps : list (Point3 T)) : out (Bounds3 T) :=
  fold_left (fun acc q => match acc with Done b => b3_union_pt E b q | e => e end) ps (b3_new_pt E p).
Definition box_of_boxes {T} (E : Elem T) (a : Bounds3 T) (bs : list (Bounds3 T)) : out (Bounds3 T) :=
  fold_left (fun acc b => match acc with Done u => b3_union E u b | e => e end) bs (Done a).

(** [m] is the least, the greatest number of the list. *)
Definition least f (l : list (flt f)) (m : flt f) : Prop :=
  In m l /\ is_nan m = false /\ forall x, In x l -> is_nan x = false -> Bleb m x = true.
Definition greatest f (l : list (flt f)) (m : flt f) : Prop :=
  In m l /\ is_nan m = false /\ forall x, In x l -> is_nan x = false -> Bleb x m = true.
