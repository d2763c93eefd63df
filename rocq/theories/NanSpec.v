(** Specification for C118: where NaN comes from. *)
From Coq Require Import Bool.
From Flocq Require Import IEEE754.BinarySingleNaN.
From Verif Require Import Base FloatInst GeoModel GeoSpec.

Section Spec.
Context {f : fmt}.
Implicit Types x y : flt f.
Definition nan x : Prop := is_nan x = true.
(** Infinite: neither finite nor NaN. *)
Definition infinite x : Prop := is_nan x = false /\ is_finite x = false.
(** A zero of either sign. *)
Definition null x : Prop := match x with B754_zero _ => True | _ => False end.
(** The four operations, as IEEE 754 has it: a NaN operand; infinity minus infinity; zero times infinity; 0/0 and infinity/infinity. *)
Definition nan_sum x y : Prop := nan x \/ nan y \/ (infinite x /\ infinite y /\ Bsign x <> Bsign y).
Definition nan_diff x y : Prop := nan x \/ nan y \/ (infinite x /\ infinite y /\ Bsign x = Bsign y).
Definition nan_prod x y : Prop := nan x \/ nan y \/ (null x /\ infinite y) \/ (infinite x /\ null y).
Definition nan_quot x y : Prop := nan x \/ nan y \/ (null x /\ null y) \/ (infinite x /\ infinite y).
End Spec.
(** The computation ends; coordinate [i] of the result is NaN exactly if [P i]. *)
Definition nan_where {A I f} (get : I -> A -> flt f) (P : I -> Prop) (o : out A) : Prop := exists a, o = Done a /\ forall i, nan (get i a) <-> P i.
