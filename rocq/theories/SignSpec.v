(** Specification for C112: floats with a sign changed. *)
From Flocq Require Import IEEE754.BinarySingleNaN.
From Verif Require Import FloatInst.

(** [x], or [- x] *)
Definition flip f (s : bool) (x : flt f) : flt f := if s then Bopp x else x.
