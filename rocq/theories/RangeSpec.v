(** Specification for C117: numbers bounded by a multiple of a power of two. *)
From Coq Require Import ZArith Reals.
From Flocq Require Import Core.Core IEEE754.BinarySingleNaN.
From Verif Require Import Base FloatInst GeoModel MatModel GeoSpec.
Local Open Scope R_scope.

(** A finite number of magnitude at most [c * 2^k]. *)
Definition atmost f (c k : Z) (x : flt f) : Prop := is_finite x = true /\ Rabs (B2R x) <= IZR c * bpow radix2 k.
Definition atmost_pt f c k (p : Point3 (flt f)) : Prop := forall i, atmost f c k (coord i p).
Definition atmost_vec f c k (v : Vector3 (flt f)) : Prop := forall i, atmost f c k (vcoord i v).
Definition atmost_box f c k (b : Bounds3 (flt f)) : Prop := atmost_pt f c k (b_min b) /\ atmost_pt f c k (b_max b).
Definition atmost_mat f c k (m : Matrix4 (flt f)) : Prop := forall r s, atmost f c k (mget m r s).
(** The computation ends with a result that satisfies [P]. *)
Definition gives {A} (P : A -> Prop) (x : out A) : Prop := exists a, x = Done a /\ P a.
