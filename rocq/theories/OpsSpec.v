(** Vocabulary of the properties about operators: componentwise results, lengths, linear maps. *)
From Coq Require Import ZArith Reals.
From Flocq Require Import Core.Core IEEE754.BinarySingleNaN.
From Verif Require Import Base Elem GeoModel MatModel MatSpec FloatInst GeoSpec ArithSpec.

(** [o] is the componentwise result of [op]: a value whose components are those of [op], or a panic because one of the
    components panics. *)
Definition comp3 {T B} (get : axis -> B -> T) (op : axis -> out T) (o : out B) : Prop :=
  match o with Done w => forall i, op i = Done (get i w) | Panic => exists i, op i = Panic | OutOfFuel => False end.

(** Rounding to nearest, ties to even, in the format of the floats. *)
Definition nearest f (x : R) : R := round radix2 (SpecFloat.fexp (fprec f) (femax f)) ZnearestE x.
(** [z] is the exact value [x] rounded to nearest; past the largest float it is the infinity of that sign. *)
Definition rounds_to f (x : R) (z : flt f) : Prop :=
  let r := nearest f x in let m := bpow radix2 (femax f) in
  (Rabs r < m /\ is_finite z = true /\ B2R z = r)%R \/ (m <= r /\ z = B754_infinity false)%R \/ (r <= - m /\ z = B754_infinity true)%R.

(** Lengths and linear maps over the reals. *)
Definition dotR (u v : Vector3 R) : R := (vx u * vx v + vy u * vy v + vz u * vz v)%R.
Definition normR (v : Vector3 R) : R := sqrt (dotR v v).
(** The upper 3x3 block times a vector. *)
Definition block_times (m : Matrix4 R) (v : Vector3 R) (r : ix) : R :=
  (mget m r I0 * vx v + mget m r I1 * vy v + mget m r I2 * vz v)%R.
Definition axis_ix (i : axis) : ix := match i with AX => I0 | AY => I1 | AZ => I2 end.
(** Last row 0 0 0 1. *)
Definition affine (m : Matrix4 R) : Prop := forall c, mget m I3 c = mget identR I3 c.
(** Determinant of three vectors: positive for a right-handed system. *)
Definition triple (a b c : Vector3 R) : R :=
  (vx a * (vy b * vz c - vz b * vy c) - vy a * (vx b * vz c - vz b * vx c) + vz a * (vx b * vy c - vy b * vx c))%R.
Definition detZ := det_of Z.add Z.mul Z.sub.
Definition IZRm (m : Matrix4 Z) : Matrix4 R := mkm (fun r c => IZR (mget m r c)).
