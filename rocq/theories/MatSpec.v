(** Vocabulary of the matrix properties: matrices as functions of two indices, products as sums. *)
From Coq Require Import ZArith Reals QArith Qcanon.
From Verif Require Import Base Elem GeoModel MatModel.

(** A matrix from its entries. *)
Definition mk4 {A} (f : ix -> A) : vec4 A := W4 (f I0) (f I1) (f I2) (f I3).
Definition mkm {A} (f : ix -> ix -> A) : Matrix4 A := mk4 (fun r => mk4 (f r)).

(** The mathematical product, sum and identity over given operations. *)
Section Ops.
  Context {A : Type} (zero one : A) (add mul : A -> A -> A).
  Definition sum4 (f : ix -> A) : A := add (add (add (f I0) (f I1)) (f I2)) (f I3).
  Definition prod_of (a b : Matrix4 A) : Matrix4 A := mkm (fun r c => sum4 (fun i => mul (mget a r i) (mget b i c))).
  Definition sum_of (a b : Matrix4 A) : Matrix4 A := mkm (fun r c => add (mget a r c) (mget b r c)).
  Definition ident_of : Matrix4 A := mkm (fun r c => if ix_eqb r c then one else zero).
  (** A vector times a matrix. *)
  Definition apply_of (a : Matrix4 A) (x : ix -> A) (r : ix) : A := sum4 (fun c => mul (mget a r c) (x c)).
End Ops.

(** The determinant, expanded along the first row. *)
Section Det.
  Context {A : Type} (add mul sub : A -> A -> A).
  Notation "x + y" := (add x y). Notation "x * y" := (mul x y). Notation "x - y" := (sub x y).
  Definition minor (m : Matrix4 A) (r1 r2 r3 c1 c2 c3 : ix) : A :=
    mget m r1 c1 * (mget m r2 c2 * mget m r3 c3 - mget m r2 c3 * mget m r3 c2) -
    mget m r1 c2 * (mget m r2 c1 * mget m r3 c3 - mget m r2 c3 * mget m r3 c1) +
    mget m r1 c3 * (mget m r2 c1 * mget m r3 c2 - mget m r2 c2 * mget m r3 c1).
  Definition det_of (m : Matrix4 A) : A :=
    mget m I0 I0 * minor m I1 I2 I3 I1 I2 I3 - mget m I0 I1 * minor m I1 I2 I3 I0 I2 I3 +
    mget m I0 I2 * minor m I1 I2 I3 I0 I1 I3 - mget m I0 I3 * minor m I1 I2 I3 I0 I1 I2.
End Det.

(** Over the reals, the rationals and the integers. *)
Definition prodR := prod_of Rplus Rmult.
Definition sumR := sum_of Rplus.
Definition identR : Matrix4 R := ident_of 0%R 1%R.
Definition detR := det_of Rplus Rmult Rminus.
Definition prodQ := prod_of Qcplus Qcmult.
Definition sumQ := sum_of Qcplus.
Definition identQ : Matrix4 Qc := ident_of (Q2Qc 0%Q) (Q2Qc 1%Q).
Definition detQ := det_of Qcplus Qcmult Qcminus.
Definition prodZ := prod_of Z.add Z.mul.
Definition sumZ := sum_of Z.add.
Definition identZ : Matrix4 Z := ident_of 0%Z 1%Z.
(** Integers modulo 2^64, entry by entry. *)
Definition wrapm (m : Matrix4 Z) : Matrix4 Z := mkm (fun r c => wrap (mget m r c)).
Definition mat_range (m : Matrix4 Z) : Prop := forall r c, in_range (mget m r c) = true.
