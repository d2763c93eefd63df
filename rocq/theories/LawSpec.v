(** Spec for C124: the laws of matrices in floats. Sizes of sums of products, with absolute values of the terms. *)
From Coq Require Import ZArith Reals.
From Verif Require Import Base GeoModel MatModel MatSpec OpsSpec.
Local Open Scope R_scope.

Definition sumR4 (g : ix -> R) : R := g I0 + g I1 + g I2 + g I3.
Definition sumR3 (g : ix -> R) : R := g I0 + g I1 + g I2.
(** Absolute values of a row and of a column. *)
Definition row_size (a : Matrix4 R) (r : ix) : R := sumR4 (fun i => Rabs (mget a r i)).
Definition col_size (a : Matrix4 R) (c : ix) : R := sumR4 (fun i => Rabs (mget a i c)).
(** An entry of a product of three matrices, of a product with a sum, of a sum with a product. *)
Definition three_abs (a b c : Matrix4 R) (r s : ix) : R :=
  sumR4 (fun i => sumR4 (fun j => Rabs (mget a r i) * Rabs (mget b i j) * Rabs (mget c j s))).
Definition left_abs (a b c : Matrix4 R) (r s : ix) : R := sumR4 (fun i => Rabs (mget a r i) * (Rabs (mget b i s) + Rabs (mget c i s))).
Definition right_abs (a b c : Matrix4 R) (r s : ix) : R := sumR4 (fun i => (Rabs (mget a r i) + Rabs (mget b r i)) * Rabs (mget c i s)).
(** Two linear parts applied to a vector; a row of a linear part; a vector. *)
Definition vx_ix (v : Vector3 R) (i : ix) : R := match i with I0 => vx v | I1 => vy v | _ => vz v end.
Definition twice_abs (a b : Matrix4 R) (v : Vector3 R) (r : ix) : R :=
  sumR3 (fun i => sumR3 (fun j => Rabs (mget a r i) * Rabs (mget b i j) * Rabs (vx_ix v j))).
Definition linear_size (a : Matrix4 R) (r : ix) : R := sumR3 (fun i => Rabs (mget a r i)).
Definition vec_size (v : Vector3 R) : R := Rabs (vx v) + Rabs (vy v) + Rabs (vz v).
