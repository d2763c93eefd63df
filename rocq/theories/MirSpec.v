(** Specification for C114: a scene seen in mirrors. *)
From Coq Require Import Bool.
From Flocq Require Import IEEE754.BinarySingleNaN.
From Verif Require Import Base FloatInst GeoModel MatModel GeoSpec ArithSpec OpsSpec SignSpec.

(** [x] and [y] are equal up to the sign [s] (zeros of both signs are equal, NaN equals NaN). *)
Definition mir f (s : bool) (x y : flt f) : Prop := veq f (flip f s x) y.
(** A mirror image: [S] says which axes are turned round. *)
Definition mir_pt f (S : axis -> bool) (p q : Point3 (flt f)) : Prop := forall i, mir f (S i) (coord i p) (coord i q).
Definition mir_vec f (S : axis -> bool) (u v : Vector3 (flt f)) : Prop := forall i, mir f (S i) (vcoord i u) (vcoord i v).
(** On an axis that is turned round the lower bound is the image of the upper bound. *)
Definition mir_box f (S : axis -> bool) (a b : Bounds3 (flt f)) : Prop := forall i,
  mir f (S i) (coord i (b_min a)) (coord i (if S i then b_max b else b_min b)) /\
  mir f (S i) (coord i (b_max a)) (coord i (if S i then b_min b else b_max b)).
Definition mir_ray f (S : axis -> bool) (r r' : Ray (flt f)) : Prop := mir_pt f S (r_o r) (r_o r') /\ mir_vec f S (r_d r) (r_d r').
(** The fourth coordinate has no mirror. *)
Definition on4 (S : axis -> bool) (r : ix) : bool := match r with I0 => S AX | I1 => S AY | I2 => S AZ | I3 => false end.
Definition mir_mat f (S T : axis -> bool) (m m' : Matrix4 (flt f)) : Prop :=
  forall r c, mir f (xorb (on4 S r) (on4 T c)) (mget m r c) (mget m' r c).
(** An odd number of mirrors exchanges left and right. *)
Definition odd (S : axis -> bool) : bool := xorb (S AX) (xorb (S AY) (S AZ)).
(** Both computations end with results that are related. *)
Definition both {A} (R : A -> A -> Prop) (x y : out A) : Prop := exists a b, x = Done a /\ y = Done b /\ R a b.
