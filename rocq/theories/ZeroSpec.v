(** Specification for C127: two values that differ at most in the signs of zeros. *)
From Flocq Require Import IEEE754.BinarySingleNaN.
From Verif Require Import Base FloatInst GeoModel MatModel EqSpec.

(** Two floats stand for the same number, or both are NaN. *)
Definition upto {f} (x y : flt f) : Prop := value x = value y.
Definition a_zero {f} (x : flt f) : Prop := exists s, x = B754_zero s.
(** Two computations that end in the same way, with results related by [R]. *)
Definition both {A B} (R : A -> B -> Prop) (m : out A) (n : out B) : Prop :=
  match m, n with
  | Done a, Done b => R a b
  | Panic, Panic => True
  | OutOfFuel, OutOfFuel => True
  | _, _ => False
  end.
Section Types.
Context {f : fmt}.
Notation B := (flt f).
Definition up_p2 (a b : Point2 B) : Prop := upto (p2x a) (p2x b) /\ upto (p2y a) (p2y b).
Definition up_p3 (a b : Point3 B) : Prop := upto (px a) (px b) /\ upto (py a) (py b) /\ upto (pz a) (pz b).
Definition up_v2 (a b : Vector2 B) : Prop := upto (v2x a) (v2x b) /\ upto (v2y a) (v2y b).
Definition up_v3 (a b : Vector3 B) : Prop := upto (vx a) (vx b) /\ upto (vy a) (vy b) /\ upto (vz a) (vz b).
Definition up_n3 (a b : Normal3 B) : Prop := upto (nx a) (nx b) /\ upto (ny a) (ny b) /\ upto (nz a) (nz b).
Definition up_b3 (a b : Bounds3 B) : Prop := up_p3 (b_min a) (b_min b) /\ up_p3 (b_max a) (b_max b).
Definition up_it (a b : Bounds2Iter B) : Prop := up_p2 (it_max a) (it_max b) /\ upto (it_x a) (it_x b) /\ upto (it_y a) (it_y b).
Definition up_ray (a b : Ray B) : Prop := up_p3 (r_o a) (r_o b) /\ up_v3 (r_d a) (r_d b) /\ upto (r_t_max a) (r_t_max b) /\ upto (r_time a) (r_time b).
Definition up_rd (a b : RayDifferential B) : Prop :=
  up_ray (rd_ray a) (rd_ray b) /\ rd_has a = rd_has b /\ up_p3 (rx_origin a) (rx_origin b) /\ up_p3 (ry_origin a) (ry_origin b) /\
  up_v3 (rx_direction a) (rx_direction b) /\ up_v3 (ry_direction a) (ry_direction b).
Definition up_m4 (a b : Matrix4 B) : Prop := forall r c, upto (mget a r c) (mget b r c).
Definition up_t (a b : Transform B) : Prop := up_m4 (t_m a) (t_m b) /\ up_m4 (t_inv a) (t_inv b).
Definition up_pair {A A'} (R : A -> A -> Prop) (S : A' -> A' -> Prop) (a b : A * A') : Prop := R (fst a) (fst b) /\ S (snd a) (snd b).
Definition up_opt {A} (R : A -> A -> Prop) (a b : option A) : Prop := match a, b with Some x, Some y => R x y | None, None => True | _, _ => False end.
End Types.
