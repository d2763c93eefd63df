(** Specification for C120: the axes under other names. *)
From Coq Require Import ZArith Bool.
From Verif Require Import Base Elem GeoModel MatModel FloatInst GeoSpec.

(** A renaming of the axes: what is called [i] afterwards was called [s i] before. *)
Definition renaming (s : axis -> axis) : Prop := forall i j, s i = s j -> i = j.
(** The two renamings all others consist of. *)
Definition swap_xy (i : axis) : axis := match i with AX => AY | AY => AX | AZ => AZ end.
Definition cycle (i : axis) : axis := match i with AX => AY | AY => AZ | AZ => AX end.

Section Renamed.
  Context {T : Type} (s : axis -> axis).
  Definition ren_pt (p q : Point3 T) : Prop := forall i, coord i q = coord (s i) p.
  Definition ren_vec (u v : Vector3 T) : Prop := forall i, vcoord i v = vcoord (s i) u.
  Definition ren_nrm (u v : Normal3 T) : Prop := forall i, ncoord i v = ncoord (s i) u.
  Definition ren_box (a b : Bounds3 T) : Prop := ren_pt (b_min a) (b_min b) /\ ren_pt (b_max a) (b_max b).
  Definition ren_ray (r r' : Ray T) : Prop := ren_pt (r_o r) (r_o r') /\ ren_vec (r_d r) (r_d r') /\
    r_t_max r' = r_t_max r /\ r_time r' = r_time r.
  Definition ren_rd (r r' : RayDifferential T) : Prop := ren_ray (rd_ray r) (rd_ray r') /\ rd_has r' = rd_has r /\
    ren_pt (rx_origin r) (rx_origin r') /\ ren_pt (ry_origin r) (ry_origin r') /\
    ren_vec (rx_direction r) (rx_direction r') /\ ren_vec (ry_direction r) (ry_direction r').
  (** The fourth coordinate keeps its name. *)
  Definition on_ix (i : ix) : ix :=
    let f a := match s a with AX => I0 | AY => I1 | AZ => I2 end in
    match i with I0 => f AX | I1 => f AY | I2 => f AZ | I3 => I3 end.
End Renamed.
(** Rows under new names by [s], columns by [t]. *)
Definition ren_mat {T} (s t : axis -> axis) (m m' : Matrix4 T) : Prop := forall r c, mget m' r c = mget m (on_ix s r) (on_ix t c).
Definition ren_trans {T} (s t : axis -> axis) (x x' : Transform T) : Prop := ren_mat s t (t_m x) (t_m x') /\ ren_mat t s (t_inv x) (t_inv x').

(** Both computations end with results that are related, or both panic. *)
Definition alike {A} (R : A -> A -> Prop) (x y : out A) : Prop :=
  (exists a b, x = Done a /\ y = Done b /\ R a b) \/ (x = Panic /\ y = Panic).

(** Axis [i] is longer than the others. *)
Definition longest ty (v : Vector3 (car ty)) (i : axis) : Prop := forall j, j <> i -> e_lt (elem ty) (vcoord j v) (vcoord i v) = true.
(** With overflow checks both may panic; if neither does, the results are equal. *)
Definition agree {A} (chk : bool) (x y : out A) : Prop :=
  if chk then forall a b, x = Done a -> y = Done b -> a = b else x = y /\ x <> Panic.
