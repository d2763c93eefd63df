(** Property theorems about lengths in floats: C130. Nothing but statements, examples and [Print Assumptions]. *)
From Coq Require Import ZArith Reals.
From Flocq Require Import Core.Core IEEE754.BinarySingleNaN.
From Verif Require Import GeoSpec Base Elem FloatInst GeoModel LenSpec FloatLen.
Local Open Scope R_scope.

(** ** C130: a length in floats is never less than a coordinate *)
Theorem C130_coordinates : forall f (v : Vector3 (flt f)) j, (forall i, is_nan (vcoord i v) = false) -> sizeable (vcoord j v) ->
  exists l, v3_len (f_float f) (f_elem f) (fun x => x) v = Done l /\ forall i, Bleb (Babs (vcoord i v)) l = true.
Proof. exact len_coordinates. Qed.
Print Assumptions C130_coordinates.
Theorem C130_normals : forall f (n : Normal3 (flt f)) j, (forall i, is_nan (ncoord i n) = false) -> sizeable (ncoord j n) ->
  exists l, n3_len (f_float f) (f_elem f) (fun x => x) n = Done l /\ forall i, Bleb (Babs (ncoord i n)) l = true.
Proof. exact n_coordinates. Qed.
Print Assumptions C130_normals.
(** The length of a vector along an axis is exact. *)
Theorem C130_axis : forall f (v : Vector3 (flt f)) i, along i v -> sizeable (vcoord i v) -> modest (vcoord i v) ->
  exists l, v3_len (f_float f) (f_elem f) (fun x => x) v = Done l /\ is_finite l = true /\ B2R l = Rabs (B2R (vcoord i v)).
Proof. exact len_axis. Qed.
Print Assumptions C130_axis.
(** The first vector of a frame has no coordinate beyond 1, even if squares overflow. *)
Theorem C130_frame : forall f (v : Vector3 (flt f)) j, (forall i, is_finite (vcoord i v) = true) -> sizeable (vcoord j v) ->
  exists a b, coordinate_system (f_float f) v = Done (a, b) /\ forall i, Bleb (Babs (vcoord i a)) (f_of_int f 1) = true.
Proof. exact frame_within. Qed.
Print Assumptions C130_frame.
(** Without the conditions this is false: the length of a tiny vector may be zero, that of a large one infinite. *)
Theorem C130_tiny_refuted : exists v : Vector3 (flt F32), (forall i, is_finite (vcoord i v) = true) /\ 0 < B2R (vx v) /\
  v3_len (f_float F32) (f_elem F32) (fun x => x) v = Done (f32 0).
Proof. exact tiny_case. Qed.
Print Assumptions C130_tiny_refuted.
Theorem C130_large_refuted : exists v : Vector3 (flt F32), (forall i, is_finite (vcoord i v) = true) /\ along AX v /\
  v3_len (f_float F32) (f_elem F32) (fun x => x) v = Done (B754_infinity false).
Proof. exact large_case. Qed.
Print Assumptions C130_large_refuted.
Example C130_example : forall z, (Z.abs z <= 2 ^ fprec F32)%Z -> z <> 0%Z -> sizeable (f32 z) /\ modest (f32 z).
Proof. exact ints_sizeable. Qed.
Example C130_example_value : match v3_len (f_float F32) (f_elem F32) (fun x => x) (V3 (f32 9876543) (f32 1) (f32 (-3))) with
  Done l => B2SF l = B2SF (f32 9876543) | _ => False end.
Proof. vm_compute. reflexivity. Qed.
