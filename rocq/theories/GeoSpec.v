(** Vocabulary of the geometry properties: element types, their order, boxes as sets of points. *)
From Coq Require Import ZArith Reals.
From Flocq Require Import IEEE754.BinarySingleNaN.
From Verif Require Import Base Elem GeoModel FloatInst.

(** The element types of the code: Float (f32 or f64) and i64 (with or without overflow checks). *)
Inductive ety := TFloat (f : fmt) | TInt (chk : bool).
Definition car (ty : ety) : Type := match ty with TFloat f => flt f | TInt _ => Z end.
Definition elem (ty : ety) : Elem (car ty) := match ty with TFloat f => f_elem f | TInt chk => i64 chk end.

(** The values meant by "NaN-free": floats that are not NaN, integers of 64 bits. *)
Definition valid (ty : ety) : car ty -> Prop :=
  match ty with TFloat f => fun x => is_nan x = false | TInt _ => fun x => in_range x = true end.
(** The order: Flocq's comparison, the order of the integers. *)
Definition tle (ty : ety) : car ty -> car ty -> Prop :=
  match ty with TFloat f => fun a b => Bleb a b = true | TInt _ => fun a b => (a <= b)%Z end.
(** Equal in value; for floats this identifies the two zeros. *)
Definition same ty (a b : car ty) : Prop := tle ty a b /\ tle ty b a.

(** [m] is the smaller (larger) of [a] and [b]. *)
Definition smaller ty (m a b : car ty) : Prop := (m = a \/ m = b) /\ tle ty m a /\ tle ty m b.
Definition larger ty (m a b : car ty) : Prop := (m = a \/ m = b) /\ tle ty a m /\ tle ty b m.

(** ** Coordinates *)
Inductive axis := AX | AY | AZ.
Definition coord {T} (i : axis) (p : Point3 T) : T := match i with AX => px p | AY => py p | AZ => pz p end.
Definition vcoord {T} (i : axis) (v : Vector3 T) : T := match i with AX => vx v | AY => vy v | AZ => vz v end.
Definition ncoord {T} (i : axis) (v : Normal3 T) : T := match i with AX => nx v | AY => ny v | AZ => nz v end.
Definition axis_nat (i : axis) : nat := match i with AX => 0 | AY => 1 | AZ => 2 end.

(** ** Boxes *)
Section Boxes.
  Context {T : Type} (le : T -> T -> Prop).
  (** The point lies in the box. *)
  Definition inb (b : Bounds3 T) (p : Point3 T) : Prop :=
    forall i, le (coord i (b_min b)) (coord i p) /\ le (coord i p) (coord i (b_max b)).
  Definition normalised (b : Bounds3 T) : Prop := forall i, le (coord i (b_min b)) (coord i (b_max b)).
  Definition subbox (a b : Bounds3 T) : Prop := forall p, inb a p -> inb b p.
  Definition eqbox (a b : Bounds3 T) : Prop := forall p, inb a p <-> inb b p.
End Boxes.
Definition pt_valid ty (p : Point3 (car ty)) : Prop := forall i, valid ty (coord i p).
Definition box_valid ty (b : Bounds3 (car ty)) : Prop := pt_valid ty (b_min b) /\ pt_valid ty (b_max b).
(** A box as the properties assume it: no NaN, lower bounds below upper bounds. *)
Definition good_box ty (b : Bounds3 (car ty)) : Prop := box_valid ty b /\ normalised (tle ty) b.

(** ** Values used by examples *)
Definition f32 (z : Z) : flt F32 := f_of_int F32 z.
Definition f_nan : flt F32 := B754_nan.
Definition bx {T} (a b c d e f : T) : Bounds3 T := B3 (P3 a b c) (P3 d e f).
