(** Specification for C139: a list of boxes intersected one after the other. *)
From Coq Require Import List.
From Verif Require Import Base Elem GeoModel.
Local Open Scope mon_scope.

Definition meet_all {T} (E : Elem T) (a : Bounds3 T) (l : list (Bounds3 T)) : out (Bounds3 T) :=
  fold_left (fun acc b => u <~ acc ;; b3_intersect E u b) l (Done a).
