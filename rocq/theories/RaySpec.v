(** Vocabulary for ray differentials: the twelve coordinates that scale_differentials changes, and their counterparts in the main ray. *)
From Verif Require Import Base Elem GeoModel GeoSpec.

Inductive part := XOrigin | YOrigin | XDirection | YDirection.
Definition part_of {F} (k : part) (i : axis) (rd : RayDifferential F) : F :=
  match k with
  | XOrigin => coord i (rx_origin rd) | YOrigin => coord i (ry_origin rd)
  | XDirection => vcoord i (rx_direction rd) | YDirection => vcoord i (ry_direction rd)
  end.
Definition main_of {F} (k : part) (i : axis) (rd : RayDifferential F) : F :=
  match k with
  | XOrigin | YOrigin => coord i (r_o (rd_ray rd))
  | XDirection | YDirection => vcoord i (r_d (rd_ray rd))
  end.
