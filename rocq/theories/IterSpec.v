(** Vocabulary of the properties about iterating over a two-dimensional box. *)
From Coq Require Import ZArith.
From Verif Require Import Base Elem GeoModel.

(** Calling [next] until it returns None yields these points. *)
Inductive collects {T} (E : Elem T) : Bounds2Iter T -> list (Point2 T) -> Prop :=
| col_end it it' : b2_next E it = Done (None, it') -> collects E it []
| col_point it it' p l : b2_next E it = Done (Some p, it') -> collects E it' l -> collects E it (p :: l).

(** The integers from [a] to [b], both included. *)
Definition zrange (a b : Z) : list Z := map (fun i => (a + Z.of_nat i)%Z) (seq 0 (Z.to_nat (b - a + 1))).
(** The points of one row. *)
Definition row (a b y : Z) : list (Point2 Z) := map (fun x => P2 x y) (zrange a b).
(** What the iterator of a box yields: the rest of the first row, then rows that begin at 0. *)
Definition visited (b : Bounds2 Z) : list (Point2 Z) :=
  row (p2x (b2_min b) + 1) (p2x (b2_max b)) (p2y (b2_min b)) ++
  flat_map (row 0 (Z.max 0 (p2x (b2_max b)))) (zrange (p2y (b2_min b) + 1) (p2y (b2_max b))).

Definition pt2_range (p : Point2 Z) : Prop := in_range (p2x p) = true /\ in_range (p2y p) = true.
(** The integer point lies in the closed box. *)
Definition inb2 (b : Bounds2 Z) (p : Point2 Z) : Prop :=
  (p2x (b2_min b) <= p2x p <= p2x (b2_max b) /\ p2y (b2_min b) <= p2y p <= p2y (b2_max b))%Z.
