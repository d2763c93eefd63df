(** What it means for a law to hold of i64 in both build modes (C141). *)
From Coq Require Import ZArith.
From Verif Require Import Base GeoModel GeoSpec.

(** Without overflow checks both sides return, and return the same; with checks either side may panic, and where
    neither does the results are the same. *)
Definition law {A} (l r : bool -> out A) : Prop :=
  (exists x, l false = Done x /\ r false = Done x) /\ (forall x y, l true = Done x -> r true = Done y -> x = y).
Definition pt_range (p : Point3 Z) : Prop := forall i, in_range (coord i p) = true.
