(** Property theorems about the algebra of boxes. Nothing but statements, examples and [Print Assumptions]. *)
From Coq Require Import ZArith List.
From Flocq Require Import Core.Core IEEE754.BinarySingleNaN.
From Verif Require Import Base Elem GeoModel FloatInst GeoSpec MeetSpec BoxMeet.
Import ListNotations.

(** ** C139: union and intersect as an algebra, and boxes that meet pairwise *)
(** What intersect returns, whether the boxes meet or not. *)
Theorem C139_intersect : forall ty (a b : Bounds3 (car ty)), good_box ty a -> good_box ty b ->
  exists u, b3_intersect (elem ty) a b = Done u /\ good_box ty u /\ forall i p, let le := tle ty in
    (le (coord i (b_min u)) p <->
      (le (coord i (b_min a)) p /\ le (coord i (b_min b)) p) \/ le (coord i (b_max a)) p \/ le (coord i (b_max b)) p) /\
    (le p (coord i (b_max u)) <->
      (le p (coord i (b_max a)) /\ le p (coord i (b_max b))) \/ le p (coord i (b_min a)) \/ le p (coord i (b_min b))).
Proof. exact intersect_any. Qed.
Print Assumptions C139_intersect.
Theorem C139_commutative : forall ty (a b : Bounds3 (car ty)), good_box ty a -> good_box ty b ->
  exists u v, b3_intersect (elem ty) a b = Done u /\ b3_intersect (elem ty) b a = Done v /\ eqbox (tle ty) u v.
Proof. exact meet_comm. Qed.
Print Assumptions C139_commutative.
Theorem C139_idempotent : forall ty (a : Bounds3 (car ty)), good_box ty a ->
  exists u, b3_intersect (elem ty) a a = Done u /\ eqbox (tle ty) u a.
Proof. exact meet_idem. Qed.
Print Assumptions C139_idempotent.
Theorem C139_associative : forall ty (a b c : Bounds3 (car ty)), good_box ty a -> good_box ty b -> good_box ty c ->
  b3_overlaps (elem ty) a b = true -> b3_overlaps (elem ty) b c = true -> b3_overlaps (elem ty) a c = true ->
  exists ab bc l r, b3_intersect (elem ty) a b = Done ab /\ b3_intersect (elem ty) b c = Done bc /\
    b3_intersect (elem ty) ab c = Done l /\ b3_intersect (elem ty) a bc = Done r /\ eqbox (tle ty) l r.
Proof. exact meet_assoc. Qed.
Print Assumptions C139_associative.
Theorem C139_associative_refuted : exists a b c ab bc l r, good_box (TInt true) a /\ good_box (TInt true) b /\ good_box (TInt true) c /\
  b3_intersect (i64 true) a b = Done ab /\ b3_intersect (i64 true) b c = Done bc /\
  b3_intersect (i64 true) ab c = Done l /\ b3_intersect (i64 true) a bc = Done r /\ ~ eqbox (tle (TInt true)) l r.
Proof. exact assoc_refuted. Qed.
Print Assumptions C139_associative_refuted.
Theorem C139_absorb_union : forall ty (a b : Bounds3 (car ty)), good_box ty a -> good_box ty b ->
  exists u m, b3_union (elem ty) a b = Done u /\ b3_intersect (elem ty) a u = Done m /\ eqbox (tle ty) m a.
Proof. exact absorb_join. Qed.
Print Assumptions C139_absorb_union.
Theorem C139_absorb_intersect : forall ty (a b : Bounds3 (car ty)), good_box ty a -> good_box ty b -> b3_overlaps (elem ty) a b = true ->
  exists m u, b3_intersect (elem ty) a b = Done m /\ b3_union (elem ty) a m = Done u /\ eqbox (tle ty) u a.
Proof. exact absorb_meet. Qed.
Print Assumptions C139_absorb_intersect.
Theorem C139_absorb_intersect_refuted : exists a b m u, good_box (TInt true) a /\ good_box (TInt true) b /\
  b3_intersect (i64 true) a b = Done m /\ b3_union (i64 true) a m = Done u /\ ~ eqbox (tle (TInt true)) u a.
Proof. exact absorb_refuted. Qed.
Print Assumptions C139_absorb_intersect_refuted.
(** Each distributes over the other. *)
Theorem C139_distributes : forall ty (a b c : Bounds3 (car ty)), good_box ty a -> good_box ty b -> good_box ty c ->
  b3_overlaps (elem ty) a b = true -> b3_overlaps (elem ty) a c = true ->
  exists bc l ab ac r, b3_union (elem ty) b c = Done bc /\ b3_intersect (elem ty) a bc = Done l /\
    b3_intersect (elem ty) a b = Done ab /\ b3_intersect (elem ty) a c = Done ac /\ b3_union (elem ty) ab ac = Done r /\
    eqbox (tle ty) l r.
Proof. exact meet_join. Qed.
Print Assumptions C139_distributes.
Theorem C139_distributes_union : forall ty (a b c : Bounds3 (car ty)), good_box ty a -> good_box ty b -> good_box ty c ->
  b3_overlaps (elem ty) b c = true ->
  exists bc l ab ac r, b3_intersect (elem ty) b c = Done bc /\ b3_union (elem ty) a bc = Done l /\
    b3_union (elem ty) a b = Done ab /\ b3_union (elem ty) a c = Done ac /\ b3_intersect (elem ty) ab ac = Done r /\
    eqbox (tle ty) l r.
Proof. exact join_meet. Qed.
Print Assumptions C139_distributes_union.
(** Boxes each two of which overlap have a common point, all of them; intersected one after the other they give the set of
    the common points. *)
Theorem C139_common_point : forall ty (l : list (Bounds3 (car ty))), l <> [] -> Forall (good_box ty) l ->
  (forall a b, In a l -> In b l -> b3_overlaps (elem ty) a b = true) -> exists p, pt_valid ty p /\ Forall (fun b => inb (tle ty) b p) l.
Proof. exact helly. Qed.
Print Assumptions C139_common_point.
Theorem C139_one_by_one : forall ty (a : Bounds3 (car ty)) l, good_box ty a -> Forall (good_box ty) l ->
  (forall x y, In x (a :: l) -> In y (a :: l) -> b3_overlaps (elem ty) x y = true) ->
  exists u, meet_all (elem ty) a l = Done u /\ good_box ty u /\
  forall p, inb (tle ty) u p <-> inb (tle ty) a p /\ Forall (fun b => inb (tle ty) b p) l.
Proof. exact meet_all_thm. Qed.
Print Assumptions C139_one_by_one.
Example C139_example : let a := (bx 0 0 0 4 4 4)%Z in let b := (bx 2 (-1) 1 6 3 9)%Z in let c := (bx 3 2 (-5) 9 9 2)%Z in
  Forall (good_box (TInt true)) [a; b; c] /\ (forall x y, In x [a; b; c] -> In y [a; b; c] -> b3_overlaps (i64 true) x y = true) /\
  meet_all (i64 true) a [b; c] = Done (bx 3 2 1 4 3 2)%Z.
Proof. exact meet_example. Qed.
