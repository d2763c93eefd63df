(** Refutations and small lemmas used in PropsBox.v. *)
From Coq Require Import ZArith Reals Lia.
From Flocq Require Import IEEE754.BinarySingleNaN.
From Verif Require Import Base Elem GeoModel FloatInst GeoSpec OrderProofs BoxThms.

Lemma box_examples : good_box (TInt true) (bx 0 0 0 1 2 3)%Z /\
  good_box (TFloat F32) (bx (f32 0) (f32 0) (f32 0) (f32 1) (f_inf F32) (f32 3)) /\
  b3_union (i64 true) (bx 0 0 0 1 2 3)%Z (bx 5 (-4) 1 6 9 2)%Z = Done (bx 0 (-4) 0 6 9 3)%Z.
Proof.
  split; [|split].
  - split; [split; intros []; reflexivity | intros []; cbn; lia].
  - split; [split; intros []; reflexivity | intros []; reflexivity].
  - reflexivity.
Qed.
Lemma intersect_refuted : exists (a b : Bounds3 Z) u p, good_box (TInt true) a /\ good_box (TInt true) b /\
  b3_intersect (elem (TInt true)) a b = Done u /\ inb (tle (TInt true)) u p /\
  ~ inb (tle (TInt true)) a p /\ ~ inb (tle (TInt true)) b p.
Proof.
  exists (bx 0 0 0 1 1 1)%Z, (bx 3 0 0 4 1 1)%Z, (bx 1 0 0 3 1 1)%Z, (P3 2 0 0)%Z.
  split; [split; [split; intros []; reflexivity | intros []; cbn; lia]|].
  split; [split; [split; intros []; reflexivity | intros []; cbn; lia]|].
  split; [reflexivity|]. split; [intros []; split; cbn; lia|].
  split; intros H; specialize (H AX); cbn in H; lia.
Qed.
Lemma overlaps_symmetric ty a b : b3_overlaps (elem ty) a b = b3_overlaps (elem ty) b a.
Proof. apply overlaps_sym. Qed.
Lemma inside_nan_false f b p i : is_nan (coord i p) = true ->
  b3_inside (f_elem f) b p = false /\ b3_inside_exclusive (f_elem f) b p = false.
Proof.
  intros H. assert (b3_inside (f_elem f) b p = false) as K.
  { apply Bool.not_true_is_false. intros Q. apply (inside_nan (f_elem f) (f_laws f)) in Q. destruct Q as [Q _].
    pose proof (eq_trans (eq_sym H) (Q i)). discriminate. }
  split; [exact K|]. apply Bool.not_true_is_false. intros Q. apply (exclusive_iff (f_elem f) (f_laws f)) in Q.
  destruct Q as [Q _]. apply inside_iff in Q. congruence.
Qed.
Lemma n3_components ty v : (forall i, valid ty (ncoord i v)) ->
  (exists m, n3_min_component (elem ty) v = Done m /\ (exists i, m = ncoord i v) /\ forall i, tle ty m (ncoord i v)) /\
  (exists m, n3_max_component (elem ty) v = Done m /\ (exists i, m = ncoord i v) /\ forall i, tle ty (ncoord i v) m).
Proof.
  intros V. destruct (v3_components ty (V3 (nx v) (ny v) (nz v))) as [(m & H & (i & K) & N) (m' & H' & (i' & K') & N')].
  - intros []; [apply (V AX)|apply (V AY)|apply (V AZ)].
  - split; [exists m|exists m']; (split; [assumption|]); (split; [|intros []; (apply (N AX) || apply (N AY) || apply (N AZ) || apply (N' AX) || apply (N' AY) || apply (N' AZ))]).
    + exists i. destruct i; exact K.
    + exists i'. destruct i'; exact K'.
Qed.
