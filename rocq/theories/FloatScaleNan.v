(** Proofs about C87: has_scale of a matrix with entries that are not finite. *)
From Coq Require Import ZArith Reals Lia Lra Bool.
From Flocq Require Import Core.Core IEEE754.BinarySingleNaN.
From Verif Require Import Base Elem FloatInst GeoModel MatModel GeoSpec ArithSpec MatSpec OpsSpec NanSpec OrderProofs.
From Verif Require Import FloatErrSpec FloatCore FloatThms FloatErr OpsThms FloatScale FloatNanOps.
Local Open Scope mon_scope.

Section U.
Context (f : fmt).
Notation E := (f_elem f).
Notation B := (flt f).
Notation zero := (f_of_int f 0).
Notation one := (f_of_int f 1).
Lemma zero_null : zero = B754_zero false. Proof. destruct f; reflexivity. Qed.
Lemma times_0_bad (x : B) : is_finite x = false -> nan (f_mult x zero).
Proof. rewrite zero_null. destruct x as [|[]| |]; intros H; try discriminate; reflexivity. Qed.
Lemma times_0_fin (x : B) : is_finite x = true -> null (f_mult x zero).
Proof. rewrite zero_null. destruct x as [|[]| |]; intros H; try discriminate; exact I. Qed.
(** Of the same kind: both NaN, both infinite or both finite. *)
Definition alike (x y : B) : Prop := is_nan x = is_nan y /\ is_finite x = is_finite y.
Lemma alike_1 (x : B) : alike (f_mult x one) x.
Proof.
  destruct (is_finite x) eqn:Q.
  - destruct (isv_times f x (B2R x) true (conj Q eq_refl)) as [F _]. split; [|congruence].
    transitivity false; [|now destruct x]. revert F. now destruct (f_mult x one).
  - unfold alike. destruct x as [|[]| |]; try discriminate Q; clear Q; destruct f; split; reflexivity.
Qed.
Lemma alike_add_l (x y : B) : null y -> alike (f_add x y) x.
Proof. destruct x as [[]|[]| |[] ? ? ?], y as [[]| | |]; intros N; try contradiction N; split; reflexivity. Qed.
Lemma alike_add_r (x y : B) : null x -> alike (f_add x y) y.
Proof. destruct x as [[]| | |], y as [[]|[]| |[] ? ? ?]; intros N; try contradiction N; split; reflexivity. Qed.
Lemma alike_trans x y z : alike x y -> alike y z -> alike x z. Proof. unfold alike. intuition congruence. Qed.
Lemma null_add (x y : B) : null x -> null y -> null (f_add x y).
Proof. destruct x as [[]| | |], y as [[]| | |]; cbn; tauto. Qed.
Definition row_f (t : Transform B) (j r : ix) : B :=
  f_add (f_add (f_mult (mget (t_m t) r I0) (vx (unit_f f j))) (f_mult (mget (t_m t) r I1) (vy (unit_f f j)))) (f_mult (mget (t_m t) r I2) (vz (unit_f f j))).
Lemma row_is t j : v3_transform (f_float f) (fun x => x) (unit_f f j) t = Done (V3 (row_f t j I0) (row_f t j I1) (row_f t j I2)).
Proof. reflexivity. Qed.
Lemma row_bad t j r c : j <> I3 -> c <> I3 -> c <> j -> is_finite (mget (t_m t) r c) = false -> nan (row_f t j r).
Proof.
  intros Hj Hc N F. apply times_0_bad in F. unfold row_f, unit_f.
  destruct j, c; try congruence; cbn [ix_eqb vx vy vz]; rewrite ?add_nan; unfold nan_sum; rewrite ?add_nan; unfold nan_sum; tauto.
Qed.
Lemma row_good t j r : j <> I3 -> (forall c, c <> I3 -> c <> j -> is_finite (mget (t_m t) r c) = true) -> alike (row_f t j r) (mget (t_m t) r j).
Proof.
  intros Hj F. assert (Z : forall c, c <> I3 -> c <> j -> null (f_mult (mget (t_m t) r c) zero)) by (intros c H1 H2; apply times_0_fin; auto).
  unfold row_f, unit_f. destruct j; try congruence; cbn [ix_eqb vx vy vz].
  - eapply alike_trans; [apply alike_add_l, Z; discriminate|]. eapply alike_trans; [apply alike_add_l, Z; discriminate|]. apply alike_1.
  - eapply alike_trans; [apply alike_add_l, Z; discriminate|]. eapply alike_trans; [apply alike_add_r, Z; discriminate|]. apply alike_1.
  - eapply alike_trans; [apply alike_add_r, null_add; apply Z; discriminate|]. apply alike_1.
Qed.
Definition sq_f (t : Transform B) (j : ix) : B :=
  f_add (f_add (f_mult (row_f t j I0) (row_f t j I0)) (f_mult (row_f t j I1) (row_f t j I1))) (f_mult (row_f t j I2) (row_f t j I2)).
Lemma has_scale_is t : t_has_scale (f_float f) t = Done (not_one (f_float f) (sq_f t I0) || not_one (f_float f) (sq_f t I1) || not_one (f_float f) (sq_f t I2)).
Proof. reflexivity. Qed.
Lemma sq_nan t j r : r <> I3 -> nan (row_f t j r) -> nan (sq_f t j).
Proof.
  intros Hr N. assert (M : nan (f_mult (row_f t j r) (row_f t j r))) by (apply mult_nan; now left). unfold sq_f.
  destruct r; try congruence; rewrite ?add_nan; unfold nan_sum; rewrite ?add_nan; unfold nan_sum; tauto.
Qed.
Lemma sq_inf_f t j : (forall r, r <> I3 -> ~ nan (row_f t j r)) -> (exists r, r <> I3 /\ infinite (row_f t j r)) -> sq_f t j = B754_infinity false.
Proof.
  intros H (r & Hr & I).
  assert (G : forall r, r <> I3 -> fnn f (f_mult (row_f t j r) (row_f t j r))).
  { intros s Hs. apply fnn_sq. specialize (H s Hs). unfold nan in H. now destruct (is_nan (row_f t j s)). }
  pose proof (G I0 ltac:(discriminate)) as G0. pose proof (G I1 ltac:(discriminate)) as G1. pose proof (G I2 ltac:(discriminate)) as G2.
  unfold sq_f. destruct r; try congruence; rewrite (sq_inf f _ I).
  - rewrite (add_inf_l f _ G1). now apply add_inf_l.
  - rewrite (add_inf_r f _ G0). now apply add_inf_l.
  - apply add_inf_r. now apply fnn_add.
Qed.
Lemma not_one_nan (x : B) : nan x -> not_one (f_float f) x = false.
Proof. unfold nan. destruct x; try discriminate. intros _. unfold not_one. cbn [e_lt f_float fl_elem f_elem]. destruct f; reflexivity. Qed.
Lemma not_one_inf : not_one (f_float f) (B754_infinity false) = true.
Proof. destruct f; reflexivity. Qed.
Lemma bad_axis t j c r : j <> I3 -> c <> I3 -> r <> I3 -> c <> j -> is_finite (mget (t_m t) r c) = false -> not_one (f_float f) (sq_f t j) = false.
Proof. intros Hj Hc Hr N F. apply not_one_nan, (sq_nan t j r Hr). now apply (row_bad t j r c). Qed.
Lemma nan_axis t j r : j <> I3 -> r <> I3 -> nan (mget (t_m t) r j) -> not_one (f_float f) (sq_f t j) = false.
Proof.
  intros Hj Hr N. apply not_one_nan, (sq_nan t j r Hr).
  assert (M : nan (f_mult (mget (t_m t) r j) one)) by (apply mult_nan; now left).
  unfold row_f, unit_f. destruct j; try congruence; cbn [ix_eqb vx vy vz]; rewrite ?add_nan; unfold nan_sum; rewrite ?add_nan; unfold nan_sum; tauto.
Qed.
Lemma ix_dec (a b : ix) : {a = b} + {a <> b}. Proof. decide equality. Qed.
Lemma scale_not_finite (t : Transform B) :
  (forall r c r' c', r <> I3 -> c <> I3 -> r' <> I3 -> c' <> I3 -> c <> c' ->
     is_finite (mget (t_m t) r c) = false -> is_finite (mget (t_m t) r' c') = false -> t_has_scale (f_float f) t = Done false) /\
  (forall r c, r <> I3 -> c <> I3 -> is_nan (mget (t_m t) r c) = true -> t_has_scale (f_float f) t = Done false) /\
  (forall r c, r <> I3 -> c <> I3 -> is_finite (mget (t_m t) r c) = false ->
     (forall r', r' <> I3 -> is_nan (mget (t_m t) r' c) = false) ->
     (forall r' c', r' <> I3 -> c' <> I3 -> c' <> c -> is_finite (mget (t_m t) r' c') = true) -> t_has_scale (f_float f) t = Done true).
Proof.
  rewrite has_scale_is. split; [|split].
  - intros r c r' c' Hr Hc Hr' Hc' N F F'.
    assert (A : forall j, j <> I3 -> not_one (f_float f) (sq_f t j) = false).
    { intros j Hj. destruct (ix_dec c j) as [->|M]; [apply (bad_axis t j c' r'); auto|now apply (bad_axis t j c r)]. }
    now rewrite !A by discriminate.
  - intros r c Hr Hc N. assert (F : is_finite (mget (t_m t) r c) = false) by (destruct (mget (t_m t) r c); try discriminate; reflexivity).
    assert (A : forall j, j <> I3 -> not_one (f_float f) (sq_f t j) = false).
    { intros j Hj. destruct (ix_dec c j) as [->|M]; [now apply (nan_axis t j r)|now apply (bad_axis t j c r)]. }
    now rewrite !A by discriminate.
  - intros r c Hr Hc F N G.
    assert (A : forall s, s <> I3 -> alike (row_f t c s) (mget (t_m t) s c)) by (intros s Hs; apply row_good; auto).
    assert (Q : not_one (f_float f) (sq_f t c) = true).
    { rewrite sq_inf_f; [apply not_one_inf| |].
      - intros s Hs M. destruct (A s Hs) as [A1 _]. unfold nan in M. rewrite A1, N in M by exact Hs. discriminate.
      - exists r. split; [exact Hr|]. destruct (A r Hr) as [A1 A2]. split; [rewrite A1; now apply N|now rewrite A2]. }
    destruct c; try congruence; rewrite Q, ?orb_true_r; reflexivity.
Qed.
End U.
(** A scaling by an infinite and by a NaN factor. *)
Lemma scale_not_finite_case : let inf := f_div (f32 1) (f32 0) in let t := mkT (f_ident F32) (f_ident F32) in
  (is_finite inf = false /\ is_nan inf = false) /\
  (t_has_scale (f_float F32) (mkT (mset (t_m t) I0 I1 inf) (t_inv t)) = Done true) /\
  (t_has_scale (f_float F32) (mkT (mset (mset (t_m t) I1 I1 inf) I2 I2 inf) (t_inv t)) = Done false).
Proof. repeat split; vm_compute; reflexivity. Qed.
