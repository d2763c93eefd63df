(** Proofs about C142: a scene moved by an integer vector. *)
From Coq Require Import ZArith Reals List Lia.
From Flocq Require Import Core.Core IEEE754.BinarySingleNaN.
From Verif Require Import Base Elem GeoModel FloatInst GeoSpec ArithSpec AxesSpec ShiftSpec FloatUnit FloatAxes FloatMono FloatThms OrderProofs InvFloatEx.
Local Open Scope mon_scope.
Local Open Scope Z_scope.

Definition mvp (v : Vector3 Z) (p : Point3 Z) : Point3 Z := P3 (px p + vx v) (py p + vy v) (pz p + vz v).
Definition mvb (v : Vector3 Z) (b : Bounds3 Z) : Bounds3 Z := B3 (mvp v (b_min b)) (mvp v (b_max b)).
Lemma mvp_eq v p p' : moved_pt v p p' <-> p' = mvp v p.
Proof.
  split.
  - intros H. pose proof (H AX) as X. pose proof (H AY) as Y. pose proof (H AZ) as Z. destruct p'. cbn in *. unfold mvp. congruence.
  - intros -> []; reflexivity.
Qed.
Lemma mvb_eq v b b' : moved_box v b b' <-> b' = mvb v b.
Proof.
  unfold moved_box. rewrite !mvp_eq. split.
  - intros [X Y]. destruct b'. cbn in *. unfold mvb. congruence.
  - intros ->. auto.
Qed.
Lemma ltm a b v : (a + v <? b + v) = (a <? b).
Proof. destruct (a <? b) eqn:Q; [apply Z.ltb_lt in Q; apply Z.ltb_lt | apply Z.ltb_ge in Q; apply Z.ltb_ge]; lia. Qed.
Lemma lem a b v : (a + v <=? b + v) = (a <=? b).
Proof. destruct (a <=? b) eqn:Q; [apply Z.leb_le in Q; apply Z.leb_le | apply Z.leb_gt in Q; apply Z.leb_gt]; lia. Qed.
Lemma sbm a b v : a + v - (b + v) = a - b. Proof. lia. Qed.
Lemma pmin_z chk a b : pmin (i64 chk) [a; b] = Done (Z.min a b).
Proof. cbn. f_equal. destruct (b <? a) eqn:Q; [apply Z.ltb_lt in Q | apply Z.ltb_ge in Q]; lia. Qed.
Lemma pmax_z chk a b : pmax (i64 chk) [a; b] = Done (Z.max a b).
Proof. cbn. f_equal. destruct (a <? b) eqn:Q; [apply Z.ltb_lt in Q | apply Z.ltb_ge in Q]; lia. Qed.

Lemma alike_p v m p : m = Done p -> forall m', m' = Done (mvp v p) -> alike (moved_pt v) m m'.
Proof. intros -> m' ->. left. exists p, (mvp v p). rewrite mvp_eq. auto. Qed.
Lemma alike_b v m b : m = Done b -> forall m', m' = Done (mvb v b) -> alike (moved_box v) m m'.
Proof. intros -> m' ->. left. exists b, (mvb v b). rewrite mvb_eq. auto. Qed.
Ltac mm := unfold mk3, mvb, mvp; cbn [b_min b_max px py pz]; repeat progress (rewrite ?pmin_z, ?pmax_z; cbn [obind b_min b_max px py pz]).
Ltac mv := repeat first [rewrite Z.add_min_distr_r | rewrite Z.add_max_distr_r]; reflexivity.

Lemma add_moves p v p' : p3_add (i64 true) p v = Done p' -> moved_pt v p p'.
Proof.
  unfold p3_add, mk3, lift2. cbn [obind e_add i64]. unfold arith.
  destruct (in_range (px p + vx v)); try discriminate. destruct (in_range (py p + vy v)); try discriminate. destruct (in_range (pz p + vz v)); try discriminate.
  cbn. intros E. injection E as <-. intros []; reflexivity.
Qed.
Lemma points_moved chk v p q p' q' : moved_pt v p p' -> moved_pt v q q' ->
  p3_sub (i64 chk) p' q' = p3_sub (i64 chk) p q /\ alike (moved_pt v) (p3_min (i64 chk) p q) (p3_min (i64 chk) p' q') /\
  alike (moved_pt v) (p3_max (i64 chk) p q) (p3_max (i64 chk) p' q').
Proof.
  rewrite !mvp_eq. intros -> ->. repeat split.
  - unfold p3_sub, mk3, lift2, mvp. cbn [obind e_sub i64 px py pz]. now rewrite !sbm.
  - unfold p3_min. eapply alike_p; [mm; reflexivity | mm; mv].
  - unfold p3_max. eapply alike_p; [mm; reflexivity | mm; mv].
Qed.
Lemma boxes_moved chk v a b p q a' b' p' q' : moved_box v a a' -> moved_box v b b' -> moved_pt v p p' -> moved_pt v q q' ->
  alike (moved_box v) (b3_new (i64 chk) p q) (b3_new (i64 chk) p' q') /\
  alike (moved_box v) (b3_new_pt (i64 chk) p) (b3_new_pt (i64 chk) p') /\
  alike (moved_box v) (b3_union (i64 chk) a b) (b3_union (i64 chk) a' b') /\
  alike (moved_box v) (b3_union_pt (i64 chk) a p) (b3_union_pt (i64 chk) a' p') /\
  alike (moved_box v) (b3_intersect (i64 chk) a b) (b3_intersect (i64 chk) a' b') /\
  forall c, moved_pt v (b3_corner a c) (b3_corner a' c).
Proof.
  rewrite !mvb_eq, !mvp_eq. intros -> -> -> ->.
  unfold b3_new_pt, b3_union, b3_union_pt, b3_intersect, b3_new. repeat split; try (eapply alike_b; [mm; reflexivity | mm; mv]).
  intros c. rewrite mvp_eq. unfold b3_corner, mvp, mvb. cbn [px py pz b_min b_max].
  destruct (0 <? N.land c 1)%N, (0 <? N.land c 2)%N, (0 <? N.land c 4)%N; reflexivity.
Qed.
Lemma tests_moved chk v a b p a' b' p' : moved_box v a a' -> moved_box v b b' -> moved_pt v p p' ->
  b3_inside (i64 chk) a' p' = b3_inside (i64 chk) a p /\ b3_inside_exclusive (i64 chk) a' p' = b3_inside_exclusive (i64 chk) a p /\
  b3_overlaps (i64 chk) a' b' = b3_overlaps (i64 chk) a b.
Proof.
  rewrite !mvb_eq, !mvp_eq. intros -> -> ->. unfold b3_inside, b3_inside_exclusive, b3_overlaps, mvb, mvp.
  cbn [px py pz b_min b_max e_le e_lt i64]. now rewrite !ltm, !lem.
Qed.
Lemma diagonal_moved chk v a : b3_diagonal (i64 chk) (mvb v a) = b3_diagonal (i64 chk) a.
Proof. unfold b3_diagonal, p3_sub, mk3, lift2, mvb, mvp. cbn [obind e_sub i64 px py pz b_min b_max]. now rewrite !sbm. Qed.
Lemma measures_moved chk v a p a' p' : moved_box v a a' -> moved_pt v p p' ->
  b3_diagonal (i64 chk) a' = b3_diagonal (i64 chk) a /\ b3_volume (i64 chk) a' = b3_volume (i64 chk) a /\
  b3_surface_area (i64 chk) a' = b3_surface_area (i64 chk) a /\ b3_maximum_extent (i64 chk) a' = b3_maximum_extent (i64 chk) a /\
  b3_offset (i64 chk) a' p' = b3_offset (i64 chk) a p.
Proof.
  rewrite !mvb_eq, !mvp_eq. intros -> ->. unfold b3_volume, b3_surface_area, b3_maximum_extent. rewrite !diagonal_moved. repeat split.
  unfold b3_offset, p3_sub, mk3, lift2, mvb, mvp. cbn [obind e_sub e_lt i64 px py pz b_min b_max]. now rewrite !sbm, !ltm.
Qed.
Lemma expand_val chk b d : room b d -> b3_expand (i64 chk) b d =
  b3_new (i64 chk) (P3 (px (b_min b) - d) (py (b_min b) - d) (pz (b_min b) - d)) (P3 (px (b_max b) + d) (py (b_max b) + d) (pz (b_max b) + d)).
Proof.
  intros H. destruct (H AX) as [X X'], (H AY) as [Y Y'], (H AZ) as [Z Z']. cbn [coord] in *.
  unfold b3_expand, p3_sub_v, p3_add, mk3, lift2. cbn [obind e_sub e_add i64 vx vy vz]. unfold arith. now rewrite X, X', Y, Y', Z, Z'.
Qed.
Lemma expand_moved chk v a a' d : moved_box v a a' -> room a d -> room a' d -> alike (moved_box v) (b3_expand (i64 chk) a d) (b3_expand (i64 chk) a' d).
Proof.
  rewrite mvb_eq. intros -> R R'. rewrite (expand_val chk a d R), (expand_val chk _ d R'). unfold b3_new.
  eapply alike_b; [mm; reflexivity|]. mm.
  rewrite <- !Z.add_min_distr_r, <- !Z.add_max_distr_r. do 2 f_equal; f_equal; f_equal; lia.
Qed.
Lemma expand_wraps : exists v a a' d u u', box_range a /\ box_range a' /\ moved_box v a a' /\
  b3_expand (i64 false) a d = Done u /\ b3_expand (i64 false) a' d = Done u' /\ ~ moved_box v u u'.
Proof.
  exists (V3 (int_max - 1) 0 0), (B3 (P3 0 0 0) (P3 1 1 1)), (B3 (P3 (int_max - 1) 0 0) (P3 int_max 1 1)), 1.
  eexists. eexists. split; [intros []; split; reflexivity|]. split; [intros []; split; reflexivity|]. split; [split; intros []; reflexivity|].
  split; [vm_compute; reflexivity|]. split; [vm_compute; reflexivity|]. intros [H _]. specialize (H AX). vm_compute in H. discriminate.
Qed.
Lemma iter_resets : exists v i i' p j p' j', moved_iter v i i' /\ b2_next (i64 true) i = Done (Some p, j) /\ b2_next (i64 true) i' = Done (Some p', j') /\
  ~ moved_pt2 v p p'.
Proof.
  exists (V2 1 0), (BI (P2 2 2) 2 0), (BI (P2 3 2) 3 0). do 4 eexists. split; [repeat split|]. split; [vm_compute; reflexivity|]. split; [vm_compute; reflexivity|].
  intros [H _]. vm_compute in H. discriminate.
Qed.

(** ** Floats: only that what is inside stays inside *)
Section F.
Context (f : fmt).
Notation E := (f_elem f).
Lemma shift_up (a b v : flt f) : Bleb a b = true -> is_nan (f_add a v) = false -> is_nan (f_add b v) = false -> Bleb (f_add a v) (f_add b v) = true.
Proof. intros H N N'. apply add_up; auto. destruct (nan_add f _ _ N) as [_ Nv]. apply leb_key. split; [assumption|]. split; [assumption|]. apply Rle_refl. Qed.
Lemma padd (p : Point3 (flt f)) v p' : p3_add E p v = Done p' -> p' = P3 (f_add (px p) (vx v)) (f_add (py p) (vy v)) (f_add (pz p) (vz v)).
Proof. unfold p3_add, mk3, lift2. cbn. congruence. Qed.
Lemma inside_moved (b : Bounds3 (flt f)) p v lo hi p' : p3_add E (b_min b) v = Done lo -> p3_add E (b_max b) v = Done hi -> p3_add E p v = Done p' ->
  (forall i, is_nan (coord i lo) = false /\ is_nan (coord i hi) = false /\ is_nan (coord i p') = false) ->
  b3_inside E b p = true -> b3_inside E (B3 lo hi) p' = true.
Proof.
  intros L H P N I. apply padd in L, H, P. subst. destruct (N AX) as (? & ? & ?), (N AY) as (? & ? & ?), (N AZ) as (? & ? & ?). cbn [coord px py pz] in *.
  unfold b3_inside in *. cbn [b_min b_max px py pz e_le f_elem] in *.
  rewrite !andb_true_iff in *. destruct I as (((((? & ?) & ?) & ?) & ?) & ?). repeat split; apply shift_up; assumption.
Qed.
Lemma overlaps_moved (a b : Bounds3 (flt f)) v la ha lb hb : p3_add E (b_min a) v = Done la -> p3_add E (b_max a) v = Done ha ->
  p3_add E (b_min b) v = Done lb -> p3_add E (b_max b) v = Done hb ->
  (forall i, is_nan (coord i la) = false /\ is_nan (coord i ha) = false /\ is_nan (coord i lb) = false /\ is_nan (coord i hb) = false) ->
  b3_overlaps E a b = true -> b3_overlaps E (B3 la ha) (B3 lb hb) = true.
Proof.
  intros L H P Q N I. apply padd in L, H, P, Q. subst. destruct (N AX) as (? & ? & ? & ?), (N AY) as (? & ? & ? & ?), (N AZ) as (? & ? & ? & ?). cbn [coord px py pz] in *.
  unfold b3_overlaps in *. cbn [b_min b_max px py pz e_le f_elem] in *.
  rewrite !andb_true_iff in *. destruct I as (((? & ?) & (? & ?)) & (? & ?)). repeat split; apply shift_up; assumption.
Qed.
End F.
Lemma far_moved f : exists (p q : Point3 (flt f)) v p' q' d d', p3_add (f_elem f) p v = Done p' /\ p3_add (f_elem f) q v = Done q' /\
  pfinite p' /\ pfinite q' /\ p3_sub (f_elem f) q p = Done d /\ p3_sub (f_elem f) q' p' = Done d' /\ Beqb (vx d) (vx d') = false /\
  b3_inside_exclusive (f_elem f) (B3 p q) p = true /\ b3_inside_exclusive (f_elem f) (B3 p' q') p' = false /\
  b3_inside (f_elem f) (B3 p p) q = false /\ b3_inside (f_elem f) (B3 p' p') q' = true.
Proof.
  set (n := f_of_int f). set (p := P3 (n 0) (n 0) (n 0)). set (q := P3 (n 1) (n 1) (n 1)). set (v := V3 (n (2 ^ 60)) (n (2 ^ 60)) (n (2 ^ 60))).
  exists p, q, v, (get_done (p3_add (f_elem f) p v) p), (get_done (p3_add (f_elem f) q v) p), (get_done (p3_sub (f_elem f) q p) v),
    (get_done (p3_sub (f_elem f) (get_done (p3_add (f_elem f) q v) p) (get_done (p3_add (f_elem f) p v) p)) v).
  split; [reflexivity|]. split; [reflexivity|]. split; [destruct f; intros []; vm_compute; reflexivity|]. split; [destruct f; intros []; vm_compute; reflexivity|].
  split; [reflexivity|]. split; [reflexivity|]. destruct f; repeat split; vm_compute; reflexivity.
Qed.
