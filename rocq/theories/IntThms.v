(** Integer arithmetic: exact or panic with overflow checks, modulo 2^64 without; and properties that need no arithmetic. *)
From Coq Require Import ZArith Lia.
From Verif Require Import Base Elem GeoModel MatModel GeoSpec MatSpec ArithSpec.
Local Open Scope Z_scope.

(** ** Wrap-around *)
Lemma wrap_range z : in_range (wrap z) = true.
Proof. unfold in_range, wrap, int_min, int_max. pose proof (Z.mod_pos_bound (z + 2 ^ 63) (2 ^ 64) eq_refl). lia. Qed.
Lemma wrap_id z : in_range z = true -> wrap z = z.
Proof.
  unfold in_range, wrap, int_min, int_max. intros H. rewrite Z.mod_small; [lia|].
  change (2 ^ 64) with (2 ^ 63 + 2 ^ 63). lia.
Qed.
Lemma wrap_cong z : (wrap z) mod 2 ^ 64 = z mod 2 ^ 64.
Proof. unfold wrap. rewrite Zminus_mod_idemp_l. f_equal. lia. Qed.
Lemma wrap_eq a b : a mod 2 ^ 64 = b mod 2 ^ 64 -> wrap a = wrap b.
Proof. intros H. unfold wrap. f_equal. rewrite (Zplus_mod a), (Zplus_mod b), H. reflexivity. Qed.
Lemma wrap_add a b : wrap (wrap a + wrap b) = wrap (a + b).
Proof. apply wrap_eq. rewrite Zplus_mod, !wrap_cong, <- Zplus_mod. reflexivity. Qed.
Lemma wrap_sub a b : wrap (wrap a - wrap b) = wrap (a - b).
Proof. apply wrap_eq. rewrite Zminus_mod, !wrap_cong, <- Zminus_mod. reflexivity. Qed.
Lemma wrap_mul a b : wrap (wrap a * wrap b) = wrap (a * b).
Proof. apply wrap_eq. rewrite Zmult_mod, !wrap_cong, <- Zmult_mod. reflexivity. Qed.
Lemma arith_wrap z : arith false z = Done (wrap z).
Proof. unfold arith. destruct (in_range z) eqn:Q; auto. now rewrite wrap_id. Qed.

Lemma ex_leaf chk z : in_range z = true -> exactly chk z (Done z).
Proof. intros H. destruct chk; cbn; auto. now rewrite wrap_id. Qed.
Lemma ex_arith chk z : exactly chk z (arith chk z).
Proof. destruct chk; [|apply arith_wrap]. cbn. unfold arith. destruct (in_range z); auto. Qed.
Lemma ex_add chk a b m n : exactly chk a m -> exactly chk b n -> exactly chk (a + b) (m +[i64 chk] n).
Proof.
  unfold lift2. destruct chk; cbn [exactly e_add i64].
  - intros [->|[-> Ha]]; cbn; auto. intros [->|[-> Hb]]; cbn; auto. apply (ex_arith true).
  - intros -> ->. cbn [obind e_add i64]. rewrite arith_wrap, wrap_add. reflexivity.
Qed.
Lemma ex_sub chk a b m n : exactly chk a m -> exactly chk b n -> exactly chk (a - b) (m -[i64 chk] n).
Proof.
  unfold lift2. destruct chk; cbn [exactly e_sub i64].
  - intros [->|[-> Ha]]; cbn; auto. intros [->|[-> Hb]]; cbn; auto. apply (ex_arith true).
  - intros -> ->. cbn [obind e_sub i64]. rewrite arith_wrap, wrap_sub. reflexivity.
Qed.
Lemma ex_mul chk a b m n : exactly chk a m -> exactly chk b n -> exactly chk (a * b) (m *[i64 chk] n).
Proof.
  unfold lift2. destruct chk; cbn [exactly e_mul i64].
  - intros [->|[-> Ha]]; cbn; auto. intros [->|[-> Hb]]; cbn; auto. apply (ex_arith true).
  - intros -> ->. cbn [obind e_mul i64]. rewrite arith_wrap, wrap_mul. reflexivity.
Qed.
Ltac ex_solve := repeat first [assumption | apply ex_add | apply ex_sub | apply ex_mul | apply ex_leaf].
Lemma vec_range_inv v : vec_range v -> in_range (vx v) = true /\ in_range (vy v) = true /\ in_range (vz v) = true.
Proof. intros H. exact (conj (H AX) (conj (H AY) (H AZ))). Qed.
Lemma dot_exact chk u v : vec_range u -> vec_range v -> exactly chk (dotZ u v) (v3_dot (i64 chk) u v).
Proof. intros Hu Hv. apply vec_range_inv in Hu as (? & ? & ?), Hv as (? & ? & ?). unfold v3_dot, dotZ. ex_solve. Qed.
Lemma len_sq_exact chk u : vec_range u -> exactly chk (dotZ u u) (v3_len_sq (i64 chk) u).
Proof. intros Hu. apply (dot_exact chk u u Hu Hu). Qed.
Lemma ex_mk3 chk x y z m n p : exactly chk x m -> exactly chk y n -> exactly chk z p -> exactly3 chk (V3 x y z) (mk3 V3 m n p).
Proof.
  unfold mk3. destruct chk; cbn [exactly exactly3].
  - intros [->|[-> Ha]]; cbn; auto. intros [->|[-> Hb]]; cbn; auto. intros [->|[-> Hc]]; cbn; auto.
    right. split; auto. intros []; auto.
  - intros -> -> ->. reflexivity.
Qed.
Lemma cross_exact chk u v : vec_range u -> vec_range v -> exactly3 chk (crossZ u v) (v3_cross (i64 chk) u v).
Proof.
  intros Hu Hv. apply vec_range_inv in Hu as (? & ? & ?), Hv as (? & ? & ?). unfold v3_cross, crossZ. apply ex_mk3; ex_solve.
Qed.
Lemma obind_ex3 chk w o g z : exactly3 chk w o ->
  (forall d, (chk = true -> d = w /\ vec_range w) -> (chk = false -> d = V3 (wrap (vx w)) (wrap (vy w)) (wrap (vz w))) -> exactly chk z (g d)) ->
  exactly chk z (obind o g).
Proof.
  destruct chk; cbn [exactly3].
  - intros [->|[-> H]] K; [left; reflexivity|]. cbn [obind]. apply K; auto. discriminate.
  - intros -> K. cbn [obind]. apply K; auto. discriminate.
Qed.
Lemma ex_leaf' chk z d : (chk = true -> d = z /\ in_range z = true) -> (chk = false -> d = wrap z) -> exactly chk z (Done d).
Proof. destruct chk; cbn; intros H1 H2; [right; destruct (H1 eq_refl) as [-> ?]; auto | now rewrite H2]. Qed.
Lemma diagonal_exact chk b : box_range b -> exactly3 chk (V3 (extZ b AX) (extZ b AY) (extZ b AZ)) (b3_diagonal (i64 chk) b).
Proof. intros H. destruct (H AX), (H AY), (H AZ). unfold b3_diagonal, p3_sub. apply ex_mk3; ex_solve. Qed.
Lemma volume_exact chk b : box_range b -> exactly chk (extZ b AX * extZ b AY * extZ b AZ) (b3_volume (i64 chk) b).
Proof.
  intros H. unfold b3_volume. eapply obind_ex3; [apply diagonal_exact, H|]. intros d H1 H2.
  repeat apply ex_mul; apply ex_leaf'; intros C; try (destruct (H1 C) as [-> K]; split; [reflexivity | first [exact (K AX)|exact (K AY)|exact (K AZ)]]);
    rewrite (H2 C); reflexivity.
Qed.
Lemma area_exact chk b : box_range b ->
  exactly chk (2 * (extZ b AX * extZ b AY + extZ b AX * extZ b AZ + extZ b AY * extZ b AZ)) (b3_surface_area (i64 chk) b).
Proof.
  intros H. unfold b3_surface_area. eapply obind_ex3; [apply diagonal_exact, H|]. intros d H1 H2.
  apply ex_mul; [apply ex_leaf; reflexivity|].
  repeat apply ex_add; apply ex_mul; apply ex_leaf'; intros C; try (destruct (H1 C) as [-> K]; split; [reflexivity | first [exact (K AX)|exact (K AY)|exact (K AZ)]]);
    rewrite (H2 C); reflexivity.
Qed.

(** Small values do not overflow. *)
Lemma arith_in chk z : in_range z = true -> arith chk z = Done z. Proof. intros H. unfold arith. now rewrite H. Qed.
Lemma small_range k z : small k z -> 0 <= k < 63 -> in_range z = true.
Proof.
  unfold small, in_range, int_min, int_max. intros H K. pose proof (Z.pow_lt_mono_r 2 k 63 eq_refl).
  assert (2 ^ k < 2 ^ 63) by (apply Z.pow_lt_mono_r; lia). lia.
Qed.
Lemma small_mul j k a b : 0 <= j -> 0 <= k -> small j a -> small k b -> small (j + k) (a * b).
Proof.
  unfold small. intros Hj Hk Ha Hb. rewrite Z.pow_add_r by auto.
  pose proof (Z.pow_pos_nonneg 2 j eq_refl Hj). pose proof (Z.pow_pos_nonneg 2 k eq_refl Hk).
  generalize dependent (2 ^ j). generalize dependent (2 ^ k). intros. nia.
Qed.
Lemma small_add k a b : 0 <= k -> small k a -> small k b -> small (k + 1) (a + b).
Proof. unfold small. intros Hk Ha Hb. rewrite Z.pow_add_r by lia. change (2 ^ 1) with 2. lia. Qed.
Lemma small_sub k a b : 0 <= k -> small k a -> small k b -> small (k + 1) (a - b).
Proof. unfold small. intros Hk Ha Hb. rewrite Z.pow_add_r by lia. change (2 ^ 1) with 2. lia. Qed.
Lemma small_mono j k a : 0 <= j <= k -> small j a -> small k a.
Proof. unfold small. intros H Ha. pose proof (Z.pow_le_mono_r 2 j k eq_refl). lia. Qed.
Lemma dot_small chk u v : vec_small 30 u -> vec_small 30 v -> v3_dot (i64 chk) u v = Done (dotZ u v).
Proof.
  intros Hu Hv. pose proof (small_mul 30 30 _ _ ltac:(lia) ltac:(lia) (Hu AX) (Hv AX)) as X.
  pose proof (small_mul 30 30 _ _ ltac:(lia) ltac:(lia) (Hu AY) (Hv AY)) as Y.
  pose proof (small_mul 30 30 _ _ ltac:(lia) ltac:(lia) (Hu AZ) (Hv AZ)) as W.
  cbn [vcoord] in *. pose proof (small_add 60 _ _ ltac:(lia) X Y) as XY.
  pose proof (small_add 61 _ _ ltac:(lia) XY (small_mono 60 61 _ ltac:(lia) W)) as XYZ.
  unfold v3_dot, lift2, dotZ. cbn [obind e_mul e_add i64].
  rewrite (arith_in chk _ (small_range 60 _ X ltac:(lia))), (arith_in chk _ (small_range 60 _ Y ltac:(lia))). cbn [obind].
  rewrite (arith_in chk _ (small_range 61 _ XY ltac:(lia))). cbn [obind].
  rewrite (arith_in chk _ (small_range 60 _ W ltac:(lia))). cbn [obind].
  now rewrite (arith_in chk _ (small_range 62 _ XYZ ltac:(lia))).
Qed.
Lemma cross_small chk u v : vec_small 30 u -> vec_small 30 v -> v3_cross (i64 chk) u v = Done (crossZ u v).
Proof.
  intros Hu Hv.
  assert (K : forall a b c d, small 30 a -> small 30 b -> small 30 c -> small 30 d -> !a *[i64 chk] !b -[i64 chk] !c *[i64 chk] !d = Done (a * b - c * d)).
  { intros a b c d Ha Hb Hc Hd. pose proof (small_mul 30 30 _ _ ltac:(lia) ltac:(lia) Ha Hb) as X.
    pose proof (small_mul 30 30 _ _ ltac:(lia) ltac:(lia) Hc Hd) as Y. pose proof (small_sub 60 _ _ ltac:(lia) X Y) as XY.
    unfold lift2. cbn [obind e_mul e_sub i64]. rewrite (arith_in chk _ (small_range 60 _ X ltac:(lia))), (arith_in chk _ (small_range 60 _ Y ltac:(lia))).
    cbn [obind]. now rewrite (arith_in chk _ (small_range 61 _ XY ltac:(lia))). }
  pose proof (Hu AX). pose proof (Hu AY). pose proof (Hu AZ). pose proof (Hv AX). pose proof (Hv AY). pose proof (Hv AZ).
  cbn [vcoord] in *. unfold v3_cross. rewrite !K by auto. reflexivity.
Qed.

(** ** Indexing (C64), for any component type *)
Lemma v2_index_thm T (v : Vector2 T) i : v2_index v i = match i with 0%nat => Done (v2x v) | 1%nat => Done (v2y v) | _ => Panic end.
Proof. reflexivity. Qed.
Lemma index_panic T (v : Vector3 T) (w : Vector2 T) (n : Normal3 T) (m : Matrix4 T) i :
  (v2_index w i = Panic <-> (2 <= i)%nat) /\ (v3_index v i = Panic <-> (3 <= i)%nat) /\ (n3_index n i = Panic <-> (3 <= i)%nat) /\
  (m4_index m i = Panic <-> (4 <= i)%nat).
Proof.
  repeat split; intros H; do 4 (try destruct i as [|i]); cbn in *; try discriminate; try reflexivity; try lia.
Qed.
Lemma v3_index_axis T (v : Vector3 T) i : v3_index v (axis_nat i) = Done (vcoord i v). Proof. destruct i; reflexivity. Qed.
Lemma n3_index_axis T (v : Normal3 T) i : n3_index v (axis_nat i) = Done (ncoord i v). Proof. destruct i; reflexivity. Qed.
Lemma axis_of n : (n < 3)%nat -> exists i, n = axis_nat i.
Proof. intros H. destruct n as [|[|[|n]]]; [exists AX|exists AY|exists AZ|lia]; reflexivity. Qed.
Lemma v3_permute_thm T (v : Vector3 T) i j k :
  v3_permute v (axis_nat i) (axis_nat j) (axis_nat k) = Done (V3 (vcoord i v) (vcoord j v) (vcoord k v)).
Proof. unfold v3_permute. rewrite !v3_index_axis. reflexivity. Qed.
Lemma n3_permute_thm T (v : Normal3 T) i j k :
  n3_permute v (axis_nat i) (axis_nat j) (axis_nat k) = Done (N3 (ncoord i v) (ncoord j v) (ncoord k v)).
Proof. unfold n3_permute. rewrite !n3_index_axis. reflexivity. Qed.
Lemma idx_done T (v : Vector3 T) n : (n < 3)%nat -> exists x, v3_index v n = Done x.
Proof. intros H. destruct (axis_of n H) as [i ->]. rewrite v3_index_axis. eauto. Qed.
Lemma v3_permute_panic T (v : Vector3 T) x y z : v3_permute v x y z = Panic <-> (3 <= x \/ 3 <= y \/ 3 <= z)%nat.
Proof.
  unfold v3_permute, mk3. assert (P : forall n, (3 <= n)%nat -> v3_index v n = Panic).
  { intros n Hn. do 3 (destruct n as [|n]; [lia|]). reflexivity. }
  destruct (Nat.le_gt_cases 3 x) as [Hx|Hx]; [rewrite (P x Hx); split; auto|]. destruct (idx_done T v x Hx) as [a ->]. cbn [obind].
  destruct (Nat.le_gt_cases 3 y) as [Hy|Hy]; [rewrite (P y Hy); split; auto|]. destruct (idx_done T v y Hy) as [b ->]. cbn [obind].
  destruct (Nat.le_gt_cases 3 z) as [Hz|Hz]; [rewrite (P z Hz); split; auto|]. destruct (idx_done T v z Hz) as [c ->]. cbn [obind].
  split; [discriminate|lia].
Qed.
Lemma n3_permute_panic T (v : Normal3 T) x y z : n3_permute v x y z = Panic <-> (3 <= x \/ 3 <= y \/ 3 <= z)%nat.
Proof.
  rewrite <- (v3_permute_panic T (V3 (nx v) (ny v) (nz v))). unfold n3_permute, v3_permute, mk3.
  change (v3_index {| vx := nx v; vy := ny v; vz := nz v |}) with (n3_index v).
  destruct (n3_index v x); cbn; try tauto; [|split; discriminate]. destruct (n3_index v y); cbn; try tauto; [|split; discriminate].
  destruct (n3_index v z); cbn; split; auto; discriminate.
Qed.
