(** Proofs about C143: an integer scene enlarged. *)
From Coq Require Import ZArith Reals List Lia.
From Verif Require Import Base Elem GeoModel GeoSpec MatSpec ArithSpec ChkSpec ChkProofs AxesSpec GrowSpec IntShift.
Local Open Scope mon_scope.
Local Open Scope Z_scope.

Definition grp (k : Z) (p : Point3 Z) : Point3 Z := P3 (k * px p) (k * py p) (k * pz p).
Definition grv (k : Z) (v : Vector3 Z) : Vector3 Z := V3 (k * vx v) (k * vy v) (k * vz v).
Definition grb (k : Z) (b : Bounds3 Z) : Bounds3 Z := B3 (grp k (b_min b)) (grp k (b_max b)).
Lemma grp_eq k p p' : grown_pt k p p' <-> p' = grp k p.
Proof.
  split; [|intros -> []; reflexivity]. intros H. pose proof (H AX) as X. pose proof (H AY) as Y. pose proof (H AZ) as Z. destruct p'. cbn in *. unfold grp. congruence.
Qed.
Lemma grv_eq k p p' : grown_vec k p p' <-> p' = grv k p.
Proof.
  split; [|intros -> []; reflexivity]. intros H. pose proof (H AX) as X. pose proof (H AY) as Y. pose proof (H AZ) as Z. destruct p'. cbn in *. unfold grv. congruence.
Qed.
Lemma grb_eq k b b' : grown_box k b b' <-> b' = grb k b.
Proof. unfold grown_box. rewrite !grp_eq. split; [|intros ->; auto]. intros [X Y]. destruct b'. cbn in *. unfold grb. congruence. Qed.

Section G.
Context (k : Z) (K : 1 <= k).
Lemma ltg a b : (k * a <? k * b) = (a <? b).
Proof. destruct (a <? b) eqn:Q; [apply Z.ltb_lt in Q; apply Z.ltb_lt | apply Z.ltb_ge in Q; apply Z.ltb_ge]; nia. Qed.
Lemma leg a b : (k * a <=? k * b) = (a <=? b).
Proof. destruct (a <=? b) eqn:Q; [apply Z.leb_le in Q; apply Z.leb_le | apply Z.leb_gt in Q; apply Z.leb_gt]; nia. Qed.
Lemma ming a b : Z.min (k * a) (k * b) = k * Z.min a b. Proof. apply Z.mul_min_distr_nonneg_l. lia. Qed.
Lemma maxg a b : Z.max (k * a) (k * b) = k * Z.max a b. Proof. apply Z.mul_max_distr_nonneg_l. lia. Qed.
Lemma alike_gp m p : m = Done p -> forall m', m' = Done (grp k p) -> alike (grown_pt k) m m'.
Proof. intros -> m' ->. left. exists p, (grp k p). rewrite grp_eq. auto. Qed.
Lemma alike_gb m b : m = Done b -> forall m', m' = Done (grb k b) -> alike (grown_box k) m m'.
Proof. intros -> m' ->. left. exists b, (grb k b). rewrite grb_eq. auto. Qed.
Ltac mm := unfold mk3, grb, grp; cbn [b_min b_max px py pz]; repeat progress (rewrite ?pmin_z, ?pmax_z; cbn [obind b_min b_max px py pz]).
Ltac gr := repeat first [rewrite ming | rewrite maxg]; reflexivity.
Lemma boxes_grown chk a b p q a' b' p' q' : grown_box k a a' -> grown_box k b b' -> grown_pt k p p' -> grown_pt k q q' ->
  alike (grown_pt k) (p3_min (i64 chk) p q) (p3_min (i64 chk) p' q') /\ alike (grown_pt k) (p3_max (i64 chk) p q) (p3_max (i64 chk) p' q') /\
  alike (grown_box k) (b3_new (i64 chk) p q) (b3_new (i64 chk) p' q') /\
  alike (grown_box k) (b3_union (i64 chk) a b) (b3_union (i64 chk) a' b') /\
  alike (grown_box k) (b3_union_pt (i64 chk) a p) (b3_union_pt (i64 chk) a' p') /\
  alike (grown_box k) (b3_intersect (i64 chk) a b) (b3_intersect (i64 chk) a' b') /\
  forall c, grown_pt k (b3_corner a c) (b3_corner a' c).
Proof.
  rewrite !grb_eq, !grp_eq. intros -> -> -> ->. unfold p3_min, p3_max, b3_union, b3_union_pt, b3_intersect, b3_new.
  split; [eapply alike_gp; [mm; reflexivity | mm; gr]|]. split; [eapply alike_gp; [mm; reflexivity | mm; gr]|].
  repeat split; try (eapply alike_gb; [mm; reflexivity | mm; gr]).
  intros c. rewrite grp_eq. unfold b3_corner, grp, grb. cbn [px py pz b_min b_max].
  destruct (0 <? N.land c 1)%N, (0 <? N.land c 2)%N, (0 <? N.land c 4)%N; reflexivity.
Qed.
Lemma tests_grown chk a b p a' b' p' : grown_box k a a' -> grown_box k b b' -> grown_pt k p p' ->
  b3_inside (i64 chk) a' p' = b3_inside (i64 chk) a p /\ b3_inside_exclusive (i64 chk) a' p' = b3_inside_exclusive (i64 chk) a p /\
  b3_overlaps (i64 chk) a' b' = b3_overlaps (i64 chk) a b.
Proof.
  rewrite !grb_eq, !grp_eq. intros -> -> ->. unfold b3_inside, b3_inside_exclusive, b3_overlaps, grb, grp.
  cbn [px py pz b_min b_max e_le e_lt i64]. now rewrite !ltg, !leg.
Qed.

(** ** What can overflow *)
Lemma fit1 z : fits (k * z) -> fits z. Proof. unfold fits. nia. Qed.
Lemma fit2 z : fits (k * (k * z)) -> fits z. Proof. intros H. apply fit1, fit1, H. Qed.
Lemma fit3 z : fits (k * (k * (k * z))) -> fits z. Proof. intros H. apply fit1, fit2, H. Qed.
Lemma fits_dec z : {fits z} + {~ fits z}.
Proof. unfold fits. destruct (Z_le_dec (- 2 ^ 63) z); [|right; tauto]. destruct (Z_le_dec z (2 ^ 63 - 1)); [left|right]; tauto. Qed.
Lemma all_fit l : Forall fits l \/ ~ Forall fits l.
Proof. destruct (Forall_dec fits fits_dec l); auto. Qed.
Lemma grows_of {A} (R : A -> A -> Prop) o o' steps steps' x x' : checked o steps x -> checked o' steps' x' -> (Forall fits steps' -> Forall fits steps) -> R x x' -> grows R (o true) (o' true).
Proof.
  intros [C _] [C' P'] S H w' E. destruct (all_fit steps') as [Q|Q]; [|rewrite P' in E by exact Q; discriminate].
  rewrite C' in E by exact Q. injection E as <-. exists x. split; [apply C, S, Q|exact H].
Qed.
Ltac find := match goal with H : fits ?a |- fits ?b => replace b with a by ring; exact H end.
Ltac fit := cbn [app]; let H := fresh in intros H; repeat match goal with H : Forall fits (_ :: _) |- _ => inversion H; clear H; subst end;
  repeat (apply Forall_cons; [first [apply fit1; find | apply fit2; find | apply fit3; find]|]); apply Forall_nil.
Ltac opg := unfold steps_of, dot_steps, cross_steps, area_steps, volume_steps, exts, areaZ, volumeZ, dotZ, crossZ, extZ, subZ, addZ, loc, grb, grp, grv; cbn [vx vy vz px py pz b_min b_max coord].

Lemma points_grown p q v p' q' v' : grown_pt k p p' -> grown_pt k q q' -> grown_vec k v v' ->
  grows (grown_vec k) (p3_sub (i64 true) p q) (p3_sub (i64 true) p' q') /\ grows (grown_pt k) (p3_add (i64 true) p v) (p3_add (i64 true) p' v') /\
  grows (grown_pt k) (p3_sub_v (i64 true) p v) (p3_sub_v (i64 true) p' v').
Proof.
  rewrite !grp_eq, grv_eq. intros -> -> ->. repeat split.
  - eapply (grows_of _ (fun c => p3_sub (i64 c) _ _) (fun c => p3_sub (i64 c) _ _)); [apply ck_p3_sub|apply ck_p3_sub|opg; fit|]. apply grv_eq. opg. f_equal; ring.
  - eapply (grows_of _ (fun c => p3_add (i64 c) _ _) (fun c => p3_add (i64 c) _ _)); [apply ck_p3_add|apply ck_p3_add|opg; fit|]. apply grp_eq. unfold pnt_of. opg. f_equal; ring.
  - eapply (grows_of _ (fun c => p3_sub_v (i64 c) _ _) (fun c => p3_sub_v (i64 c) _ _)); [apply ck_p3_sub_v|apply ck_p3_sub_v|opg; fit|]. apply grp_eq. unfold pnt_of. opg. f_equal; ring.
Qed.
Lemma vectors_grown u v u' v' : grown_vec k u u' -> grown_vec k v v' ->
  grows (times (k * k)) (v3_dot (i64 true) u v) (v3_dot (i64 true) u' v') /\ grows (times (k * k)) (v3_len_sq (i64 true) u) (v3_len_sq (i64 true) u') /\
  grows (grown_vec (k * k)) (v3_cross (i64 true) u v) (v3_cross (i64 true) u' v') /\
  v3_max_dimension (i64 true) u' = v3_max_dimension (i64 true) u.
Proof.
  rewrite !grv_eq. intros -> ->. repeat split.
  - eapply (grows_of _ (fun c => v3_dot (i64 c) _ _) (fun c => v3_dot (i64 c) _ _)); [apply ck_v3_dot|apply ck_v3_dot|opg; fit|]. unfold times. opg. ring.
  - eapply (grows_of _ (fun c => v3_len_sq (i64 c) _) (fun c => v3_len_sq (i64 c) _)); [apply ck_v3_len_sq|apply ck_v3_len_sq|opg; fit|]. unfold times. opg. ring.
  - eapply (grows_of _ (fun c => v3_cross (i64 c) _ _) (fun c => v3_cross (i64 c) _ _)); [apply ck_v3_cross|apply ck_v3_cross|opg; fit|]. apply grv_eq. opg. f_equal; ring.
  - unfold v3_max_dimension, grv. cbn [vx vy vz e_lt i64]. now rewrite !ltg.
Qed.
Lemma extg a b : k * a - k * b = k * (a - b). Proof. ring. Qed.
Lemma measures_grown a a' : grown_box k a a' ->
  grows (grown_vec k) (b3_diagonal (i64 true) a) (b3_diagonal (i64 true) a') /\ grows (times (k * k)) (b3_surface_area (i64 true) a) (b3_surface_area (i64 true) a') /\
  grows (times (k * k * k)) (b3_volume (i64 true) a) (b3_volume (i64 true) a') /\ grows eq (b3_maximum_extent (i64 true) a) (b3_maximum_extent (i64 true) a').
Proof.
  rewrite !grb_eq. intros ->. repeat split.
  - eapply (grows_of _ (fun c => b3_diagonal (i64 c) _) (fun c => b3_diagonal (i64 c) _)); [apply ck_diagonal|apply ck_diagonal|opg; fit|]. apply grv_eq. opg. f_equal; ring.
  - eapply (grows_of _ (fun c => b3_surface_area (i64 c) _) (fun c => b3_surface_area (i64 c) _)); [apply ck_area|apply ck_area|opg; fit|]. unfold times. opg. ring.
  - eapply (grows_of _ (fun c => b3_volume (i64 c) _) (fun c => b3_volume (i64 c) _)); [apply ck_volume|apply ck_volume|opg; fit|]. unfold times. opg. ring.
  - eapply (grows_of _ (fun c => b3_maximum_extent (i64 c) _) (fun c => b3_maximum_extent (i64 c) _)); [apply ck_extent|apply ck_extent|opg; fit|].
    unfold longestZ. opg. now rewrite !extg, !ltg.
Qed.
Lemma expand_grown a a' d : grown_box k a a' -> grows (grown_box k) (b3_expand (i64 true) a d) (b3_expand (i64 true) a' (k * d)).
Proof.
  rewrite !grb_eq. intros ->. eapply (grows_of _ (fun c => b3_expand (i64 c) _ _) (fun c => b3_expand (i64 c) _ _)); [apply ck_expand|apply ck_expand|unfold diagZ; opg; fit|].
  apply grb_eq. unfold spanZ, zipv, pnt_of, diagZ. opg. rewrite !extg, <- !Z.mul_add_distr_l, !ming, !maxg. reflexivity.
Qed.
Lemma mul_grows p p' : p3_mul (i64 true) p k = Done p' -> grown_pt k p p'.
Proof.
  destruct (ck_p3_mul p k) as [C P]. destruct (all_fit (steps_of (scaleZ k (loc p)))) as [Q|Q]; [rewrite C by exact Q | rewrite P by exact Q; discriminate].
  intros E. injection E as <-. intros []; reflexivity.
Qed.
Lemma place_grown p lo hi : placeZ (k * p) (k * lo) (k * hi) = if lo <? hi then placeZ p lo hi else k * placeZ p lo hi.
Proof.
  unfold placeZ. rewrite ltg, !extg. destruct (lo <? hi) eqn:Q; [|reflexivity]. apply Z.ltb_lt in Q. apply Z.quot_mul_cancel_l; lia.
Qed.
Lemma offset_grown a a' p p' : grown_box k a a' -> grown_pt k p p' ->
  grows (fun o o' => forall i, vcoord i o' = if coord i (b_min a) <? coord i (b_max a) then vcoord i o else k * vcoord i o)
    (b3_offset (i64 true) a p) (b3_offset (i64 true) a' p').
Proof.
  rewrite grb_eq, grp_eq. intros -> ->. eapply (grows_of _ (fun c => b3_offset (i64 c) _ _) (fun c => b3_offset (i64 c) _ _)); [apply ck_offset|apply ck_offset| |].
  - unfold offset_steps, width. opg. rewrite !ltg.
    destruct (px (b_min a) <? px (b_max a)), (py (b_min a) <? py (b_max a)), (pz (b_min a) <? pz (b_max a)); fit.
  - unfold offsetZ. opg. rewrite !place_grown. intros []; reflexivity.
Qed.
End G.
Lemma extent_wraps : exists k a a' e e', 1 <= k /\ box_range a /\ box_range a' /\ grown_box k a a' /\
  b3_maximum_extent (i64 false) a = Done e /\ b3_maximum_extent (i64 false) a' = Done e' /\ e <> e'.
Proof.
  exists (2 ^ 62), (bx (-1) 0 0 1 1 1), (bx (- 2 ^ 62) 0 0 (2 ^ 62) (2 ^ 62) (2 ^ 62)). do 2 eexists.
  split; [lia|]. split; [intros []; split; reflexivity|]. split; [intros []; split; reflexivity|]. split; [split; intros []; reflexivity|].
  split; [vm_compute; reflexivity|]. split; [vm_compute; reflexivity|]. discriminate.
Qed.
