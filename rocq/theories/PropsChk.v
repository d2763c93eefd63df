(** Property theorems about integer geometry and overflow checks: C123. Nothing but statements, examples and [Print Assumptions]. *)
From Coq Require Import ZArith.
From Verif Require Import Base Elem GeoModel MatModel GeoSpec MatSpec ArithSpec ChkSpec ChkProofs.
Local Open Scope Z_scope.

(** ** C123: on integers, exactly when overflow checks panic, and what happens without them *)
(** What [checked] says: the build with checks panics exactly if a step does not fit; if it returns, the build without checks
    returns the same. *)
Theorem C123_meaning : forall A (o : bool -> out A) steps x, checked o steps x ->
  (o true = Panic <-> Exists (fun z => ~ fits z) steps) /\ (forall y, o true = Done y -> y = x /\ o false = Done y).
Proof. exact @ck_meaning. Qed.
Print Assumptions C123_meaning.
Theorem C123_points : forall p q v s,
  checked (fun chk => p3_add (i64 chk) p v) (steps_of (addZ (loc p) v)) (pnt_of (addZ (loc p) v)) /\
  checked (fun chk => p3_sub_v (i64 chk) p v) (steps_of (subZ (loc p) v)) (pnt_of (subZ (loc p) v)) /\
  checked (fun chk => p3_sub (i64 chk) p q) (steps_of (subZ (loc p) (loc q))) (subZ (loc p) (loc q)) /\
  checked (fun chk => p3_mul (i64 chk) p s) (steps_of (scaleZ s (loc p))) (pnt_of (scaleZ s (loc p))).
Proof. intros p q v s. exact (conj (ck_p3_add p v) (conj (ck_p3_sub_v p v) (conj (ck_p3_sub p q) (ck_p3_mul p s)))). Qed.
Print Assumptions C123_points.
(** The absolute value of the least integer does not fit. *)
Theorem C123_abs : forall p q, Forall fits (steps_of (loc p)) -> fits (p2x q) -> fits (p2y q) ->
  checked (fun chk => p3_abs (i64 chk) p) (steps_of (mapv Z.abs (loc p))) (pnt_of (mapv Z.abs (loc p))) /\
  checked (fun chk => p2_abs (i64 chk) q) [Z.abs (p2x q); Z.abs (p2y q)] (P2 (Z.abs (p2x q)) (Z.abs (p2y q))).
Proof. intros p q Hp Hx Hy. exact (conj (ck_p3_abs p Hp) (ck_p2_abs q Hx Hy)). Qed.
Print Assumptions C123_abs.
Theorem C123_vectors : forall u v s,
  checked (fun chk => v3_add (i64 chk) u v) (steps_of (addZ u v)) (addZ u v) /\
  checked (fun chk => v3_sub (i64 chk) u v) (steps_of (subZ u v)) (subZ u v) /\
  checked (fun chk => v3_mul (i64 chk) u s) (steps_of (scaleZ s u)) (scaleZ s u) /\
  checked (fun chk => v3_neg (i64 chk) u) (steps_of (negZ u)) (negZ u) /\
  checked (fun chk => v3_dot (i64 chk) u v) (dot_steps u v) (dotZ u v) /\
  checked (fun chk => v3_len_sq (i64 chk) u) (dot_steps u u) (dotZ u u) /\
  checked (fun chk => v3_cross (i64 chk) u v) (cross_steps u v) (crossZ u v) /\
  checked (fun chk => v3_face_forward (i64 chk) u v) (dot_steps u v ++ if dotZ u v <? 0 then steps_of (negZ u) else [])
    (if dotZ u v <? 0 then negZ u else u).
Proof.
  intros u v s. exact (conj (ck_v3_add u v) (conj (ck_v3_sub u v) (conj (ck_v3_mul u s) (conj (ck_v3_neg u)
    (conj (ck_v3_dot u v) (conj (ck_v3_len_sq u) (conj (ck_v3_cross u v) (ck_v3_face u v)))))))).
Qed.
Print Assumptions C123_vectors.
(** The division of a two-dimensional vector multiplies. *)
Theorem C123_v2_div : forall v s, s <> 0 -> checked (fun chk => v2_div (i64 chk) v s) [v2x v * s; v2y v * s] (V2 (v2x v * s) (v2y v * s)).
Proof. exact ck_v2_div. Qed.
Print Assumptions C123_v2_div.
Theorem C123_normals : forall n m s, let u := vec_of n in let v := vec_of m in
  checked (fun chk => n3_add (i64 chk) n m) (steps_of (addZ u v)) (nrm_of (addZ u v)) /\
  checked (fun chk => n3_sub (i64 chk) n m) (steps_of (subZ u v)) (nrm_of (subZ u v)) /\
  checked (fun chk => n3_mul (i64 chk) n s) (steps_of (scaleZ s u)) (nrm_of (scaleZ s u)) /\
  checked (fun chk => n3_neg (i64 chk) n) (steps_of (negZ u)) (nrm_of (negZ u)) /\
  checked (fun chk => n3_dot (i64 chk) n m) (dot_steps u v) (dotZ u v) /\
  checked (fun chk => n3_len_sq (i64 chk) n) (dot_steps u u) (dotZ u u) /\
  checked (fun chk => n3_cross (i64 chk) n m) (cross_steps u v) (nrm_of (crossZ u v)) /\
  checked (fun chk => n3_face_forward (i64 chk) n m) (dot_steps u v ++ if dotZ u v <? 0 then steps_of (negZ u) else [])
    (if dotZ u v <? 0 then nrm_of (negZ u) else n).
Proof.
  intros n m s. exact (conj (ck_n3_add n m) (conj (ck_n3_sub n m) (conj (ck_n3_mul n s) (conj (ck_n3_neg n)
    (conj (ck_n3_dot n m) (conj (ck_n3_len_sq n) (conj (ck_n3_cross n m) (ck_n3_face n m)))))))).
Qed.
Print Assumptions C123_normals.
(** Boxes. The names of the longest axis are compared on the exact extents. *)
Theorem C123_boxes : forall b d,
  checked (fun chk => b3_diagonal (i64 chk) b) (steps_of (exts b)) (exts b) /\
  checked (fun chk => b3_maximum_extent (i64 chk) b) (steps_of (exts b)) (longestZ b) /\
  checked (fun chk => b3_surface_area (i64 chk) b) (area_steps b) (areaZ b) /\
  checked (fun chk => b3_volume (i64 chk) b) (volume_steps b) (volumeZ b) /\
  checked (fun chk => b3_expand (i64 chk) b d)
    (steps_of (subZ (loc (b_min b)) (diagZ d)) ++ steps_of (addZ (loc (b_max b)) (diagZ d)))
    (spanZ (subZ (loc (b_min b)) (diagZ d)) (addZ (loc (b_max b)) (diagZ d))).
Proof. intros b d. exact (conj (ck_diagonal b) (conj (ck_extent b) (conj (ck_area b) (conj (ck_volume b) (ck_expand b d))))). Qed.
Print Assumptions C123_boxes.
(** For an ordered box, the area is returned exactly if the extents and the area fit. *)
Theorem C123_area : forall b, orderedZ b -> checked (fun chk => b3_surface_area (i64 chk) b) (steps_of (exts b) ++ [areaZ b]) (areaZ b).
Proof. exact ck_area_ordered. Qed.
Print Assumptions C123_area.
(** The offset of a point: in whole widths of the axes that have a width, rounded towards the lower corner. *)
Theorem C123_offset : forall b p, checked (fun chk => b3_offset (i64 chk) b p) (offset_steps b p) (offsetZ b p).
Proof. exact ck_offset. Qed.
Print Assumptions C123_offset.
(** So on integers the offset of a point of the box is 0, or 1 on the upper face of an axis that has a width. *)
Theorem C123_offset_inside : forall p lo hi, lo <= p <= hi -> placeZ p lo hi = if (p =? hi) && (lo <? hi) then 1 else 0.
Proof. exact placeZ_inside. Qed.
Print Assumptions C123_offset_inside.
(** Matrices: the products of the entries and the partial sums. *)
Theorem C123_matrices : forall a b,
  checked (fun chk => m4_mul (i64 chk) a b) (prod_steps a b) (prodZ a b) /\
  checked (fun chk => m4_add (i64 chk) a b) (sum_steps a b) (sumZ a b).
Proof. intros a b. exact (conj (ck_mul a b) (ck_add a b)). Qed.
Print Assumptions C123_matrices.
(** Division panics in both builds, exactly for 0, and for -1 with a coordinate -2^63. *)
Theorem C123_division : forall chk p v n s, Forall fits (steps_of (loc p)) -> Forall fits (steps_of v) -> Forall fits (steps_of (vec_of n)) ->
  ((no_div (loc p) s -> p3_div (i64 chk) p s = Panic) /\ (~ no_div (loc p) s -> p3_div (i64 chk) p s = Done (pnt_of (mapv (fun z => Z.quot z s) (loc p))))) /\
  ((no_div v s -> v3_div (i64 chk) v s = Panic) /\ (~ no_div v s -> v3_div (i64 chk) v s = Done (mapv (fun z => Z.quot z s) v))) /\
  ((no_div (vec_of n) s -> n3_div (i64 chk) n s = Panic) /\
   (~ no_div (vec_of n) s -> n3_div (i64 chk) n s = Done (nrm_of (mapv (fun z => Z.quot z s) (vec_of n))))).
Proof. intros chk p v n s Hp Hv Hn. exact (conj (div_p3 chk p s Hp) (conj (div_v3 chk v s Hv) (div_n3 chk n s Hn))). Qed.
Print Assumptions C123_division.
(** Without checks, everything but a division has a result. *)
Theorem C123_unchecked : forall p q u v n m s b a c,
  (no_panic (p3_add (i64 false) p u) /\ no_panic (p3_sub_v (i64 false) p u) /\ no_panic (p3_sub (i64 false) p q) /\
   no_panic (p3_mul (i64 false) p s) /\ no_panic (p3_abs (i64 false) p)) /\
  (no_panic (v3_add (i64 false) u v) /\ no_panic (v3_sub (i64 false) u v) /\ no_panic (v3_mul (i64 false) u s) /\ no_panic (v3_neg (i64 false) u) /\
   no_panic (v3_dot (i64 false) u v) /\ no_panic (v3_len_sq (i64 false) u) /\ no_panic (v3_cross (i64 false) u v) /\ no_panic (v3_face_forward (i64 false) u v)) /\
  (no_panic (n3_add (i64 false) n m) /\ no_panic (n3_sub (i64 false) n m) /\ no_panic (n3_mul (i64 false) n s) /\ no_panic (n3_neg (i64 false) n) /\
   no_panic (n3_dot (i64 false) n m) /\ no_panic (n3_len_sq (i64 false) n) /\ no_panic (n3_cross (i64 false) n m) /\ no_panic (n3_face_forward (i64 false) n m)) /\
  (no_panic (b3_diagonal (i64 false) b) /\ no_panic (b3_surface_area (i64 false) b) /\ no_panic (b3_volume (i64 false) b) /\
   no_panic (b3_maximum_extent (i64 false) b) /\ no_panic (b3_expand (i64 false) b s)) /\
  (no_panic (m4_mul (i64 false) a c) /\ no_panic (m4_add (i64 false) a c)).
Proof.
  intros p q u v n m s b a c.
  exact (conj (np_points p q u s) (conj (np_vectors u v s) (conj (np_normals n m s) (conj (np_boxes b s) (np_mats a c))))).
Qed.
Print Assumptions C123_unchecked.
(** The offset divides; without checks it panics exactly if an axis of the box is all of i64 and the point lies at 0 there. *)
Theorem C123_unchecked_offset : forall b p, (forall i, fits (coord i p)) -> (forall i, fits (coord i (b_min b)) /\ fits (coord i (b_max b))) ->
  (b3_offset (i64 false) b p = Panic <-> exists i, coord i p = 0 /\ coord i (b_min b) = - 2 ^ 63 /\ coord i (b_max b) = 2 ^ 63 - 1).
Proof. exact offset_release. Qed.
Print Assumptions C123_unchecked_offset.
(** So the box of [new_inf] (whose corners [new] sorts) and the origin: a panic in every build. *)
Theorem C123_inf_offset_refuted : exists b p, b3_new_inf (i64 false) = Done b /\ forall chk, b3_offset (i64 chk) b p = Panic.
Proof. eexists. exists (P3 0 0 0). split; [vm_compute; reflexivity|]. intros []; vm_compute; reflexivity. Qed.
Print Assumptions C123_inf_offset_refuted.
(** Without checks, volume and area of an ordered box can be negative, *)
Theorem C123_unchecked_measure_refuted : exists b x y, orderedZ b /\ b3_volume (i64 false) b = Done x /\ b3_surface_area (i64 false) b = Done y /\ x < 0 /\ y < 0.
Proof.
  exists (B3 (P3 0 0 0) (P3 (2 ^ 31) (2 ^ 31) 2)). do 2 eexists.
  split; [intros []; vm_compute; discriminate|]. split; [vm_compute; reflexivity|]. split; [vm_compute; reflexivity|]. split; reflexivity.
Qed.
Print Assumptions C123_unchecked_measure_refuted.
(** the axis named longest can be shorter than another, *)
Theorem C123_unchecked_extent_refuted : exists b, orderedZ b /\ b3_maximum_extent (i64 false) b = Done 1%nat /\ extZ b AY < extZ b AX.
Proof. exists (B3 (P3 (- 2 ^ 63) 0 0) (P3 (2 ^ 63 - 1) 1 0)). split; [intros []; vm_compute; discriminate|]. split; reflexivity. Qed.
Print Assumptions C123_unchecked_extent_refuted.
(** and an expanded box can lose the points it had. *)
Theorem C123_unchecked_expand_refuted : exists b b' p, b3_expand (i64 false) b 1 = Done b' /\ b3_inside (i64 false) b p = true /\ b3_inside (i64 false) b' p = false.
Proof.
  exists (B3 (P3 0 0 0) (P3 (2 ^ 63 - 1) 1 1)). eexists. exists (P3 0 0 0). split; [vm_compute; reflexivity|]. split; reflexivity.
Qed.
Print Assumptions C123_unchecked_expand_refuted.
Example C123_example :
  let b := B3 (P3 0 0 (-5)) (P3 (2 ^ 31) (2 ^ 30) 5) in
  orderedZ b /\ Forall fits (steps_of (exts b) ++ [areaZ b]) /\ ~ Forall fits (volume_steps (B3 (P3 0 0 0) (P3 (2 ^ 31) (2 ^ 31) 2))) /\
  offsetZ b (P3 (2 ^ 31) 7 (-30)) = V3 1 0 (-2) /\ b3_offset (i64 true) b (P3 (2 ^ 31) 7 (-30)) = Done (V3 1 0 (-2)) /\
  ~ no_div (V3 7 (-7) 0) (-2) /\ v3_div (i64 true) (V3 7 (-7) 0) (-2) = Done (V3 (-3) 3 0).
Proof.
  cbv zeta. split; [intros []; vm_compute; discriminate|]. split; [cbn; repeat constructor; unfold fits; vm_compute; discriminate|].
  split; [intros H; apply Forall_forall with (x := 2 ^ 63) in H; [unfold fits in H; destruct H as [_ H]; vm_compute in H; now apply H|vm_compute; tauto]|].
  split; [reflexivity|]. split; [reflexivity|]. split; [|reflexivity]. unfold no_div. intros [H|[H _]]; discriminate H.
Qed.
