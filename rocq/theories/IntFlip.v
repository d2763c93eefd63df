(** Proofs about C144: the mirror image of an integer scene. *)
From Coq Require Import ZArith Reals List Lia.
From Verif Require Import Base Elem GeoModel GeoSpec MatSpec ArithSpec AxesSpec ShiftSpec FlipSpec IntShift.
Local Open Scope mon_scope.
Local Open Scope Z_scope.

Lemma be (a b c d e g a' b' c' d' e' g' : Z) : a = a' -> b = b' -> c = c' -> d = d' -> e = e' -> g = g' -> Done (B3 (P3 a b c) (P3 d e g)) = Done (B3 (P3 a' b' c') (P3 d' e' g')).
Proof. congruence. Qed.
Section F.
Context (S : axis -> bool).
Notation fl := (flip S).
Definition flp (p : Point3 Z) : Point3 Z := P3 (fl AX (px p)) (fl AY (py p)) (fl AZ (pz p)).
Definition flv (p : Vector3 Z) : Vector3 Z := V3 (fl AX (vx p)) (fl AY (vy p)) (fl AZ (vz p)).
Definition flb (b : Bounds3 Z) : Bounds3 Z :=
  B3 (P3 (fl AX (if S AX then px (b_max b) else px (b_min b))) (fl AY (if S AY then py (b_max b) else py (b_min b))) (fl AZ (if S AZ then pz (b_max b) else pz (b_min b))))
     (P3 (fl AX (if S AX then px (b_min b) else px (b_max b))) (fl AY (if S AY then py (b_min b) else py (b_max b))) (fl AZ (if S AZ then pz (b_min b) else pz (b_max b)))).
Lemma flp_eq p p' : flip_pt S p p' <-> p' = flp p.
Proof.
  split; [|intros -> []; reflexivity]. intros H. pose proof (H AX) as X. pose proof (H AY) as Y. pose proof (H AZ) as Z. destruct p'. cbn in *. unfold flp. congruence.
Qed.
Lemma flv_eq p p' : flip_vec S p p' <-> p' = flv p.
Proof.
  split; [|intros -> []; reflexivity]. intros H. pose proof (H AX) as X. pose proof (H AY) as Y. pose proof (H AZ) as Z. destruct p'. cbn in *. unfold flv. congruence.
Qed.
Lemma flb_eq b b' : flip_box S b b' <-> b' = flb b.
Proof.
  split.
  - intros H. destruct (H AX) as [X X'], (H AY) as [Y Y'], (H AZ) as [Z Z']. destruct b' as [[x1 x2 x3] [y1 y2 y3]]. cbn [coord b_min b_max px py pz] in *. unfold flb.
    destruct (S AX), (S AY), (S AZ); cbn [coord] in *; congruence.
  - intros -> []; unfold flb; cbn [coord b_min b_max px py pz]; [destruct (S AX)|destruct (S AY)|destruct (S AZ)]; auto.
Qed.
Lemma lef a b : (- a <=? - b) = (b <=? a).
Proof. destruct (b <=? a) eqn:Q; [apply Z.leb_le in Q; apply Z.leb_le | apply Z.leb_gt in Q; apply Z.leb_gt]; lia. Qed.
Lemma sfb i a b : fl i (if S i then a else b) - fl i (if S i then b else a) = b - a.
Proof. unfold flip. destruct (S i); lia. Qed.
Lemma alike_fb m b : m = Done b -> forall m', m' = Done (flb b) -> alike (flip_box S) m m'.
Proof. intros -> m' ->. left. exists b, (flb b). rewrite flb_eq. auto. Qed.
Ltac mm := unfold mk3, flb, flp; cbn [b_min b_max px py pz]; repeat progress (rewrite ?pmin_z, ?pmax_z; cbn [obind b_min b_max px py pz]).
Ltac fx := apply be; unfold flip; repeat match goal with |- context [S ?i] => destruct (S i) end; lia.
Lemma boxes_flipped chk a b p q a' b' p' q' : flip_box S a a' -> flip_box S b b' -> flip_pt S p p' -> flip_pt S q q' ->
  alike (flip_box S) (b3_new (i64 chk) p q) (b3_new (i64 chk) p' q') /\
  alike (flip_box S) (b3_new_pt (i64 chk) p) (b3_new_pt (i64 chk) p') /\
  alike (flip_box S) (b3_union (i64 chk) a b) (b3_union (i64 chk) a' b') /\
  alike (flip_box S) (b3_union_pt (i64 chk) a p) (b3_union_pt (i64 chk) a' p') /\
  alike (flip_box S) (b3_intersect (i64 chk) a b) (b3_intersect (i64 chk) a' b').
Proof.
  rewrite !flb_eq, !flp_eq. intros -> -> -> ->. unfold b3_new_pt, b3_union, b3_union_pt, b3_intersect, b3_new.
  repeat split; (eapply alike_fb; [mm; reflexivity | mm; fx]).
Qed.
Lemma tests_flipped chk a b p a' b' p' : flip_box S a a' -> flip_box S b b' -> flip_pt S p p' ->
  b3_inside (i64 chk) a' p' = b3_inside (i64 chk) a p /\ b3_overlaps (i64 chk) a' b' = b3_overlaps (i64 chk) a b.
Proof.
  rewrite !flb_eq, !flp_eq. intros -> -> ->. unfold b3_inside, b3_overlaps, flb, flp, flip.
  cbn [px py pz b_min b_max e_le i64]. split; destruct (S AX), (S AY), (S AZ); rewrite ?lef;
  repeat match goal with |- context [?x <=? ?y] => destruct (x <=? y) end; reflexivity.
Qed.
Lemma measures_flipped chk a a' : flip_box S a a' ->
  b3_diagonal (i64 chk) a' = b3_diagonal (i64 chk) a /\ b3_volume (i64 chk) a' = b3_volume (i64 chk) a /\
  b3_surface_area (i64 chk) a' = b3_surface_area (i64 chk) a /\ b3_maximum_extent (i64 chk) a' = b3_maximum_extent (i64 chk) a.
Proof.
  rewrite !flb_eq. intros ->.
  assert (D : b3_diagonal (i64 chk) (flb a) = b3_diagonal (i64 chk) a).
  { unfold b3_diagonal, p3_sub, mk3, lift2, flb. cbn [obind e_sub i64 px py pz b_min b_max]. now rewrite !sfb. }
  unfold b3_volume, b3_surface_area, b3_maximum_extent. now rewrite D.
Qed.
Lemma mulf i a b : fl i a * fl i b = a * b. Proof. unfold flip. destruct (S i); lia. Qed.
Lemma vectors_flipped chk u v u' v' : flip_vec S u u' -> flip_vec S v v' ->
  v3_dot (i64 chk) u' v' = v3_dot (i64 chk) u v /\ v3_len_sq (i64 chk) u' = v3_len_sq (i64 chk) u.
Proof. rewrite !flv_eq. intros -> ->. unfold v3_dot, v3_len_sq, lift2, flv. cbn [obind e_mul e_add i64 vx vy vz]. now rewrite !mulf. Qed.
Lemma expand_flipped chk a a' d : flip_box S a a' -> room a d -> room a' d -> alike (flip_box S) (b3_expand (i64 chk) a d) (b3_expand (i64 chk) a' d).
Proof.
  rewrite flb_eq. intros -> R R'. rewrite (expand_val chk a d R), (expand_val chk _ d R'). unfold b3_new.
  eapply alike_fb; [mm; reflexivity|]. mm. fx.
Qed.
End F.
Lemma exclusive_flips : exists S a a' p p', flip_box S a a' /\ flip_pt S p p' /\
  b3_inside_exclusive (i64 true) a p = true /\ b3_inside_exclusive (i64 true) a' p' = false.
Proof.
  exists (fun _ => true), (bx 0 0 0 1 1 1), (bx (-1) (-1) (-1) 0 0 0), (P3 0 0 0), (P3 0 0 0).
  split; [intros []; split; reflexivity|]. split; [intros []; reflexivity|]. split; reflexivity.
Qed.
Lemma extent_flips_not : exists S u u', flip_vec S u u' /\ v3_max_dimension (i64 true) u <> v3_max_dimension (i64 true) u'.
Proof. exists (fun _ => true), (V3 1 2 3), (V3 (-1) (-2) (-3)). split; [intros []; reflexivity|]. discriminate. Qed.
