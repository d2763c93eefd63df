(** Proofs for C123. *)
From Coq Require Import ZArith Lia.
From Verif Require Import Base Elem GeoModel MatModel GeoSpec MatSpec ArithSpec IntThms ChkSpec.
Local Open Scope Z_scope.

Lemma fits_range z : fits z <-> in_range z = true.
Proof. unfold fits, in_range, int_min, int_max. lia. Qed.
Lemma fits_dec z : {fits z} + {~ fits z}.
Proof. destruct (in_range z) eqn:E; [left; now apply fits_range|right; rewrite fits_range, E; discriminate]. Qed.
Lemma all_fit_dec l : {Forall fits l} + {~ Forall fits l}.
Proof. apply Forall_dec, fits_dec. Qed.
Lemma arith_fits chk z : fits z -> arith chk z = Done z.
Proof. intros H. apply arith_in. now apply fits_range. Qed.
Lemma arith_not z : ~ fits z -> arith true z = Panic.
Proof. intros H. unfold arith. destruct (in_range z) eqn:E; [exfalso; now apply H, fits_range|reflexivity]. Qed.

Section Rules.
Context {A : Type}.
Lemma ck_arith z (k : bool -> Z -> out A) s x : checked (fun chk => k chk z) s x -> checked (fun chk => obind (arith chk z) (k chk)) (z :: s) x.
Proof.
  intros [H1 H2]. split.
  - intros H chk. inversion H; subst. rewrite arith_fits by assumption. cbn. auto.
  - intros H. destruct (fits_dec z) as [Hz|Hz]; [|now rewrite arith_not]. rewrite arith_fits by assumption. cbn. apply H2. intros Hs. apply H. now constructor.
Qed.
Lemma ck_done (x : A) : checked (fun _ => Done x) [] x.
Proof. split; [reflexivity|]. intros H. exfalso. apply H. constructor. Qed.
Lemma ck_pure {B} (a : B) (k : bool -> B -> out A) s x : checked (fun chk => k chk a) s x -> checked (fun chk => obind (Done a) (k chk)) s x.
Proof. auto. Qed.
Lemma ck_assoc {B C} (m : bool -> out B) (f : bool -> B -> out C) (g : bool -> C -> out A) s x :
  checked (fun chk => obind (m chk) (fun a => obind (f chk a) (g chk))) s x -> checked (fun chk => obind (obind (m chk) (f chk)) (g chk)) s x.
Proof.
  intros [H1 H2]. split; [intros H chk; rewrite <- (H1 H chk)|intros H; rewrite <- (H2 H)].
  - destruct (m chk); reflexivity.
  - destruct (m true); reflexivity.
Qed.
Lemma ck_conv (o o' : bool -> out A) s s' x x' : checked o s x -> (forall chk, o' chk = o chk) -> s' = s -> x' = x -> checked o' s' x'.
Proof. intros [H1 H2] Ho -> ->. split; [intros H chk; rewrite Ho; auto|intros H; rewrite Ho; auto]. Qed.
(** Steps may be left out if they fit when the others do. *)
Lemma ck_fewer (o : bool -> out A) s s' x : checked o s x -> (Forall fits s <-> Forall fits s') -> checked o s' x.
Proof. intros [H1 H2] H. split; intros K; [apply H1|apply H2]; rewrite H; assumption. Qed.
Lemma ck_panic (o : bool -> out A) s x : checked o s x -> (o true = Panic <-> Exists (fun z => ~ fits z) s).
Proof.
  intros [H1 H2]. split.
  - intros E. apply neg_Forall_Exists_neg; [exact fits_dec|]. intros H. rewrite (H1 H true) in E. discriminate E.
  - intros E. apply H2. intros H. apply Exists_exists in E as [z [Hz Hn]]. rewrite Forall_forall in H. now apply Hn, H.
Qed.
End Rules.
Lemma ck_last z : checked (fun chk => arith chk z) [z] z.
Proof.
  split.
  - intros H chk. inversion H; subst. now apply arith_fits.
  - intros H. apply arith_not. intros K. apply H. constructor; [assumption|constructor].
Qed.
(** Using one computation in another. *)
Lemma ck_bind {A B} (m : bool -> out A) (k : bool -> A -> out B) s a t x :
  checked m s a -> checked (fun chk => k chk a) t x -> checked (fun chk => obind (m chk) (k chk)) (s ++ t) x.
Proof.
  intros [H1 H2] [K1 K2]. split.
  - intros H chk. apply Forall_app in H as [Hs Ht]. rewrite (H1 Hs). cbn. auto.
  - intros H. destruct (all_fit_dec s) as [Hs|Hs]; [|rewrite (H2 Hs); reflexivity]. rewrite (H1 Hs). cbn. apply K2. intros Ht. apply H. now apply Forall_app.
Qed.
Ltac ck_red := cbv beta iota zeta delta [mk3 mk2 lift2 e_add e_sub e_mul e_neg e_from_int i64].
Ltac ck := repeat first [apply ck_done | apply ck_last | apply ck_assoc | apply ck_pure | apply ck_arith].


Ltac ck_go := ck_red; cbn [vx vy vz px py pz nx ny nz p2x p2y v2x v2y]; ck.
Ltac ck_unf := unfold steps_of, addZ, subZ, scaleZ, negZ, pnt_of, nrm_of, vec_of, loc, dotZ, crossZ, dot_steps, cross_steps; cbn [vx vy vz px py pz nx ny nz].

Lemma ck_p3_add p v : checked (fun chk => p3_add (i64 chk) p v) (steps_of (addZ (loc p) v)) (pnt_of (addZ (loc p) v)).
Proof. unfold p3_add. ck_unf. ck_go. Qed.
Lemma ck_p3_sub_v p v : checked (fun chk => p3_sub_v (i64 chk) p v) (steps_of (subZ (loc p) v)) (pnt_of (subZ (loc p) v)).
Proof. unfold p3_sub_v. ck_unf. ck_go. Qed.
Lemma ck_p3_sub p q : checked (fun chk => p3_sub (i64 chk) p q) (steps_of (subZ (loc p) (loc q))) (subZ (loc p) (loc q)).
Proof. unfold p3_sub. ck_unf. ck_go. Qed.
Lemma ck_p3_mul p s : checked (fun chk => p3_mul (i64 chk) p s) (steps_of (scaleZ s (loc p))) (pnt_of (scaleZ s (loc p))).
Proof. unfold p3_mul. ck_unf. ck_go. Qed.
Lemma ck_v3_add u v : checked (fun chk => v3_add (i64 chk) u v) (steps_of (addZ u v)) (addZ u v).
Proof. unfold v3_add. ck_unf. ck_go. Qed.
Lemma ck_v3_sub u v : checked (fun chk => v3_sub (i64 chk) u v) (steps_of (subZ u v)) (subZ u v).
Proof. unfold v3_sub. ck_unf. ck_go. Qed.
Lemma ck_v3_mul v s : checked (fun chk => v3_mul (i64 chk) v s) (steps_of (scaleZ s v)) (scaleZ s v).
Proof. unfold v3_mul. ck_unf. ck_go. Qed.
Lemma ck_v3_neg v : checked (fun chk => v3_neg (i64 chk) v) (steps_of (negZ v)) (negZ v).
Proof. unfold v3_neg. ck_unf. ck_go. Qed.
Lemma ck_v3_dot u v : checked (fun chk => v3_dot (i64 chk) u v) (dot_steps u v) (dotZ u v).
Proof. unfold v3_dot. ck_unf. ck_go. Qed.
Lemma ck_v3_len_sq v : checked (fun chk => v3_len_sq (i64 chk) v) (dot_steps v v) (dotZ v v).
Proof. unfold v3_len_sq. ck_unf. ck_go. Qed.
Lemma ck_v3_cross u v : checked (fun chk => v3_cross (i64 chk) u v) (cross_steps u v) (crossZ u v).
Proof. unfold v3_cross. ck_unf. ck_go. Qed.
Lemma ck_n3_add u v : checked (fun chk => n3_add (i64 chk) u v) (steps_of (addZ (vec_of u) (vec_of v))) (nrm_of (addZ (vec_of u) (vec_of v))).
Proof. unfold n3_add. ck_unf. ck_go. Qed.
Lemma ck_n3_sub u v : checked (fun chk => n3_sub (i64 chk) u v) (steps_of (subZ (vec_of u) (vec_of v))) (nrm_of (subZ (vec_of u) (vec_of v))).
Proof. unfold n3_sub. ck_unf. ck_go. Qed.
Lemma ck_n3_mul v s : checked (fun chk => n3_mul (i64 chk) v s) (steps_of (scaleZ s (vec_of v))) (nrm_of (scaleZ s (vec_of v))).
Proof. unfold n3_mul. ck_unf. ck_go. Qed.
Lemma ck_n3_neg v : checked (fun chk => n3_neg (i64 chk) v) (steps_of (negZ (vec_of v))) (nrm_of (negZ (vec_of v))).
Proof. unfold n3_neg. ck_unf. ck_go. Qed.
Lemma ck_n3_dot u v : checked (fun chk => n3_dot (i64 chk) u v) (dot_steps (vec_of u) (vec_of v)) (dotZ (vec_of u) (vec_of v)).
Proof. unfold n3_dot. ck_unf. ck_go. Qed.
Lemma ck_n3_len_sq v : checked (fun chk => n3_len_sq (i64 chk) v) (dot_steps (vec_of v) (vec_of v)) (dotZ (vec_of v) (vec_of v)).
Proof. unfold n3_len_sq. ck_unf. ck_go. Qed.
Lemma ck_n3_cross u v : checked (fun chk => n3_cross (i64 chk) u v) (cross_steps (vec_of u) (vec_of v)) (nrm_of (crossZ (vec_of u) (vec_of v))).
Proof. unfold n3_cross. ck_unf. ck_go. Qed.
(** Turning a vector: [dot < 0] decides whether the negation is computed. *)
Lemma ck_v3_face u v : checked (fun chk => v3_face_forward (i64 chk) u v)
  (dot_steps u v ++ if dotZ u v <? 0 then steps_of (negZ u) else []) (if dotZ u v <? 0 then negZ u else u).
Proof.
  unfold v3_face_forward.
  apply (ck_bind (fun chk => v3_dot (i64 chk) u v) (fun chk d => if e_lt (i64 chk) d (e_from_int (i64 chk) 0) then v3_neg (i64 chk) u else Done u)) with (1 := ck_v3_dot u v).
  cbn [e_lt e_from_int i64]. destruct (dotZ u v <? 0); [apply ck_v3_neg|apply ck_done].
Qed.
Lemma ck_n3_face u v : checked (fun chk => n3_face_forward (i64 chk) u v)
  (dot_steps (vec_of u) (vec_of v) ++ if dotZ (vec_of u) (vec_of v) <? 0 then steps_of (negZ (vec_of u)) else [])
  (if dotZ (vec_of u) (vec_of v) <? 0 then nrm_of (negZ (vec_of u)) else u).
Proof.
  unfold n3_face_forward.
  apply (ck_bind (fun chk => n3_dot (i64 chk) u v) (fun chk d => if e_lt (i64 chk) d (e_from_int (i64 chk) 0) then n3_neg (i64 chk) u else Done u)) with (1 := ck_n3_dot u v).
  cbn [e_lt e_from_int i64]. destruct (dotZ (vec_of u) (vec_of v) <? 0); [apply ck_n3_neg|apply ck_done].
Qed.
Lemma ck_abs z : fits z -> checked (fun chk => e_abs (i64 chk) z) [Z.abs z] (Z.abs z).
Proof.
  intros H. cbn [e_abs i64]. destruct (Z.ltb_spec z 0).
  - replace (Z.abs z) with (- z) by lia. apply ck_last.
  - replace (Z.abs z) with z by lia. apply (ck_fewer _ [] [z]); [apply ck_done|]. split; intros; [constructor; [assumption|constructor]|constructor].
Qed.
Lemma ck_p3_abs p : Forall fits (steps_of (loc p)) -> checked (fun chk => p3_abs (i64 chk) p) (steps_of (mapv Z.abs (loc p))) (pnt_of (mapv Z.abs (loc p))).
Proof.
  unfold steps_of, loc, mapv, pnt_of. cbn [vx vy vz]. intros H. inversion H as [|? ? Hx H1]; subst. inversion H1 as [|? ? Hy H2]; subst. inversion H2 as [|? ? Hz _]; subst.
  unfold p3_abs, mk3.
  apply (ck_bind (fun chk => e_abs (i64 chk) (px p)) _ [_]) with (1 := ck_abs _ Hx).
  apply (ck_bind (fun chk => e_abs (i64 chk) (py p)) _ [_]) with (1 := ck_abs _ Hy).
  apply (ck_bind (fun chk => e_abs (i64 chk) (pz p)) _ [_]) with (1 := ck_abs _ Hz).
  apply ck_done.
Qed.
Lemma ck_p2_abs p : fits (p2x p) -> fits (p2y p) -> checked (fun chk => p2_abs (i64 chk) p) [Z.abs (p2x p); Z.abs (p2y p)] (P2 (Z.abs (p2x p)) (Z.abs (p2y p))).
Proof.
  intros Hx Hy. unfold p2_abs, mk2.
  apply (ck_bind (fun chk => e_abs (i64 chk) (p2x p)) _ [_]) with (1 := ck_abs _ Hx).
  apply (ck_bind (fun chk => e_abs (i64 chk) (p2y p)) _ [_]) with (1 := ck_abs _ Hy).
  apply ck_done.
Qed.
Lemma ck_v2_div v s : s <> 0 -> checked (fun chk => v2_div (i64 chk) v s) [v2x v * s; v2y v * s] (V2 (v2x v * s) (v2y v * s)).
Proof.
  intros H. unfold v2_div. cbn [e_eq e_from_int i64]. destruct (Z.eqb_spec s 0); [easy|]. cbn [negb]. ck_go.
Qed.

(** Boxes *)
Lemma ck_diagonal b : checked (fun chk => b3_diagonal (i64 chk) b) (steps_of (exts b)) (exts b).
Proof. exact (ck_p3_sub (b_max b) (b_min b)). Qed.
Lemma ck_area b : checked (fun chk => b3_surface_area (i64 chk) b) (area_steps b) (areaZ b).
Proof.
  unfold b3_surface_area.
  change (area_steps b) with (steps_of (exts b) ++ tl (tl (tl (area_steps b)))).
  apply (ck_bind (fun chk => b3_diagonal (i64 chk) b) (fun chk d => lift2 (e_mul (i64 chk)) _ _)) with (1 := ck_diagonal b).
  unfold exts. ck_go.
Qed.
Lemma ck_volume b : checked (fun chk => b3_volume (i64 chk) b) (volume_steps b) (volumeZ b).
Proof.
  unfold b3_volume.
  change (volume_steps b) with (steps_of (exts b) ++ tl (tl (tl (volume_steps b)))).
  apply (ck_bind (fun chk => b3_diagonal (i64 chk) b) (fun chk d => lift2 (e_mul (i64 chk)) _ _)) with (1 := ck_diagonal b).
  unfold exts. ck_go.
Qed.

Lemma fits3 x y z l : Forall fits (x :: y :: z :: l) <-> fits x /\ fits y /\ fits z /\ Forall fits l.
Proof. split; [intros H; repeat (apply Forall_cons_iff in H as [? H]); auto|intros (? & ? & ? & ?); repeat (constructor; auto)]. Qed.
Lemma ext_pos b i : orderedZ b -> 0 <= extZ b i.
Proof. intros H. specialize (H i). unfold extZ. lia. Qed.
Lemma ck_area_ordered b : orderedZ b -> checked (fun chk => b3_surface_area (i64 chk) b) (steps_of (exts b) ++ [areaZ b]) (areaZ b).
Proof.
  intros H. apply (ck_fewer _ (area_steps b)); [apply ck_area|].
  unfold area_steps, steps_of, exts. cbn [vx vy vz app]. rewrite !fits3.
  pose proof (ext_pos b AX H) as Hx. pose proof (ext_pos b AY H) as Hy. pose proof (ext_pos b AZ H) as Hz.
  unfold areaZ. set (x := extZ b AX) in *. set (y := extZ b AY) in *. set (z := extZ b AZ) in *.
  assert (0 <= x * y) by nia. assert (0 <= x * z) by nia. assert (0 <= y * z) by nia.
  split.
  - intros (F1 & F2 & F3 & F4 & F5 & F6 & F7 & F8 & F9 & F10). repeat split; try apply F1; try apply F2; try apply F3. constructor; [exact F9|constructor].
  - intros (F1 & F2 & F3 & F). inversion F as [|? ? G _]; subst. unfold fits in G |- *. repeat split; try apply F1; try apply F2; try apply F3; try lia. constructor.
Qed.
Lemma ck_extent b : checked (fun chk => b3_maximum_extent (i64 chk) b) (steps_of (exts b))
  (longestZ b).
Proof.
  unfold b3_maximum_extent. rewrite <- (app_nil_r (steps_of (exts b))).
  apply (ck_bind (fun chk => b3_diagonal (i64 chk) b) (fun chk d => Done _)) with (1 := ck_diagonal b).
  cbn [e_lt i64]. apply ck_done.
Qed.
Lemma pmin2Z chk a b : pmin (i64 chk) [a; b] = Done (Z.min a b).
Proof. cbn. destruct (Z.ltb_spec b a); f_equal; lia. Qed.
Lemma pmax2Z chk a b : pmax (i64 chk) [a; b] = Done (Z.max a b).
Proof. cbn. destruct (Z.ltb_spec a b); f_equal; lia. Qed.
Lemma b3_newZ chk p q : b3_new (i64 chk) p q = Done (spanZ (loc p) (loc q)).
Proof. unfold b3_new, mk3. rewrite !pmin2Z, !pmax2Z. reflexivity. Qed.
Lemma ck_expand b d : checked (fun chk => b3_expand (i64 chk) b d)
  (steps_of (subZ (loc (b_min b)) (diagZ d)) ++ steps_of (addZ (loc (b_max b)) (diagZ d)))
  (spanZ (subZ (loc (b_min b)) (diagZ d)) (addZ (loc (b_max b)) (diagZ d))).
Proof.
  unfold b3_expand.
  apply (ck_bind (fun chk => p3_sub_v (i64 chk) (b_min b) (V3 d d d)) (fun chk lo => obind (p3_add (i64 chk) (b_max b) (V3 d d d)) (fun hi => b3_new (i64 chk) lo hi))) with (1 := ck_p3_sub_v (b_min b) (diagZ d)).
  rewrite <- (app_nil_r (steps_of (addZ _ _))).
  apply (ck_bind (fun chk => p3_add (i64 chk) (b_max b) (V3 d d d)) (fun chk hi => b3_new (i64 chk) _ hi)) with (1 := ck_p3_add (b_max b) (diagZ d)).
  eapply ck_conv; [apply ck_done| |reflexivity|reflexivity]. intros chk. cbn beta. rewrite b3_newZ. reflexivity.
Qed.

(** Offset *)
Lemma quot_fits a w : fits a -> 0 < w -> fits (Z.quot a w).
Proof.
  intros H Hw. unfold fits in *. destruct (Z_lt_le_dec a 0).
  - pose proof (Z.quot_opp_l (-a) w). replace (- - a) with a in H0 by lia. rewrite H0 by lia.
    pose proof (Z.quot_pos (-a) w ltac:(lia) ltac:(lia)). pose proof (Z.quot_le_upper_bound (-a) w (-a) ltac:(lia) ltac:(nia)). lia.
  - pose proof (Z.quot_pos a w ltac:(lia) ltac:(lia)). pose proof (Z.quot_le_upper_bound a w a ltac:(lia) ltac:(nia)). lia.
Qed.
Lemma ck_place (p lo hi : Z) : fits (p - lo) ->
  checked (fun chk => if e_lt (i64 chk) lo hi then lift2 (e_div (i64 chk)) (Done (p - lo)) (lift2 (e_sub (i64 chk)) (Done hi) (Done lo)) else Done (p - lo)) (width lo hi) (placeZ p lo hi).
Proof.
  intros Hf. unfold width, placeZ. cbn [e_lt i64]. destruct (Z.ltb_spec lo hi); [|apply ck_done].
  ck_red. ck.
  cbv delta [e_div] beta iota.
  eapply ck_conv; [apply ck_done| |reflexivity|reflexivity]. intros chk. cbn beta.
  destruct (Z.eqb_spec (hi - lo) 0); [lia|]. assert (Hw : 0 < hi - lo) by lia. pose proof (quot_fits _ _ Hf Hw) as Hq. apply fits_range in Hq. rewrite Hq. reflexivity.
Qed.
Lemma ck_bind_if {A B} (m : bool -> out A) (k : bool -> A -> out B) s a t x :
  checked m s a -> (Forall fits s -> checked (fun chk => k chk a) t x) -> checked (fun chk => obind (m chk) (k chk)) (s ++ t) x.
Proof.
  intros [H1 H2] HK. split.
  - intros H chk. apply Forall_app in H as [Hs Ht]. rewrite (H1 Hs). cbn. apply (HK Hs). exact Ht.
  - intros H. destruct (all_fit_dec s) as [Hs|Hs]; [|rewrite (H2 Hs); reflexivity]. rewrite (H1 Hs). cbn. apply (HK Hs). intros Ht. apply H. now apply Forall_app.
Qed.
Lemma offset_shape (cx cy cz : bool) (mx my mz : Z -> out Z) (x y z : Z) :
  obind (if cx then obind (mx x) (fun x' => Done (V3 x' y z)) else Done (V3 x y z)) (fun o =>
  obind (if cy then obind (my (vy o)) (fun y' => Done (V3 (vx o) y' (vz o))) else Done o) (fun o =>
  if cz then obind (mz (vz o)) (fun z' => Done (V3 (vx o) (vy o) z')) else Done o)) =
  obind (if cx then mx x else Done x) (fun x' => obind (if cy then my y else Done y) (fun y' => obind (if cz then mz z else Done z) (fun z' => Done (V3 x' y' z')))).
Proof. destruct cx, cy, cz; cbn; try destruct (mx x); cbn; try destruct (my y); cbn; try destruct (mz z); reflexivity. Qed.
Lemma ck_offset b p : checked (fun chk => b3_offset (i64 chk) b p) (offset_steps b p) (offsetZ b p).
Proof.
  unfold b3_offset, offset_steps.
  apply (ck_bind_if (fun chk => p3_sub (i64 chk) p (b_min b)) (fun chk o => obind _ _)) with (1 := ck_p3_sub p (b_min b)).
  unfold steps_of, subZ, loc. cbn [vx vy vz]. rewrite fits3. intros (Fx & Fy & Fz & _).
  eapply ck_conv with (x := offsetZ b p); [|intros chk| reflexivity|reflexivity].
  2:{ cbn beta. instantiate (1 := fun chk => obind (if e_lt (i64 chk) (px (b_min b)) (px (b_max b)) then lift2 (e_div (i64 chk)) (Done (px p - px (b_min b))) (lift2 (e_sub (i64 chk)) (Done (px (b_max b))) (Done (px (b_min b)))) else Done (px p - px (b_min b)))
       (fun x => obind (if e_lt (i64 chk) (py (b_min b)) (py (b_max b)) then lift2 (e_div (i64 chk)) (Done (py p - py (b_min b))) (lift2 (e_sub (i64 chk)) (Done (py (b_max b))) (Done (py (b_min b)))) else Done (py p - py (b_min b)))
       (fun y => obind (if e_lt (i64 chk) (pz (b_min b)) (pz (b_max b)) then lift2 (e_div (i64 chk)) (Done (pz p - pz (b_min b))) (lift2 (e_sub (i64 chk)) (Done (pz (b_max b))) (Done (pz (b_min b)))) else Done (pz p - pz (b_min b)))
       (fun z => Done (V3 x y z))))).
      exact (offset_shape (e_lt (i64 chk) _ _) (e_lt (i64 chk) _ _) (e_lt (i64 chk) _ _) (fun v => lift2 (e_div (i64 chk)) (Done v) _) (fun v => lift2 (e_div (i64 chk)) (Done v) _) (fun v => lift2 (e_div (i64 chk)) (Done v) _) _ _ _). }
  eapply ck_bind; [now apply ck_place|].
  eapply ck_bind; [now apply ck_place|].
  rewrite <- (app_nil_r (width (pz _) _)).
  eapply (ck_bind _ (fun chk z => Done _)); [now apply ck_place|]. apply ck_done.
Qed.


(** Inside a box the offset is 0, or 1 on the upper face of an axis that has a width. *)
Lemma placeZ_inside p lo hi : lo <= p <= hi -> placeZ p lo hi = if (p =? hi) && (lo <? hi) then 1 else 0.
Proof.
  intros H. unfold placeZ. destruct (Z.ltb_spec lo hi).
  - destruct (Z.eqb_spec p hi); cbn.
    + subst. apply Z.quot_same. lia.
    + apply Z.quot_small. lia.
  - rewrite andb_false_r. lia.
Qed.

(** Without checks *)
Lemma arith_release z : arith false z = Done (wrap z).
Proof. apply arith_wrap. Qed.
Lemma wrap_over z : 2 ^ 63 <= z < 2 ^ 64 + 2 ^ 63 -> wrap z = z - 2 ^ 64.
Proof. intros H. unfold wrap. rewrite <- (Z.mod_unique (z + 2 ^ 63) (2 ^ 64) 1 (z + 2 ^ 63 - 2 ^ 64)); lia. Qed.
Lemma place_release a lo hi : fits lo -> fits hi -> fits a -> lo < hi ->
  (lift2 (e_div (i64 false)) (Done a) (lift2 (e_sub (i64 false)) (Done hi) (Done lo)) = Panic <-> a = - 2 ^ 63 /\ lo = - 2 ^ 63 /\ hi = 2 ^ 63 - 1).
Proof.
  intros Fl Fh Fa H. cbn [lift2 obind e_sub i64]. rewrite arith_release. cbn [obind e_div i64].
  destruct (Z_le_dec (hi - lo) (2 ^ 63 - 1)) as [Hs|Hs].
  - rewrite wrap_id by (apply fits_range; unfold fits; lia).
    destruct (Z.eqb_spec (hi - lo) 0); [lia|]. assert (Hw : 0 < hi - lo) by lia.
    pose proof (quot_fits _ _ Fa Hw) as Hq. apply fits_range in Hq. rewrite Hq.
    split; [discriminate|]. intros (? & -> & ->). lia.
  - unfold fits in *. rewrite wrap_over by lia. set (w := hi - lo - 2 ^ 64). assert (Hw : - 2 ^ 63 <= w <= -1) by lia.
    destruct (Z.eqb_spec w 0); [lia|].
    replace w with (- (- w)) by lia. rewrite Z.quot_opp_r by lia.
    destruct (Z.eq_dec w (-1)) as [Ew|Ew].
    + rewrite Ew. change (- -1) with 1. rewrite Z.quot_1_r. destruct (Z.eq_dec a (- 2 ^ 63)) as [->|Ea].
      * split; [intros _; subst w; lia|]. reflexivity.
      * rewrite (proj1 (fits_range (- a))) by (unfold fits; lia). split; [discriminate|lia].
    + assert (Hq : fits (- (a ÷ - w))).
      { unfold fits. destruct (Z_lt_le_dec a 0).
        - replace a with (- (- a)) by lia. rewrite Z.quot_opp_l by lia. pose proof (Z.quot_pos (-a) (-w) ltac:(lia) ltac:(lia)).
          pose proof (Z.quot_le_upper_bound (-a) (-w) (2 ^ 62) ltac:(lia) ltac:(nia)). lia.
        - pose proof (Z.quot_pos a (-w) ltac:(lia) ltac:(lia)). pose proof (Z.quot_le_upper_bound a (-w) (2 ^ 62) ltac:(lia) ltac:(nia)). lia. }
      apply fits_range in Hq. rewrite Hq. split; [discriminate|]. subst w. lia.
Qed.
Lemma start_release p lo : fits p -> fits lo -> lo = - 2 ^ 63 -> (wrap (p - lo) = - 2 ^ 63 <-> p = 0).
Proof.
  intros Fp _ ->. unfold fits in *. destruct (Z_lt_le_dec p 0).
  - rewrite wrap_id by (apply fits_range; unfold fits; lia). lia.
  - rewrite wrap_over by lia. lia.
Qed.
Lemma fits_wrapped z : fits (wrap z).
Proof. apply fits_range, wrap_range. Qed.
Lemma axis_release p lo hi : fits p -> fits lo -> fits hi ->
  ((if e_lt (i64 false) lo hi then lift2 (e_div (i64 false)) (Done (wrap (p - lo))) (lift2 (e_sub (i64 false)) (Done hi) (Done lo)) else Done (wrap (p - lo))) = Panic <->
   p = 0 /\ lo = - 2 ^ 63 /\ hi = 2 ^ 63 - 1).
Proof.
  intros Fp Fl Fh. cbn [e_lt i64]. destruct (Z.ltb_spec lo hi).
  - rewrite (place_release _ _ _ Fl Fh (fits_wrapped _) H). split; intros (H1 & H2 & H3); (split; [|split; assumption]); now apply (start_release p lo).
  - split; [discriminate|]. lia.
Qed.
Lemma axis_total p lo hi : (if e_lt (i64 false) lo hi then lift2 (e_div (i64 false)) (Done (wrap (p - lo))) (lift2 (e_sub (i64 false)) (Done hi) (Done lo)) else Done (wrap (p - lo))) <> OutOfFuel.
Proof.
  cbn [e_lt i64]. destruct (lo <? hi); [|discriminate]. cbn [lift2 obind e_sub i64]. rewrite arith_release. cbn [obind e_div i64].
  destruct (_ =? _); [discriminate|]. destruct (in_range _); discriminate.
Qed.
Lemma p3_sub_release p q : p3_sub (i64 false) p q = Done (V3 (wrap (px p - px q)) (wrap (py p - py q)) (wrap (pz p - pz q))).
Proof. unfold p3_sub, mk3. cbn [lift2 obind e_sub i64]. rewrite !arith_release. reflexivity. Qed.
Lemma offset_release b p : (forall i, fits (coord i p)) -> (forall i, fits (coord i (b_min b)) /\ fits (coord i (b_max b))) ->
  (b3_offset (i64 false) b p = Panic <-> exists i, coord i p = 0 /\ coord i (b_min b) = - 2 ^ 63 /\ coord i (b_max b) = 2 ^ 63 - 1).
Proof.
  intros Fp Fb. unfold b3_offset. rewrite p3_sub_release. cbn [obind vx vy vz].
  pose proof (axis_release _ _ _ (Fp AX) (proj1 (Fb AX)) (proj2 (Fb AX))) as HX.
  pose proof (axis_release _ _ _ (Fp AY) (proj1 (Fb AY)) (proj2 (Fb AY))) as HY.
  pose proof (axis_release _ _ _ (Fp AZ) (proj1 (Fb AZ)) (proj2 (Fb AZ))) as HZ.
  pose proof (axis_total (coord AX p) (coord AX (b_min b)) (coord AX (b_max b))) as TX.
  pose proof (axis_total (coord AY p) (coord AY (b_min b)) (coord AY (b_max b))) as TY.
  pose proof (axis_total (coord AZ p) (coord AZ (b_min b)) (coord AZ (b_max b))) as TZ.
  cbn [coord] in *.
  match goal with |- ?o = Panic <-> _ => transitivity (obind (if e_lt (i64 false) (px (b_min b)) (px (b_max b)) then lift2 (e_div (i64 false)) (Done (wrap (px p - px (b_min b)))) (lift2 (e_sub (i64 false)) (Done (px (b_max b))) (Done (px (b_min b)))) else Done (wrap (px p - px (b_min b))))
       (fun x => obind (if e_lt (i64 false) (py (b_min b)) (py (b_max b)) then lift2 (e_div (i64 false)) (Done (wrap (py p - py (b_min b)))) (lift2 (e_sub (i64 false)) (Done (py (b_max b))) (Done (py (b_min b)))) else Done (wrap (py p - py (b_min b))))
       (fun y => obind (if e_lt (i64 false) (pz (b_min b)) (pz (b_max b)) then lift2 (e_div (i64 false)) (Done (wrap (pz p - pz (b_min b)))) (lift2 (e_sub (i64 false)) (Done (pz (b_max b))) (Done (pz (b_min b)))) else Done (wrap (pz p - pz (b_min b))))
       (fun z => Done (V3 x y z)))) = Panic) end.
  { rewrite <- (offset_shape (e_lt (i64 false) _ _) (e_lt (i64 false) _ _) (e_lt (i64 false) _ _) (fun v => lift2 (e_div (i64 false)) (Done v) _) (fun v => lift2 (e_div (i64 false)) (Done v) _) (fun v => lift2 (e_div (i64 false)) (Done v) _)). reflexivity. }
  destruct (if e_lt (i64 false) (px (b_min b)) (px (b_max b)) then _ else _) as [x| |]; cbn [obind]; [|split; [intros _; exists AX; now apply HX|reflexivity]|easy].
  destruct (if e_lt (i64 false) (py (b_min b)) (py (b_max b)) then _ else _) as [y| |]; cbn [obind]; [|split; [intros _; exists AY; now apply HY|reflexivity]|easy].
  destruct (if e_lt (i64 false) (pz (b_min b)) (pz (b_max b)) then _ else _) as [z| |]; cbn [obind]; [|split; [intros _; exists AZ; now apply HZ|reflexivity]|easy].
  split; [discriminate|]. intros [[] Hi]; [apply HX in Hi|apply HY in Hi|apply HZ in Hi]; discriminate Hi.
Qed.

(** Matrices *)
Lemma ck_for4_cells {S} (body : bool -> ix -> S -> out S) (steps : ix -> list Z) (next : ix -> S -> S) (s : S) :
  (forall i s, checked (fun chk => body chk i s) (steps i) (next i s)) ->
  checked (fun chk => for4 s (body chk)) (flat_map steps all_ix) (next I3 (next I2 (next I1 (next I0 s)))).
Proof.
  intros H. unfold for4, all_ix. cbn [flat_map]. rewrite app_nil_r.
  do 3 (eapply (ck_bind (fun chk => body chk _ _)); [apply H|]). apply H.
Qed.
Lemma flat_map_flat {A B C} (f : A -> list B) (g : B -> list C) l : flat_map g (flat_map f l) = flat_map (fun a => flat_map g (f a)) l.
Proof. induction l; cbn; [reflexivity|]. rewrite flat_map_app, IHl. reflexivity. Qed.
Lemma ck_entry a b r c : checked (fun chk => for4 (e_from_int (i64 chk) 0) (fun i acc => obind (e_mul (i64 chk) (mget a r i) (mget b i c)) (fun p => e_add (i64 chk) acc p)))
  (entry_steps a b r c) (sum4 Z.add (fun i => mget a r i * mget b i c)).
Proof. unfold for4, entry_steps, sum4. cbv zeta. ck_red. ck. Qed.
Lemma ck_row (mat : Matrix4 Z) (r : ix) (val : bool -> ix -> out Z) (steps : ix -> list Z) (v : ix -> Z) :
  (forall c, checked (fun chk => val chk c) (steps c) (v c)) ->
  checked (fun chk => for4 mat (fun c mat => obind (val chk c) (fun x => Done (mset mat r c x)))) (flat_map steps all_ix)
    (mset (mset (mset (mset mat r I0 (v I0)) r I1 (v I1)) r I2 (v I2)) r I3 (v I3)).
Proof.
  intros H. apply (ck_for4_cells (fun chk c mat => obind (val chk c) (fun x => Done (mset mat r c x))) steps (fun c mat => mset mat r c (v c))).
  intros c m. rewrite <- (app_nil_r (steps c)). apply (ck_bind (fun chk => val chk c) (fun chk x => Done (mset m r c x)) (steps c) (v c)); [apply H|apply ck_done].
Qed.
Lemma ck_cells (val : bool -> ix -> ix -> out Z) (steps : ix -> ix -> list Z) (v : ix -> ix -> Z) :
  (forall r c, checked (fun chk => val chk r c) (steps r c) (v r c)) ->
  checked (fun chk => for4 (vconst (vconst 0)) (fun r mat => for4 mat (fun c mat => obind (val chk r c) (fun x => Done (mset mat r c x)))))
    (flat_map (fun r => flat_map (steps r) all_ix) all_ix) (mkm v).
Proof.
  intros H. eapply ck_conv; [apply (ck_for4_cells (fun chk r mat => for4 mat (fun c mat => obind (val chk r c) (fun x => Done (mset mat r c x)))) (fun r => flat_map (steps r) all_ix)
    (fun r mat => mset (mset (mset (mset mat r I0 (v r I0)) r I1 (v r I1)) r I2 (v r I2)) r I3 (v r I3)))|reflexivity|reflexivity|reflexivity].
  intros r m. apply (ck_row m r (fun chk c => val chk r c)). apply H.
Qed.
Lemma ck_mul a b : checked (fun chk => m4_mul (i64 chk) a b) (prod_steps a b) (prodZ a b).
Proof. exact (ck_cells _ _ _ (ck_entry a b)). Qed.
Lemma ck_add a b : checked (fun chk => m4_add (i64 chk) a b) (sum_steps a b) (sumZ a b).
Proof. exact (ck_cells (fun chk r c => arith chk (mget a r c + mget b r c)) (fun r c => [_]) _ (fun r c => ck_last _)). Qed.

(** Consequences of [checked]. *)
Lemma ck_meaning {A} (o : bool -> out A) s x : checked o s x ->
  (o true = Panic <-> Exists (fun z => ~ fits z) s) /\ (forall y, o true = Done y -> y = x /\ o false = Done y).
Proof.
  intros H. split; [now apply (ck_panic o s x)|]. intros y Hy. destruct H as [H1 H2].
  destruct (all_fit_dec s) as [Hs|Hs]; [|rewrite (H2 Hs) in Hy; discriminate Hy].
  rewrite (H1 Hs true) in Hy. injection Hy as <-. auto.
Qed.

(** Division, the same in both builds. *)
Lemma div_fits chk a s : s <> 0 -> fits a -> (s = -1 -> a <> - 2 ^ 63) -> e_div (i64 chk) a s = Done (Z.quot a s).
Proof.
  intros Hs Ha H. cbn [e_div i64]. destruct (Z.eqb_spec s 0); [easy|]. replace (in_range (a ÷ s)) with true; [reflexivity|]. symmetry. apply fits_range.
  destruct (Z_lt_le_dec 0 s); [now apply quot_fits|].
  unfold fits in *. replace s with (- (- s)) by lia. rewrite Z.quot_opp_r by lia.
  destruct (Z.eq_dec s (-1)) as [->|E].
  - change (- -1) with 1. rewrite Z.quot_1_r. specialize (H eq_refl). lia.
  - destruct (Z_lt_le_dec a 0).
    + replace a with (- (- a)) by lia. rewrite Z.quot_opp_l by lia. pose proof (Z.quot_pos (-a) (-s) ltac:(lia) ltac:(lia)).
      pose proof (Z.quot_le_upper_bound (-a) (-s) (2 ^ 62) ltac:(lia) ltac:(nia)). lia.
    + pose proof (Z.quot_pos a (-s) ltac:(lia) ltac:(lia)). pose proof (Z.quot_le_upper_bound a (-s) (2 ^ 63 - 1) ltac:(lia) ltac:(nia)). lia.
Qed.
Lemma div_panic chk a s : s = 0 \/ (s = -1 /\ a = - 2 ^ 63) -> e_div (i64 chk) a s = Panic.
Proof. intros [->|[-> ->]]; reflexivity. Qed.
Lemma div3 {B} chk (mk : Z -> Z -> Z -> B) (v : Vector3 Z) s : Forall fits (steps_of v) ->
  let o := mk3 mk (e_div (i64 chk) (vx v) s) (e_div (i64 chk) (vy v) s) (e_div (i64 chk) (vz v) s) in
  (no_div v s -> o = Panic) /\ (~ no_div v s -> o = Done (mk (Z.quot (vx v) s) (Z.quot (vy v) s) (Z.quot (vz v) s))).
Proof.
  unfold steps_of. rewrite fits3. intros (Fx & Fy & Fz & _). cbv zeta. unfold no_div, mk3. split.
  - intros [->|(-> & H)]; [reflexivity|].
    destruct (Z.eq_dec (vx v) (- 2 ^ 63)) as [E|E]; [rewrite (div_panic chk (vx v)); auto|]. rewrite (div_fits chk (vx v)) by (auto; lia). cbn [obind].
    destruct (Z.eq_dec (vy v) (- 2 ^ 63)) as [E'|E']; [rewrite (div_panic chk (vy v)); auto|]. rewrite (div_fits chk (vy v)) by (auto; lia). cbn [obind].
    rewrite (div_panic chk (vz v)); [reflexivity|]. right. split; [reflexivity|]. destruct H as [H|[H|H]]; easy.
  - intros H. rewrite !div_fits; try assumption; try reflexivity; intros E; try (intros E'; apply H); auto.
Qed.
Lemma div_p3 chk p s : Forall fits (steps_of (loc p)) ->
  (no_div (loc p) s -> p3_div (i64 chk) p s = Panic) /\ (~ no_div (loc p) s -> p3_div (i64 chk) p s = Done (pnt_of (mapv (fun z => Z.quot z s) (loc p)))).
Proof. exact (div3 chk P3 (loc p) s). Qed.
Lemma div_v3 chk v s : Forall fits (steps_of v) ->
  (no_div v s -> v3_div (i64 chk) v s = Panic) /\ (~ no_div v s -> v3_div (i64 chk) v s = Done (mapv (fun z => Z.quot z s) v)).
Proof. exact (div3 chk V3 v s). Qed.
Lemma div_n3 chk n s : Forall fits (steps_of (vec_of n)) ->
  (no_div (vec_of n) s -> n3_div (i64 chk) n s = Panic) /\ (~ no_div (vec_of n) s -> n3_div (i64 chk) n s = Done (nrm_of (mapv (fun z => Z.quot z s) (vec_of n)))).
Proof. exact (div3 chk N3 (vec_of n) s). Qed.

(** Without checks nothing but a division fails. *)
Lemma np_arith {A} z (k : Z -> out A) : (forall a, no_panic (k a)) -> no_panic (obind (arith false z) k).
Proof. intros H. rewrite arith_release. apply H. Qed.
Lemma np_last z : no_panic (arith false z).
Proof. rewrite arith_release. eexists. reflexivity. Qed.
Lemma np_done {A} (x : A) : no_panic (Done x). Proof. eexists. reflexivity. Qed.
Lemma np_bind {A B} (m : out A) (k : A -> out B) : no_panic m -> (forall a, no_panic (k a)) -> no_panic (obind m k).
Proof. intros [a ->] H. apply H. Qed.
Ltac np := repeat first [apply np_done | apply np_last | apply np_bind; [|intros ?] | apply np_arith; intros ?].
Lemma np_points p q u s : no_panic (p3_add (i64 false) p u) /\ no_panic (p3_sub_v (i64 false) p u) /\ no_panic (p3_sub (i64 false) p q) /\ no_panic (p3_mul (i64 false) p s) /\ no_panic (p3_abs (i64 false) p).
Proof.
  unfold p3_add, p3_sub_v, p3_sub, p3_mul, p3_abs, mk3, lift2. repeat split; np; cbn [e_abs i64].
  all: destruct (_ <? _); np.
Qed.
Lemma np_vectors u v s : no_panic (v3_add (i64 false) u v) /\ no_panic (v3_sub (i64 false) u v) /\ no_panic (v3_mul (i64 false) u s) /\ no_panic (v3_neg (i64 false) u) /\
  no_panic (v3_dot (i64 false) u v) /\ no_panic (v3_len_sq (i64 false) u) /\ no_panic (v3_cross (i64 false) u v) /\ no_panic (v3_face_forward (i64 false) u v).
Proof.
  unfold v3_face_forward, v3_add, v3_sub, v3_mul, v3_neg, v3_dot, v3_len_sq, v3_cross, mk3, lift2. repeat split; np; cbn [e_lt i64].
  all: destruct (_ <? _); np.
Qed.
Lemma np_normals u v s : no_panic (n3_add (i64 false) u v) /\ no_panic (n3_sub (i64 false) u v) /\ no_panic (n3_mul (i64 false) u s) /\ no_panic (n3_neg (i64 false) u) /\
  no_panic (n3_dot (i64 false) u v) /\ no_panic (n3_len_sq (i64 false) u) /\ no_panic (n3_cross (i64 false) u v) /\ no_panic (n3_face_forward (i64 false) u v).
Proof.
  unfold n3_face_forward, n3_add, n3_sub, n3_mul, n3_neg, n3_dot, n3_len_sq, n3_cross, mk3, lift2. repeat split; np; cbn [e_lt i64].
  all: destruct (_ <? _); np.
Qed.
Lemma np_boxes b d : no_panic (b3_diagonal (i64 false) b) /\ no_panic (b3_surface_area (i64 false) b) /\ no_panic (b3_volume (i64 false) b) /\
  no_panic (b3_maximum_extent (i64 false) b) /\ no_panic (b3_expand (i64 false) b d).
Proof.
  unfold b3_surface_area, b3_volume, b3_maximum_extent, b3_expand, b3_diagonal, p3_sub, p3_sub_v, p3_add, mk3, lift2. repeat split; np.
  all: rewrite b3_newZ; np.
Qed.
Lemma np_mats a b : no_panic (m4_mul (i64 false) a b) /\ no_panic (m4_add (i64 false) a b).
Proof. unfold m4_mul, m4_add, for4. split; np. Qed.
