(** Proofs for C129: iterating over a two-dimensional box of floats. *)
From Coq Require Import ZArith Reals List Lia Lra Bool.
From Flocq Require Import Core.Core IEEE754.BinarySingleNaN.
From Verif Require Import Base Elem FloatInst GeoModel GeoSpec IterSpec WholeSpec.
From Verif Require Import OrderProofs FloatCore FloatThms FloatErr FloatLerp IntThms IterThms FloatWhole.
Import ListNotations.
Local Open Scope mon_scope.
Local Open Scope R_scope.

Section W.
Context (f : fmt).
Notation E := (f_elem f).
Notation B := (flt f).
Notation one := (f_of_int f 1).
Notation zero := (f_of_int f 0).
Notation P := (IZR (2 ^ fprec f)).
Notation lim := (f_of_int f (2 ^ fprec f)).
Lemma lim_h : holds lim (2 ^ fprec f). Proof. apply h_int. unfold whole. destruct f; cbn; lia. Qed.
Lemma P_pos : 2 < P. Proof. apply IZR_lt. destruct f; reflexivity. Qed.
Lemma P_big : P < big f. Proof. destruct (whole_fmt f (2 ^ fprec f)) as [_ H]; [unfold whole; destruct f; cbn; lia|]. rewrite Rabs_pos_eq in H; [exact H|]. pose proof P_pos. lra. Qed.
Lemma rnd_int z : (Z.abs z <= 2 ^ fprec f)%Z -> rnd f (IZR z) = IZR z.
Proof. intros H. apply rnd_id. now apply whole_fmt. Qed.
Lemma add_val (x y : B) : is_finite x = true -> is_finite y = true -> Rabs (rnd f (B2R x + B2R y)) < big f ->
  is_finite (f_add x y) = true /\ B2R (f_add x y) = rnd f (B2R x + B2R y).
Proof.
  intros Fx Fy L. destruct (add_key f x y Fx Fy) as (_ & K & Q). rewrite Rlt_bool_true in Q by exact L. split; [exact Q|]. now rewrite <- key_finite, K, sat_in.
Qed.
Lemma rnd_next (x : B) : Rabs (rnd f (B2R x + 1) - (B2R x + 1)) <= 1.
Proof.
  assert (E1 : Rabs (B2R x - (B2R x + 1)) = 1) by (replace (B2R x - (B2R x + 1)) with (- (1)) by ring; rewrite Rabs_Ropp; apply Rabs_R1).
  rewrite <- E1 at 3. apply (round_N_pt radix2 _ _ (B2R x + 1)). apply fmt_B.
Qed.
Lemma add_1 (x : B) : is_finite x = true -> is_finite (f_add x one) = true /\ B2R (f_add x one) = rnd f (B2R x + 1).
Proof.
  intros F. destruct (h_1 f) as [F1 V1]. pose proof (add_val x one F F1) as G0. rewrite V1 in G0. apply G0. clear G0. pose proof (rnd_next x) as N. pose proof (top_ge f x) as T. apply Rabs_le_inv in N, T.
  assert (G : top f + 2 < big f).
  { unfold top, big. assert (bpow radix2 2 < bpow radix2 (femax f - fprec f)) by (apply bpow_lt; destruct f; reflexivity). change (bpow radix2 2) with 4 in H. lra. }
  apply Rabs_lt. lra.
Qed.
Lemma rnd_top : rnd f (P + 1) = P.
Proof.
  destruct lim_h as [F V]. destruct (add_1 lim F) as [F' V']. rewrite V in V'. rewrite <- V'.
  assert (C : Beqb (f_add lim one) lim = true) by (destruct f; vm_compute; reflexivity).
  rewrite Beqb_correct in C by assumption. rewrite <- V. destruct (Req_bool_spec (B2R (f_add lim one)) (B2R lim)); [assumption|discriminate].
Qed.
(** One step forwards. *)
Lemma step_reach (x : B) : in_reach x -> in_reach (f_add x one) /\ (B2R x < P -> (Zfloor (B2R x) + 1 <= Zfloor (B2R (f_add x one)))%Z).
Proof.
  intros [F [L H]]. destruct (add_1 x F) as [F' V']. split.
  - split; [exact F'|]. rewrite V'. split.
    + apply Rle_trans with (B2R x); [lra|]. rewrite <- (rnd_B f x) at 1. apply rnd_le. lra.
    + rewrite <- rnd_top. apply rnd_le. lra.
  - intros Hx. pose proof (Zfloor_lb (B2R x)) as Z1. apply Zfloor_lub. rewrite V', <- (rnd_int (Zfloor (B2R x) + 1)).
    + apply rnd_le. rewrite plus_IZR. lra.
    + assert (Zfloor (B2R x) < 2 ^ fprec f)%Z by (apply lt_IZR; lra). assert (- 2 ^ fprec f <= Zfloor (B2R x))%Z by (apply Zfloor_lub; rewrite opp_IZR; exact L). lia.
Qed.
Lemma reach_0 : in_reach zero.
Proof. destruct (h_0 f) as [F V]. split; [exact F|]. rewrite V. pose proof P_pos. lra. Qed.
Lemma below (m x : B) : reachable m -> in_reach x -> Bleb m x = false -> B2R x < P.
Proof.
  intros [->|[F L]] [Fx _] C; [destruct x; discriminate|]. rewrite Bleb_correct in C by assumption. destruct (Rle_bool_spec (B2R m) (B2R x)); [discriminate|]. lra.
Qed.
Lemma not_below (m x : B) : ~ reachable m -> in_reach x -> Bleb m x = false.
Proof.
  intros N [Fx [_ L]]. destruct (is_finite m) eqn:Fm.
  - rewrite Bleb_correct by assumption. apply Rle_bool_false. destruct (Rle_or_lt (B2R m) (B2R x)); [|assumption]. elim N. right. split; [exact Fm|lra].
  - destruct m as [|[]| |]; try discriminate; [elim N; now left|now destruct x|now destruct x].
Qed.
Lemma reach_floor (x : B) : in_reach x -> (- 2 ^ fprec f <= Zfloor (B2R x) <= 2 ^ fprec f)%Z.
Proof.
  intros [_ [L H]]. split; [apply Zfloor_lub; rewrite opp_IZR; exact L|]. apply le_IZR. eapply Rle_trans; [apply Zfloor_lb|exact H].
Qed.
Lemma reach_ends (m : Point2 B) : reachable (p2x m) -> reachable (p2y m) -> forall a n x y, in_reach x -> in_reach y ->
  Z.to_nat (2 ^ fprec f - Zfloor (B2R y)) = a -> Z.to_nat (2 ^ fprec f - Zfloor (B2R x)) = n -> exists l, collects E (BI m x y) l.
Proof.
  intros Hx Hy. induction a as [a IHa] using lt_wf_ind. induction n as [n IHn] using lt_wf_ind. intros x y X Y Ea En.
  destruct (Bleb (p2x m) x) eqn:Cx.
  - destruct (Bleb (p2y m) y) eqn:Cy.
    + exists []. eapply col_end. unfold b2_next. cbn [it_max it_x it_y e_le f_elem]. rewrite Cx, Cy. reflexivity.
    + destruct (step_reach y Y) as [Y' S]. specialize (S (below _ _ Hy Y Cy)). pose proof (reach_floor y Y). pose proof (reach_floor _ Y').
      destruct (IHa (Z.to_nat (2 ^ fprec f - Zfloor (B2R (f_add y one)))) ltac:(lia) _ zero (f_add y one) reach_0 Y' eq_refl eq_refl) as [l Hl].
      exists (P2 zero (f_add y one) :: l). eapply col_point; [|exact Hl]. unfold b2_next. cbn [it_max it_x it_y e_le f_elem]. rewrite Cx, Cy. reflexivity.
  - destruct (step_reach x X) as [X' S]. specialize (S (below _ _ Hx X Cx)). pose proof (reach_floor x X). pose proof (reach_floor _ X').
    destruct (IHn (Z.to_nat (2 ^ fprec f - Zfloor (B2R (f_add x one)))) ltac:(lia) (f_add x one) y X' Y Ea eq_refl) as [l Hl].
    exists (P2 (f_add x one) y :: l). eapply col_point; [|exact Hl]. unfold b2_next. cbn [it_max it_x it_y e_le f_elem]. rewrite Cx. reflexivity.
Qed.
(** An invariant under which [next] always has a point. *)
Lemma endless (I : B -> Prop) (m : Point2 B) : I zero -> (forall x, I x -> I (f_add x one)) ->
  (forall x, I x -> Bleb (p2x m) x = false) \/ (forall y, I y -> Bleb (p2y m) y = false) ->
  forall it l, collects E it l -> it_max it = m -> I (it_x it) -> I (it_y it) -> False.
Proof.
  intros I0 I1 C it l H. induction H as [it it' H|it it' p l H _ IH]; intros Em X Y; unfold b2_next in H; rewrite Em in H; cbn [e_le f_elem e_add e_from_int] in H.
  - destruct C as [C|C]; [rewrite (C _ X) in H|rewrite (C _ Y) in H]; rewrite ?andb_false_r in H; cbn [andb] in H; [discriminate|]. destruct (Bleb (p2x m) (it_x it)); discriminate.
  - assert (G : forall it1 o, Done (o, it1) = Done (Some p, it') -> it_max it1 = m -> I (it_x it1) -> I (it_y it1) -> False).
    { intros it1 o Q. injection Q as _ ->. intros. now apply IH. }
    destruct (Bleb (p2x m) (it_x it) && Bleb (p2y m) (it_y it)); [discriminate|].
    destruct (Bleb (p2x m) (it_x it)); cbn [obind] in H; apply (G _ _ H); cbn [it_max it_x it_y]; auto.
Qed.
Lemma iter_ends (b : Bounds2 B) : in_reach (p2x (b2_min b)) -> in_reach (p2y (b2_min b)) ->
  ((exists l, collects E (b2_into_iter b) l) <-> reachable (p2x (b2_max b)) /\ reachable (p2y (b2_max b))).
Proof.
  intros X Y. split.
  - intros [l H].
    assert (D : forall m : B, reachable m \/ ~ reachable m).
    { intros m. unfold reachable. destruct (is_finite m) eqn:F; [destruct (Rle_or_lt (B2R m) P); [left; now right|right; intros [->|[_ L]]; [discriminate|lra]]|].
      destruct m as [|[]| |]; try discriminate; [left; now left|right; intros [?|[? _]]; discriminate|right; intros [?|[? _]]; discriminate]. }
    destruct (D (p2x (b2_max b))) as [Dx|Dx], (D (p2y (b2_max b))) as [Dy|Dy]; auto; exfalso;
      apply (endless in_reach (b2_max b) reach_0 (fun x H => proj1 (step_reach x H))) with (it := b2_into_iter b) (l := l); auto using not_below.
  - intros [Hx Hy]. exact (reach_ends (b2_max b) Hx Hy _ _ _ _ X Y eq_refl eq_refl).
Qed.
Lemma iter_unlimited (b : Bounds2 B) : is_finite (p2x (b2_min b)) = true -> is_finite (p2y (b2_min b)) = true ->
  unlimited (p2x (b2_max b)) \/ unlimited (p2y (b2_max b)) -> forall l, ~ collects E (b2_into_iter b) l.
Proof.
  intros X Y U l H. apply (endless (fun x => is_finite x = true) (b2_max b)) with (it := b2_into_iter b) (l := l); auto.
  - intros x F. now apply add_1.
  - assert (K : forall m : B, unlimited m -> forall x : B, is_finite x = true -> Bleb m x = false).
    { intros m [->|N] x F; [now destruct x|destruct m; try discriminate; now destruct x]. }
    destruct U as [U|U]; [left|right]; now apply K.
Qed.
(** Whole numbers: the same points as with i64. *)
Lemma follow chk it' l' : collects (i64 chk) it' l' -> whole f (p2x (it_max it')) -> whole f (p2y (it_max it')) -> whole f (it_x it') -> whole f (it_y it') ->
  forall it : Bounds2Iter B, h_p2 (it_max it) (it_max it') -> holds (it_x it) (it_x it') -> holds (it_y it) (it_y it') ->
  exists l, collects E it l /\ Forall2 h_p2 l l'.
Proof.
  induction 1 as [it' jt' H|it' jt' p l' H _ IH]; intros W1 W2 W3 W4 it M X Y; unfold b2_next in H; cbn [e_le i64] in H; pose proof M as [Mx My].
  - exists []. split; [|constructor]. eapply col_end. unfold b2_next. cbn [e_le f_elem]. rewrite (h_le f _ _ _ _ Mx X), (h_le f _ _ _ _ My Y).
    destruct ((p2x (it_max it') <=? it_x it') && (p2y (it_max it') <=? it_y it'))%Z; [reflexivity|].
    exfalso. match type of H with obind ?m _ = _ => destruct m; discriminate end.
  - destruct (p2x (it_max it') <=? it_x it')%Z eqn:Cx.
    + destruct (p2y (it_max it') <=? it_y it')%Z eqn:Cy; [discriminate|]. cbn [andb e_add e_from_int i64] in H.
      assert (W : whole f (it_y it' + 1)) by (unfold whole in *; lia).
      rewrite arith_in in H by (apply ChkProofs.fits_range; now apply (whole_fits f)). cbn [obind it_x it_y] in H. injection H as <- <-. cbn [it_max it_x it_y] in IH.
      assert (Y' : holds (f_add (it_y it) one) (it_y it' + 1)) by (apply h_add; auto using h_1).
      destruct (IH W1 W2 ltac:(unfold whole; lia) W (BI (it_max it) zero (f_add (it_y it) one)) M (h_0 f) Y') as (l & C & R).
      exists (P2 zero (f_add (it_y it) one) :: l). split; [|constructor; [split; [apply h_0|exact Y']|exact R]].
      eapply col_point; [|exact C]. unfold b2_next. cbn [e_le f_elem]. rewrite (h_le f _ _ _ _ Mx X), (h_le f _ _ _ _ My Y), Cx, Cy. reflexivity.
    + cbn [andb e_add e_from_int i64] in H.
      assert (W : whole f (it_x it' + 1)) by (unfold whole in *; lia).
      rewrite arith_in in H by (apply ChkProofs.fits_range; now apply (whole_fits f)). cbn [obind it_x it_y] in H. injection H as <- <-. cbn [it_max it_x it_y] in IH.
      assert (X' : holds (f_add (it_x it) one) (it_x it' + 1)) by (apply h_add; auto using h_1).
      destruct (IH W1 W2 W W4 (BI (it_max it) (f_add (it_x it) one) (it_y it)) M X' Y) as (l & C & R).
      exists (P2 (f_add (it_x it) one) (it_y it) :: l). split; [|constructor; [split; [exact X'|exact Y]|exact R]].
      eapply col_point; [|exact C]. unfold b2_next. cbn [e_le f_elem]. rewrite (h_le f _ _ _ _ Mx X), (h_le f _ _ _ _ My Y), Cx. reflexivity.
Qed.
Lemma iter_whole (b : Bounds2 B) (b' : Bounds2 Z) : h_p2 (b2_min b) (b2_min b') -> h_p2 (b2_max b) (b2_max b') ->
  Forall (whole f) [p2x (b2_min b'); p2y (b2_min b'); p2x (b2_max b'); p2y (b2_max b')] ->
  exists l, collects E (b2_into_iter b) l /\ Forall2 h_p2 l (visited b') /\ forall chk, collects (i64 chk) (b2_into_iter b') (visited b').
Proof.
  intros Hm HM W. repeat match goal with H : Forall _ (_ :: _) |- _ => inversion H; subst; clear H end.
  assert (R : forall z, whole f z -> in_range z = true) by (intros z Hz; apply ChkProofs.fits_range; now apply (whole_fits f)).
  assert (V : forall chk, collects (i64 chk) (b2_into_iter b') (visited b')) by (intros chk; apply iter_visited; split; auto).
  destruct (follow true _ _ (V true)) with (it := b2_into_iter b) as (l & C & F); auto; [apply Hm|apply Hm|]. exists l. auto.
Qed.
End W.
Lemma stuck_case : let b := B2 (P2 (f32 16777216) (f32 0)) (P2 (f32 16777218) (f32 0)) in
  (is_finite (p2x (b2_max b)) = true /\ in_reach (p2x (b2_min b)) /\ in_reach (p2y (b2_min b))) /\ forall l, ~ collects (f_elem F32) (b2_into_iter b) l.
Proof.
  intros b. assert (H1 : holds (f32 16777216) 16777216) by (apply (h_int F32); unfold whole; cbn; lia).
  assert (X : in_reach (p2x (b2_min b))) by (destruct H1 as [F V]; split; [exact F|]; cbn [b p2x b2_min]; rewrite V; change (2 ^ fprec F32)%Z with 16777216%Z; lra).
  assert (Y : in_reach (p2y (b2_min b))) by apply (reach_0 F32).
  split; [now split|]. intros l H. destruct (proj1 (iter_ends F32 b X Y) (ex_intro _ l H)) as [[Q|[_ Q]] _]; [discriminate Q|].
  assert (C : Bltb (f32 16777216) (f32 16777218) = true) by (vm_compute; reflexivity). destruct H1 as [F1 V1]. rewrite Bltb_correct in C by (assumption || reflexivity).
  destruct (Rlt_bool_spec (B2R (f32 16777216)) (B2R (f32 16777218))) as [L|]; [|discriminate]. rewrite V1 in L. cbn [b p2x b2_max] in Q. change (2 ^ fprec F32)%Z with 16777216%Z in Q. lra.
Qed.
Lemma next_done f (it : Bounds2Iter (flt f)) : exists r, b2_next (f_elem f) it = Done r.
Proof. unfold b2_next. cbn [e_le f_elem e_add]. destruct (_ && _); [eexists; reflexivity|]. destruct (Bleb _ _); cbn [obind]; eexists; reflexivity. Qed.
Lemma limit_case : let p := P3 (f32 16777216) (f32 0) (f32 0) in let v := V3 (f32 1) (f32 0) (f32 0) in
  h_p3 p (P3 16777216 0 0)%Z /\ h_v3 v (V3 1 0 0)%Z /\ p3_add (f_elem F32) p v = Done p /\
  forall chk, p3_add (i64 chk) (P3 16777216 0 0)%Z (V3 1 0 0)%Z = Done (P3 16777217 0 0)%Z.
Proof.
  intros p v. assert (H : forall z, (Z.abs z <= 16777216)%Z -> holds (f32 z) z) by (intros z Hz; apply (h_int F32); exact Hz).
  assert (D : p3_add (f_elem F32) p v = Done p).
  { assert (Q : match p3_add (f_elem F32) p v with Done q => B2SF (px q) = B2SF (px p) /\ B2SF (py q) = B2SF (py p) /\ B2SF (pz q) = B2SF (pz p) | _ => False end) by (vm_compute; auto).
    destruct (p3_add (f_elem F32) p v) as [q| |]; try easy. destruct q as [x y z]. cbn [px py pz] in Q. destruct Q as (Q1 & Q2 & Q3). apply B2SF_inj in Q1, Q2, Q3. now subst. }
  split; [split; [|split]; apply H; cbn; lia|]. split; [split; [|split]; apply H; cbn; lia|]. split; [exact D|]. intros []; reflexivity.
Qed.
