(** Proofs for C128: floats that are whole numbers. *)
From Coq Require Import ZArith Reals List Lia Lra Bool.
From Flocq Require Import Core.Core IEEE754.BinarySingleNaN.
From Verif Require Import Base Elem FloatInst GeoModel MatModel GeoSpec ArithSpec MatSpec OpsSpec ChkSpec WholeSpec.
From Verif Require Import OrderProofs MatThms FloatCore FloatThms FloatErr FloatErrThms FloatInv FloatLaws IntThms ChkProofs.
Import ListNotations.
Local Open Scope mon_scope.
Local Open Scope Z_scope.

Section W.
Context (f : fmt).
Notation E := (f_elem f).
Notation B := (flt f).
Notation whole := (whole f).

Lemma whole_fits z : whole z -> fits z.
Proof. unfold WholeSpec.whole, fits. destruct f; cbn; lia. Qed.
Lemma whole_fmt z : whole z -> fmt_real f (IZR z) /\ (Rabs (IZR z) < big f)%R.
Proof. intros H. destruct (int_correct f z H) as [H1 H2]. apply (isv_fmt f (f_of_int f z)). now split. Qed.
Lemma h_int z : whole z -> holds (f_of_int f z) z.
Proof. intros H. destruct (int_correct f z H). now split. Qed.
Lemma h_0 : holds (f_of_int f 0) 0. Proof. apply h_int. unfold WholeSpec.whole. destruct f; cbn; lia. Qed.
Lemma h_1 : holds (f_of_int f 1) 1. Proof. apply h_int. unfold WholeSpec.whole. destruct f; cbn; lia. Qed.
Lemma h_2 : holds (f_of_int f 2) 2. Proof. apply h_int. unfold WholeSpec.whole. destruct f; cbn; lia. Qed.
Lemma h_add (x y : B) a b : holds x a -> holds y b -> whole (a + b) -> holds (f_add x y) (a + b).
Proof. intros X Y W. destruct (whole_fmt _ W) as [F L]. rewrite plus_IZR in F, L. unfold holds. rewrite plus_IZR. now apply isv_add. Qed.
Lemma h_sub (x y : B) a b : holds x a -> holds y b -> whole (a - b) -> holds (f_sub x y) (a - b).
Proof. intros X Y W. destruct (whole_fmt _ W) as [F L]. rewrite minus_IZR in F, L. unfold holds. rewrite minus_IZR. now apply isv_sub. Qed.
Lemma h_mul (x y : B) a b : holds x a -> holds y b -> whole (a * b) -> holds (f_mult x y) (a * b).
Proof. intros X Y W. destruct (whole_fmt _ W) as [F L]. rewrite mult_IZR in F, L. unfold holds. rewrite mult_IZR. now apply isv_mult. Qed.
Lemma h_mul' (x y : B) a b : holds x a -> holds y b -> whole (b * a) -> holds (f_mult x y) (b * a).
Proof. rewrite Z.mul_comm. apply h_mul. Qed.
Lemma h_opp (x : B) a : holds x a -> holds (Bopp x) (- a).
Proof. intros X. unfold holds. rewrite opp_IZR. now apply isv_opp. Qed.
Lemma h_abs (x : B) a : holds x a -> holds (Babs x) (Z.abs a).
Proof. intros [F V]. split; [now rewrite is_finite_Babs|]. now rewrite B2R_Babs, V, abs_IZR. Qed.
Lemma h_div (x y : B) a b : holds x (b * a) -> holds y b -> b <> 0 -> whole a -> holds (f_div x y) a.
Proof.
  intros [Fx Vx] [Fy Vy] Hb W. destruct (whole_fmt _ W) as [F L].
  assert (N : IZR b <> 0%R) by now apply not_0_IZR.
  destruct (div_key f x y Fx Fy ltac:(now rewrite Vy)) as (_ & K & Q).
  replace (B2R x / B2R y)%R with (IZR a) in K, Q by (rewrite Vx, Vy, mult_IZR; field; exact N).
  rewrite (rnd_id f _ F) in K, Q. rewrite Rlt_bool_true in Q by exact L. split; [exact Q|]. now rewrite <- key_finite, K, sat_in.
Qed.
Lemma h_sqrt (x : B) a : holds x (a * a) -> 0 <= a -> whole a -> holds (Bsqrt mode_NE x) a.
Proof.
  intros [Fx Vx] Ha W. destruct (whole_fmt _ W) as [F L].
  destruct (Bsqrt_correct _ _ (fprec_gt_0 f) (fprec_lt_emax f) mode_NE x) as (V & Q & _).
  rewrite Vx, mult_IZR, sqrt_square in V by now apply IZR_le.
  change (round radix2 _ (round_mode mode_NE) (IZR a)) with (rnd f (IZR a)) in V. rewrite (rnd_id f _ F) in V. split; [|exact V].
  rewrite Q. destruct x as [|[]| |[] m e He]; try discriminate; try reflexivity.
  exfalso. assert (P : (B2R (B754_finite true m e He : B) < 0)%R) by (apply F2R_lt_0; reflexivity). rewrite Vx in P. apply lt_IZR in P. nia.
Qed.
Lemma h_lt (x y : B) a b : holds x a -> holds y b -> Bltb x y = (a <? b).
Proof.
  intros [Fx Vx] [Fy Vy]. rewrite Bltb_correct by assumption. rewrite Vx, Vy.
  destruct (Z.ltb_spec a b); [apply Rlt_bool_true; now apply IZR_lt|apply Rlt_bool_false; now apply IZR_le].
Qed.
Lemma h_le (x y : B) a b : holds x a -> holds y b -> Bleb x y = (a <=? b).
Proof.
  intros [Fx Vx] [Fy Vy]. rewrite Bleb_correct by assumption. rewrite Vx, Vy.
  destruct (Z.leb_spec a b); [apply Rle_bool_true; now apply IZR_le|apply Rle_bool_false; now apply IZR_lt].
Qed.
Lemma h_eq (x y : B) a b : holds x a -> holds y b -> Beqb x y = (a =? b).
Proof.
  intros [Fx Vx] [Fy Vy]. rewrite Beqb_correct by assumption. rewrite Vx, Vy.
  destruct (Z.eqb_spec a b); [subst; now apply Req_bool_true|apply Req_bool_false; intros H; apply eq_IZR in H; congruence].
Qed.
(** ** Rules *)
Lemma ag {A C} (R : A -> C -> Prop) s (o : out A) oi z : checked oi s z -> exactly f R s o z -> agree f R s o oi z.
Proof. intros [H _] G W. split; [now apply G|]. apply H. eapply Forall_impl; [|exact W]. exact whole_fits. Qed.
Ltac facts := repeat match goal with H : Forall _ (_ :: _) |- _ => inversion H; subst; clear H | H : Forall _ [] |- _ => clear H end.
Ltac parts := repeat match goal with H : h_p2 _ _ |- _ => destruct H | H : h_v2 _ _ |- _ => destruct H | H : h_p3 _ _ |- _ => destruct H as (? & ? & ?)
  | H : h_v3 _ _ |- _ => destruct H as (? & ? & ?) | H : h_n3 _ _ |- _ => destruct H as (? & ? & ?) | H : h_b3 _ _ |- _ => destruct H end.
Ltac h := repeat first [assumption | apply h_0 | apply h_1 | apply h_2 | apply h_add | apply h_sub | apply h_mul | apply h_mul' | apply h_opp | apply h_abs].
Ltac ex := let W := fresh in intros W; unfold dot_steps, cross_steps, area_steps, volume_steps, steps_of, areaZ, volumeZ, dotZ, extZ, exts, addZ, subZ, scaleZ, negZ, vec_of, loc, mapv in W;
  cbn in W; facts; parts; eexists; (split; [reflexivity|]).
Ltac spread := match goal with |- h_p3 _ _ => split; [|split] | |- h_v3 _ _ => split; [|split] | |- h_n3 _ _ => split; [|split]
  | |- h_p2 _ _ => split | |- h_v2 _ _ => split | |- _ => idtac end.
Ltac fin := unfold areaZ, volumeZ, dotZ, extZ; cbn - [f_add f_sub f_mult f_div f_of_int Z.add Z.mul Z.sub Z.opp Z.abs holds Z.pow]; h.
Ltac go L := apply ag; [apply L|]; ex; spread; fin.
Lemma e_points p p' q q' v v' s s' : h_p3 p p' -> h_p3 q q' -> h_v3 v v' -> holds s s' ->
  agree f h_p3 (steps_of (addZ (loc p') v')) (p3_add E p v) (fun chk => p3_add (i64 chk) p' v') (pnt_of (addZ (loc p') v')) /\
  agree f h_p3 (steps_of (subZ (loc p') v')) (p3_sub_v E p v) (fun chk => p3_sub_v (i64 chk) p' v') (pnt_of (subZ (loc p') v')) /\
  agree f h_v3 (steps_of (subZ (loc p') (loc q'))) (p3_sub E p q) (fun chk => p3_sub (i64 chk) p' q') (subZ (loc p') (loc q')) /\
  agree f h_p3 (steps_of (scaleZ s' (loc p'))) (p3_mul E p s) (fun chk => p3_mul (i64 chk) p' s') (pnt_of (scaleZ s' (loc p'))) /\
  agree f h_p3 (steps_of (loc p')) (p3_abs E p) (fun chk => p3_abs (i64 chk) p') (pnt_of (mapv Z.abs (loc p'))).
Proof.
  intros Hp Hq Hv Hs. split; [|split; [|split; [|split]]]; [go ck_p3_add|go ck_p3_sub_v|go ck_p3_sub|go ck_p3_mul|].
  intros W. split; [revert W; ex; spread; fin|].
  assert (G : Forall fits (steps_of (loc p'))) by (eapply Forall_impl; [|exact W]; exact whole_fits).
  apply (ck_p3_abs p' G). eapply Forall_impl; [exact whole_fits|]. unfold steps_of, loc, mapv in *. cbn [vx vy vz] in *. facts.
  repeat apply Forall_cons; try apply Forall_nil; unfold WholeSpec.whole in *; lia.
Qed.
Lemma e_vectors u u' v v' s s' : h_v3 u u' -> h_v3 v v' -> holds s s' ->
  agree f h_v3 (steps_of (addZ u' v')) (v3_add E u v) (fun chk => v3_add (i64 chk) u' v') (addZ u' v') /\
  agree f h_v3 (steps_of (subZ u' v')) (v3_sub E u v) (fun chk => v3_sub (i64 chk) u' v') (subZ u' v') /\
  agree f h_v3 (steps_of (scaleZ s' u')) (v3_mul E u s) (fun chk => v3_mul (i64 chk) u' s') (scaleZ s' u') /\
  agree f h_v3 (steps_of (negZ u')) (v3_neg E u) (fun chk => v3_neg (i64 chk) u') (negZ u') /\
  agree f holds (dot_steps u' v') (v3_dot E u v) (fun chk => v3_dot (i64 chk) u' v') (dotZ u' v') /\
  agree f holds (dot_steps u' u') (v3_len_sq E u) (fun chk => v3_len_sq (i64 chk) u') (dotZ u' u') /\
  agree f h_v3 (cross_steps u' v') (v3_cross E u v) (fun chk => v3_cross (i64 chk) u' v') (crossZ u' v').
Proof.
  intros Hu Hv Hs. split; [|split; [|split; [|split; [|split; [|split]]]]]; [go ck_v3_add|go ck_v3_sub|go ck_v3_mul|go ck_v3_neg|go ck_v3_dot|go ck_v3_len_sq|go ck_v3_cross].
Qed.
Lemma e_face u u' v v' : h_v3 u u' -> h_v3 v v' ->
  agree f h_v3 (dot_steps u' v' ++ if dotZ u' v' <? 0 then steps_of (negZ u') else []) (v3_face_forward E u v)
    (fun chk => v3_face_forward (i64 chk) u' v') (if dotZ u' v' <? 0 then negZ u' else u').
Proof.
  intros Hu Hv. apply ag; [apply ck_v3_face|]. intros W. apply Forall_app in W as [W _].
  assert (D : holds (f_add (f_add (f_mult (vx u) (vx v)) (f_mult (vy u) (vy v))) (f_mult (vz u) (vz v))) (dotZ u' v')).
  { unfold dot_steps, dotZ in W. facts. parts. fin. }
  exists (if dotZ u' v' <? 0 then V3 (Bopp (vx u)) (Bopp (vy u)) (Bopp (vz u)) else u). split.
  - unfold v3_face_forward. change (v3_dot E u v) with (Done (f_add (f_add (f_mult (vx u) (vx v)) (f_mult (vy u) (vy v))) (f_mult (vz u) (vz v)))).
    cbn [obind e_lt f_elem e_from_int]. rewrite (h_lt _ _ _ _ D h_0). destruct (dotZ u' v' <? 0); reflexivity.
  - parts. destruct (dotZ u' v' <? 0); spread; fin.
Qed.
Lemma e_n_face u u' v v' : h_n3 u u' -> h_n3 v v' ->
  agree f h_n3 (dot_steps (vec_of u') (vec_of v') ++ if dotZ (vec_of u') (vec_of v') <? 0 then steps_of (negZ (vec_of u')) else []) (n3_face_forward E u v)
    (fun chk => n3_face_forward (i64 chk) u' v') (if dotZ (vec_of u') (vec_of v') <? 0 then nrm_of (negZ (vec_of u')) else u').
Proof.
  intros Hu Hv. apply ag; [apply ck_n3_face|]. intros W. apply Forall_app in W as [W _].
  assert (D : holds (f_add (f_add (f_mult (nx u) (nx v)) (f_mult (ny u) (ny v))) (f_mult (nz u) (nz v))) (dotZ (vec_of u') (vec_of v'))).
  { unfold dot_steps, dotZ, vec_of in W. cbn [vx vy vz] in W. facts. parts. fin. }
  exists (if dotZ (vec_of u') (vec_of v') <? 0 then N3 (Bopp (nx u)) (Bopp (ny u)) (Bopp (nz u)) else u). split.
  - unfold n3_face_forward. change (n3_dot E u v) with (Done (f_add (f_add (f_mult (nx u) (nx v)) (f_mult (ny u) (ny v))) (f_mult (nz u) (nz v)))).
    cbn [obind e_lt f_elem e_from_int]. rewrite (h_lt _ _ _ _ D h_0). destruct (dotZ (vec_of u') (vec_of v') <? 0); reflexivity.
  - parts. destruct (dotZ (vec_of u') (vec_of v') <? 0); spread; fin.
Qed.
Lemma e_normals u u' v v' s s' : h_n3 u u' -> h_n3 v v' -> holds s s' -> let a := vec_of u' in let b := vec_of v' in
  agree f h_n3 (steps_of (addZ a b)) (n3_add E u v) (fun chk => n3_add (i64 chk) u' v') (nrm_of (addZ a b)) /\
  agree f h_n3 (steps_of (subZ a b)) (n3_sub E u v) (fun chk => n3_sub (i64 chk) u' v') (nrm_of (subZ a b)) /\
  agree f h_n3 (steps_of (scaleZ s' a)) (n3_mul E u s) (fun chk => n3_mul (i64 chk) u' s') (nrm_of (scaleZ s' a)) /\
  agree f h_n3 (steps_of (negZ a)) (n3_neg E u) (fun chk => n3_neg (i64 chk) u') (nrm_of (negZ a)) /\
  agree f holds (dot_steps a b) (n3_dot E u v) (fun chk => n3_dot (i64 chk) u' v') (dotZ a b) /\
  agree f holds (dot_steps a a) (n3_len_sq E u) (fun chk => n3_len_sq (i64 chk) u') (dotZ a a) /\
  agree f h_n3 (cross_steps a b) (n3_cross E u v) (fun chk => n3_cross (i64 chk) u' v') (nrm_of (crossZ a b)).
Proof.
  intros Hu Hv Hs a b. split; [|split; [|split; [|split; [|split; [|split]]]]]; [go ck_n3_add|go ck_n3_sub|go ck_n3_mul|go ck_n3_neg|go ck_n3_dot|go ck_n3_len_sq|go ck_n3_cross].
Qed.
(** ** Order: no conditions *)
Definition rel {A C} (R : A -> C -> Prop) (m : out A) (n : out C) : Prop := exists x z, m = Done x /\ n = Done z /\ R x z.
Lemma sm_of {A C} (R : A -> C -> Prop) m (n : bool -> out C) : (forall chk, rel R m (n chk)) -> n true = n false -> same R m n.
Proof. intros H Q. destruct (H true) as (x & z & E1 & E2 & K). exists x, z. split; [exact E1|]. split; [|exact K]. intros []; congruence. Qed.
Lemma sm_bind {A A' C C'} (R : A -> A' -> Prop) (S : C -> C' -> Prop) m n k (ki : A' -> out C') : rel R m n ->
  (forall x z, R x z -> rel S (k x) (ki z)) -> rel S (obind m k) (obind n ki).
Proof.
  intros (x & z & E1 & E2 & H) K. destruct (K x z H) as (y & w & E3 & E4 & H'). exists y, w. rewrite E1, E2. cbn [obind]. auto.
Qed.
Lemma sm_done {A A'} (R : A -> A' -> Prop) x z : R x z -> rel R (Done x) (Done z).
Proof. intros H. now exists x, z. Qed.
Lemma sm_mk3 {C C'} (S : C -> C' -> Prop) (c : B -> B -> B -> C) (c' : Z -> Z -> Z -> C') m1 m2 m3 n1 n2 n3 :
  (forall x y z a b d, holds x a -> holds y b -> holds z d -> S (c x y z) (c' a b d)) ->
  rel holds m1 n1 -> rel holds m2 n2 -> rel holds m3 n3 -> rel S (mk3 c m1 m2 m3) (mk3 c' n1 n2 n3).
Proof.
  intros HS H1 H2 H3. unfold mk3. apply (sm_bind holds S _ _ _ _ H1). intros x a Ha.
  apply (sm_bind holds S _ _ _ _ H2). intros y b Hb. apply (sm_bind holds S _ _ _ _ H3). intros z d Hd. apply sm_done. auto.
Qed.
Lemma sm_min_fold (l : list B) l' : Forall2 holds l l' -> forall x a chk, holds x a ->
  holds (fold_left (fun m e => if e_lt E e m then e else m) l x) (fold_left (fun m e => if e_lt (i64 chk) e m then e else m) l' a).
Proof.
  induction 1 as [|y b l l' H _ IH]; intros x a chk X; cbn [fold_left]; [exact X|]. apply IH.
  cbn [e_lt f_elem i64]. rewrite (h_lt _ _ _ _ H X). now destruct (b <? a).
Qed.
Lemma sm_pmin l l' : Forall2 holds l l' -> l <> [] -> forall chk, rel holds (pmin E l) (pmin (i64 chk) l').
Proof.
  intros H N chk. destruct H as [|x a l l' X H]; [now elim N|]. unfold pmin.
  exists (fold_left (fun m e => if e_lt E e m then e else m) l x), (fold_left (fun m e => if e_lt (i64 chk) e m then e else m) l' a).
  split; [reflexivity|]. split; [reflexivity|]. now apply (sm_min_fold l l' H x a chk).
Qed.
Lemma sm_max_fold (l : list B) l' : Forall2 holds l l' -> forall x a chk, holds x a ->
  holds (fold_left (fun m e => if e_lt E m e then e else m) l x) (fold_left (fun m e => if e_lt (i64 chk) m e then e else m) l' a).
Proof.
  induction 1 as [|y b l l' H _ IH]; intros x a chk X; cbn [fold_left]; [exact X|]. apply IH.
  cbn [e_lt f_elem i64]. rewrite (h_lt _ _ _ _ X H). now destruct (a <? b).
Qed.
Lemma sm_pmax l l' : Forall2 holds l l' -> l <> [] -> forall chk, rel holds (pmax E l) (pmax (i64 chk) l').
Proof.
  intros H N chk. destruct H as [|x a l l' X H]; [now elim N|]. unfold pmax.
  exists (fold_left (fun m e => if e_lt E m e then e else m) l x), (fold_left (fun m e => if e_lt (i64 chk) m e then e else m) l' a).
  split; [reflexivity|]. split; [reflexivity|]. now apply (sm_max_fold l l' H x a chk).
Qed.
Lemma mk_p3 x y z a b d : holds x a -> holds y b -> holds z d -> h_p3 (P3 x y z : Point3 B) (P3 a b d). Proof. now split. Qed.
Lemma mk_v3 x y z a b d : holds x a -> holds y b -> holds z d -> h_v3 (V3 x y z : Vector3 B) (V3 a b d). Proof. now split. Qed.
Lemma mk_n3 x y z a b d : holds x a -> holds y b -> holds z d -> h_n3 (N3 x y z : Normal3 B) (N3 a b d). Proof. now split. Qed.
Ltac ends := repeat first [assumption | apply Forall2_cons | apply Forall2_nil].
Ltac pick := first [apply sm_pmin | apply sm_pmax]; [ends|discriminate].
Lemma r_pt_pair p p' q q' chk : h_p3 p p' -> h_p3 q q' -> rel h_p3 (p3_min E p q) (p3_min (i64 chk) p' q') /\ rel h_p3 (p3_max E p q) (p3_max (i64 chk) p' q').
Proof. intros Hp Hq. parts. split; (apply sm_mk3; [exact mk_p3|pick|pick|pick]). Qed.
Lemma r_new p p' q q' chk : h_p3 p p' -> h_p3 q q' -> rel h_b3 (b3_new E p q) (b3_new (i64 chk) p' q').
Proof.
  intros Hp Hq. parts. unfold b3_new.
  eapply sm_bind; [apply (sm_mk3 h_p3); [exact mk_p3|pick|pick|pick]|]. intros lo lo' Hlo.
  eapply sm_bind; [apply (sm_mk3 h_p3); [exact mk_p3|pick|pick|pick]|]. intros hi hi' Hhi. apply sm_done. now split.
Qed.
Ltac two := eapply sm_bind; [apply (sm_mk3 h_p3); [exact mk_p3|pick|pick|pick]|]; intros ? ? ?;
  eapply sm_bind; [apply (sm_mk3 h_p3); [exact mk_p3|pick|pick|pick]|]; intros ? ? ?; now apply r_new.
Lemma r_union_pt a a' p p' chk : h_b3 a a' -> h_p3 p p' -> rel h_b3 (b3_union_pt E a p) (b3_union_pt (i64 chk) a' p').
Proof. intros Ha Hp. parts. unfold b3_union_pt. two. Qed.
Lemma r_union a a' b b' chk : h_b3 a a' -> h_b3 b b' -> rel h_b3 (b3_union E a b) (b3_union (i64 chk) a' b').
Proof. intros Ha Hp. parts. unfold b3_union. two. Qed.
Lemma r_intersect a a' b b' chk : h_b3 a a' -> h_b3 b b' -> rel h_b3 (b3_intersect E a b) (b3_intersect (i64 chk) a' b').
Proof. intros Ha Hp. parts. unfold b3_intersect. two. Qed.
Ltac by_order := parts; cbn [e_lt e_le f_elem i64]; repeat match goal with X : holds ?x ?a, Y : holds ?y ?b |- context [Bltb ?x ?y] => rewrite (h_lt x y a b X Y)
  | X : holds ?x ?a, Y : holds ?y ?b |- context [Bleb ?x ?y] => rewrite (h_le x y a b X Y) end; reflexivity.
Lemma s_boxes a a' b b' p p' q q' : h_b3 a a' -> h_b3 b b' -> h_p3 p p' -> h_p3 q q' ->
  (same h_b3 (b3_new E p q) (fun chk => b3_new (i64 chk) p' q') /\ same h_b3 (b3_union E a b) (fun chk => b3_union (i64 chk) a' b') /\
   same h_b3 (b3_union_pt E a p) (fun chk => b3_union_pt (i64 chk) a' p') /\ same h_b3 (b3_intersect E a b) (fun chk => b3_intersect (i64 chk) a' b')) /\
  (forall chk, b3_overlaps E a b = b3_overlaps (i64 chk) a' b' /\ b3_inside E a p = b3_inside (i64 chk) a' p' /\
   b3_inside_exclusive E a p = b3_inside_exclusive (i64 chk) a' p').
Proof.
  intros Ha Hb Hp Hq. split.
  - split; [|split; [|split]]; (apply sm_of; [intros chk|reflexivity]); auto using r_new, r_union, r_union_pt, r_intersect.
  - intros chk. split; [|split]; [unfold b3_overlaps|unfold b3_inside|unfold b3_inside_exclusive]; by_order.
Qed.
Lemma s_components v v' w w' p p' q q' n n' m m' : h_v3 v v' -> h_v3 w w' -> h_p3 p p' -> h_p3 q q' -> h_n3 n n' -> h_n3 m m' ->
  (same holds (v3_min_component E v) (fun chk => v3_min_component (i64 chk) v') /\ same holds (v3_max_component E v) (fun chk => v3_max_component (i64 chk) v') /\
   same h_v3 (v3_min E v w) (fun chk => v3_min (i64 chk) v' w') /\ same h_v3 (v3_max E v w) (fun chk => v3_max (i64 chk) v' w') /\
   forall chk, v3_max_dimension E v = v3_max_dimension (i64 chk) v') /\
  (same holds (n3_min_component E n) (fun chk => n3_min_component (i64 chk) n') /\ same holds (n3_max_component E n) (fun chk => n3_max_component (i64 chk) n') /\
   same h_n3 (n3_min E n m) (fun chk => n3_min (i64 chk) n' m') /\ same h_n3 (n3_max E n m) (fun chk => n3_max (i64 chk) n' m') /\
   forall chk, n3_max_dimension E n = n3_max_dimension (i64 chk) n') /\
  (same h_p3 (p3_min E p q) (fun chk => p3_min (i64 chk) p' q') /\ same h_p3 (p3_max E p q) (fun chk => p3_max (i64 chk) p' q')).
Proof.
  intros Hv Hw Hp Hq Hn Hm.
  assert (P : same h_p3 (p3_min E p q) (fun chk => p3_min (i64 chk) p' q') /\ same h_p3 (p3_max E p q) (fun chk => p3_max (i64 chk) p' q'))
    by (split; (apply sm_of; [intros chk; now apply r_pt_pair|reflexivity])).
  parts. split; [|split; [|exact P]]; clear P.
  - split; [|split; [|split; [|split]]]; try (apply sm_of; [intros chk|reflexivity]); [pick|pick| | |intros chk; unfold v3_max_dimension; by_order];
      (apply sm_mk3; [exact mk_v3|pick|pick|pick]).
  - split; [|split; [|split; [|split]]]; try (apply sm_of; [intros chk|reflexivity]); [pick|pick| | |intros chk; unfold n3_max_dimension; by_order];
      (apply sm_mk3; [exact mk_n3|pick|pick|pick]).
Qed.
(** ** Measures of boxes *)
Lemma e_boxes a a' d d' : h_b3 a a' -> holds d d' ->
  agree f h_v3 (steps_of (exts a')) (b3_diagonal E a) (fun chk => b3_diagonal (i64 chk) a') (exts a') /\
  agree f eq (steps_of (exts a')) (b3_maximum_extent E a) (fun chk => b3_maximum_extent (i64 chk) a') (longestZ a') /\
  agree f holds (area_steps a') (b3_surface_area E a) (fun chk => b3_surface_area (i64 chk) a') (areaZ a') /\
  agree f holds (volume_steps a') (b3_volume E a) (fun chk => b3_volume (i64 chk) a') (volumeZ a') /\
  agree f h_b3 (steps_of (subZ (loc (b_min a')) (diagZ d')) ++ steps_of (addZ (loc (b_max a')) (diagZ d'))) (b3_expand E a d) (fun chk => b3_expand (i64 chk) a' d')
    (spanZ (subZ (loc (b_min a')) (diagZ d')) (addZ (loc (b_max a')) (diagZ d'))).
Proof.
  intros Ha Hd.
  assert (D : forall s, (forall z, In z (steps_of (exts a')) -> In z s) -> Forall whole s -> exists v, b3_diagonal E a = Done v /\ h_v3 v (exts a')).
  { intros s I W. rewrite Forall_forall in W. assert (W' : Forall whole (steps_of (exts a'))) by (apply Forall_forall; auto). revert W'. clear W I. ex. spread; fin. }
  split; [|split; [|split; [|split]]].
  - apply ag; [apply ck_diagonal|]. intros W. now apply (D (steps_of (exts a'))).
  - apply ag; [apply ck_extent|]. intros W. destruct (D _ (fun z H => H) W) as (v & Ev & Hv). unfold b3_maximum_extent. rewrite Ev. cbn [obind].
    eexists. split; [reflexivity|]. unfold longestZ. destruct Hv as (H1 & H2 & H3). cbn [e_lt f_elem].
    rewrite (h_lt _ _ _ _ H2 H1), (h_lt _ _ _ _ H3 H1), (h_lt _ _ _ _ H3 H2). reflexivity.
  - go ck_area.
  - go ck_volume.
  - apply ag; [apply ck_expand|]. intros W. apply Forall_app in W as [W1 W2]. unfold b3_expand.
    destruct (e_points (b_min a) (b_min a') (b_min a) (b_min a') (V3 d d d) (diagZ d') d d' (proj1 Ha) (proj1 Ha) ltac:(now split) Hd) as (_ & P & _).
    destruct (e_points (b_max a) (b_max a') (b_max a) (b_max a') (V3 d d d) (diagZ d') d d' (proj2 Ha) (proj2 Ha) ltac:(now split) Hd) as (Q & _).
    destruct (P W1) as [(lo & E1 & H1) _]. destruct (Q W2) as [(hi & E2 & H2) _]. rewrite E1. cbn [obind]. rewrite E2. cbn [obind].
    destruct (r_new _ _ _ _ true H1 H2) as (x & z & E3 & E4 & H3). exists x. split; [exact E3|].
    replace (spanZ _ _) with z; [exact H3|]. apply (f_equal (fun o => match o with Done c => Some c | _ => None end)) in E4. cbv beta iota in E4. injection E4 as <-.
    unfold spanZ, pnt_of, zipv, subZ, addZ, loc, diagZ. cbn [vx vy vz]. f_equal.
    all: f_equal; match goal with |- (if ?c then _ else _) = _ => destruct c eqn:Q' end; lia.
Qed.
(** ** Division, where there is no remainder *)
Lemma quot_back q s : s <> 0 -> Z.quot (s * q) s = q. Proof. intros H. rewrite Z.mul_comm. now apply Z.quot_mul. Qed.
Lemma i_div chk q s : s <> 0 -> fits q -> e_div (i64 chk) (s * q) s = Done q.
Proof.
  intros Hs Hq. cbn [e_div i64]. destruct (Z.eqb_spec s 0); [easy|]. rewrite quot_back by assumption.
  now rewrite (proj1 (fits_range q) Hq).
Qed.
Lemma e_div_all p q v w n m s s' : h_p3 p (pnt_of (scaleZ s' (loc q))) -> h_v3 v (scaleZ s' w) -> h_n3 n (nrm_of (scaleZ s' (vec_of m))) -> holds s s' -> s' <> 0 ->
  agree f h_p3 (steps_of (loc q)) (p3_div E p s) (fun chk => p3_div (i64 chk) (pnt_of (scaleZ s' (loc q))) s') q /\
  agree f h_v3 (steps_of w) (v3_div E v s) (fun chk => v3_div (i64 chk) (scaleZ s' w) s') w /\
  agree f h_n3 (steps_of (vec_of m)) (n3_div E n s) (fun chk => n3_div (i64 chk) (nrm_of (scaleZ s' (vec_of m))) s') m.
Proof.
  intros Hp Hv Hn Hs N.
  split; [|split]; intros W; (split; [revert W; ex; spread; fin; (eapply h_div; [|exact Hs|exact N|assumption]); assumption|]);
    intros chk; unfold steps_of in W; facts;
    [unfold p3_div|unfold v3_div|unfold n3_div]; unfold pnt_of, nrm_of, scaleZ, loc, vec_of, mk3, lift2 in *; cbn [px py pz vx vy vz nx ny nz obind] in *;
    rewrite !(i_div chk) by (auto using whole_fits); [now destruct q|now destruct w|now destruct m].
Qed.
(** ** Lengths *)
Lemma e_len v v' n : h_v3 v v' -> 0 <= n -> dotZ v' v' = n * n -> Forall whole (dot_steps v' v') ->
  (exists l, v3_len (f_float f) E (fun x => x) v = Done l /\ holds l n) /\
  (forall chk, exists l, v3_len (f_float f) (i64 chk) (f_of_int f) v' = Done l /\ holds l n).
Proof.
  intros Hv Hn HD W. assert (Wd : whole (dotZ v' v')) by (unfold dot_steps in W; facts; assumption).
  assert (Wn : whole n) by (unfold WholeSpec.whole in *; nia).
  destruct (e_vectors v v' v v' (f_of_int f 0) 0 Hv Hv h_0) as (_ & _ & _ & _ & _ & L & _). destruct (L W) as [(d & Ed & Hd) Ei].
  rewrite HD in Hd, Wd. split.
  - unfold v3_len. rewrite Ed. cbn [obind fl_sqrt f_float]. eexists. split; [reflexivity|]. now apply h_sqrt.
  - intros chk. unfold v3_len. rewrite Ei, HD. cbn [obind fl_sqrt f_float]. eexists. split; [reflexivity|]. apply h_sqrt; auto. now apply h_int.
Qed.
(** ** Matrices *)
Lemma m4_total a b : (exists p, m4_mul E a b = Done p) /\ (exists p, m4_add E a b = Done p).
Proof. split; eexists; [rewrite mul_fill|rewrite add_fill]; reflexivity. Qed.
Lemma e_mats a a' b b' : h_m4 a a' -> h_m4 b b' ->
  agree f h_m4 (prod_steps a' b') (m4_mul E a b) (fun chk => m4_mul (i64 chk) a' b') (prodZ a' b') /\
  agree f h_m4 (sum_steps a' b') (m4_add E a b) (fun chk => m4_add (i64 chk) a' b') (sumZ a' b') /\
  forall r c, holds (mget (m4_transpose a) r c) (mget a' c r).
Proof.
  intros Ha Hb. destruct (m4_total a b) as [[p Ep] [q Eq]]. split; [|split].
  - apply ag; [apply ck_mul|]. intros W. exists p. split; [exact Ep|]. intros r c. rewrite (mul_entry f a b p Ep).
    assert (Wr : Forall whole (entry_steps a' b' r c)).
    { rewrite Forall_forall in *. intros z Hz. apply W. unfold prod_steps. apply in_flat_map. exists r. split; [destruct r; cbn; tauto|].
      apply in_flat_map. exists c. split; [destruct c; cbn; tauto|exact Hz]. }
    unfold entry_steps in Wr. facts. unfold prodZ, prod_of, fsum4. rewrite mget_mkm. unfold MatSpec.sum4.
    assert (Z0 : holds (f_add (f_of_int f 0) (f_mult (mget a r I0) (mget b I0 c))) (mget a' r I0 * mget b' I0 c))
      by (change (mget a' r I0 * mget b' I0 c) with (0 + mget a' r I0 * mget b' I0 c); apply h_add; [apply h_0|now apply h_mul|assumption]).
    apply h_add; [apply h_add; [apply h_add; [exact Z0| |]| |]| |]; try assumption; now apply h_mul.
  - apply ag; [apply ck_add|]. intros W. exists q. split; [exact Eq|]. intros r c. rewrite (add_entry f a b q Eq).
    unfold sumZ, sum_of. rewrite mget_mkm. apply h_add; auto. rewrite Forall_forall in W. apply W. unfold sum_steps. apply in_flat_map.
    exists r. split; [destruct r; cbn; tauto|]. apply in_map_iff. exists c. split; [reflexivity|destruct c; cbn; tauto].
  - intros r c. destruct r, c; apply Ha.
Qed.
(** ** Operations on Float alone *)
Lemma e_at (r : Ray B) o d t t' : h_p3 (r_o r) o -> h_v3 (r_d r) d -> holds t t' ->
  exactly f h_p3 (at_steps o d t') (ray_at (f_float f) r t) (pnt_of (addZ (loc o) (scaleZ t' d))).
Proof.
  intros Ho Hd Ht W. apply Forall_app in W as [W1 W2]. revert W1. ex.
  unfold steps_of, addZ, scaleZ, loc in W2. cbn [vx vy vz] in W2. facts. spread; fin.
Qed.
Lemma e_lerp (t a b : B) t' a' b' : holds t t' -> holds a a' -> holds b b' -> exactly f holds (lerp_steps t' a' b') (lerp (f_float f) t a b) (lerpZ t' a' b').
Proof. intros Ht Ha Hb W. unfold lerp_steps, lerpZ in *. facts. eexists. split; [reflexivity|]. fin. Qed.
Lemma e_lerp_pt (t : B) p q t' p' q' : holds t t' -> h_p3 p p' -> h_p3 q q' ->
  exactly f h_p3 (lerp_steps t' (px p') (px q') ++ lerp_steps t' (py p') (py q') ++ lerp_steps t' (pz p') (pz q')) (p3_lerp (f_float f) t p q)
    (P3 (lerpZ t' (px p') (px q')) (lerpZ t' (py p') (py q')) (lerpZ t' (pz p') (pz q'))).
Proof.
  intros Ht Hp Hq W. apply Forall_app in W as [W1 W]. apply Forall_app in W as [W2 W3]. unfold lerp_steps, lerpZ in *. facts. parts.
  eexists. split; [reflexivity|]. spread; fin.
Qed.
Lemma e_transform v v' (t : Transform B) m' : h_v3 v v' -> h_m4 (t_m t) m' ->
  exactly f h_v3 (row_steps m' v' I0 ++ row_steps m' v' I1 ++ row_steps m' v' I2) (v3_transform (f_float f) (fun x => x) v t)
    (V3 (rowZ m' v' I0) (rowZ m' v' I1) (rowZ m' v' I2)).
Proof.
  intros Hv Hm W. apply Forall_app in W as [W1 W]. apply Forall_app in W as [W2 W3]. unfold row_steps, rowZ in *. facts. parts.
  eexists. split; [reflexivity|]. split; [|split]; cbn [vx vy vz];
    (apply h_add; [apply h_add; [apply h_mul; [apply Hm|assumption|assumption]|apply h_mul; [apply Hm|assumption|assumption]|assumption]|apply h_mul; [apply Hm|assumption|assumption]|assumption]).
Qed.
Lemma e_round p p' : h_p3 p p' -> h_p3 (p3_floor (f_float f) p) p' /\ h_p3 (p3_ceil (f_float f) p) p'.
Proof.
  assert (N : forall md (x : B) a, md = mode_DN \/ md = mode_UP -> holds x a -> holds (Bnearbyint md x) a).
  { intros md x a M [F V]. destruct (Bnearbyint_correct _ _ (fprec_lt_emax f) md x) as (V' & F' & _). split; [now rewrite F'|]. rewrite V', V.
    rewrite round_generic; [reflexivity|destruct M; subst; apply valid_rnd_round_mode|].
    apply generic_format_FIX. exists (Float radix2 a 0); [unfold F2R; cbn; ring|reflexivity]. }
  intros Hp. parts. split; (split; [|split]); apply N; auto.
Qed.
End W.
