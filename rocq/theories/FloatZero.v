(** Proofs for C127: the sign of zero matters only where something is divided by a zero that was given. *)
From Coq Require Import Reals Lra.
From Flocq Require Import Core.Core IEEE754.BinarySingleNaN.
From Verif Require Import Base Elem FloatInst GeoModel MatModel EqModel EqSpec EqThms ZeroSpec FloatCore.
Close Scope R_scope.
Local Open Scope mon_scope.

(** ** Outcomes *)
Section Both.
Context {A B C D : Type}.
Lemma bo_bind (R : A -> B -> Prop) (S : C -> D -> Prop) m n k l : both R m n -> (forall a b, R a b -> both S (k a) (l b)) -> both S (obind m k) (obind n l).
Proof. destruct m, n; cbn; auto; tauto. Qed.
End Both.
Lemma bo_impl {A B} (R S : A -> B -> Prop) m n : (forall a b, R a b -> S a b) -> both R m n -> both S m n.
Proof. destruct m, n; cbn; auto. Qed.
Lemma bo_lift2 {A} (R : A -> A -> Prop) (op : A -> A -> out A) m n m' n' : (forall a b a' b', R a a' -> R b b' -> both R (op a b) (op a' b')) ->
  both R m m' -> both R n n' -> both R (lift2 op m n) (lift2 op m' n').
Proof. intros H Hm Hn. unfold lift2. eapply bo_bind; [exact Hm|]. intros a b Hab. eapply bo_bind; [exact Hn|]. intros c d Hcd. now apply H. Qed.
Lemma bo_mk3 {A C} (R : A -> A -> Prop) (S : C -> C -> Prop) (k : A -> A -> A -> C) x y z x' y' z' :
  (forall a b c a' b' c', R a a' -> R b b' -> R c c' -> S (k a b c) (k a' b' c')) ->
  both R x x' -> both R y y' -> both R z z' -> both S (mk3 k x y z) (mk3 k x' y' z').
Proof.
  intros H Hx Hy Hz. unfold mk3. eapply bo_bind; [exact Hx|]. intros ? ? ?. eapply bo_bind; [exact Hy|]. intros ? ? ?. eapply bo_bind; [exact Hz|]. intros ? ? ?. now apply H.
Qed.
Lemma bo_mk2 {A C} (R : A -> A -> Prop) (S : C -> C -> Prop) (k : A -> A -> C) x y x' y' :
  (forall a b a' b', R a a' -> R b b' -> S (k a b) (k a' b')) -> both R x x' -> both R y y' -> both S (mk2 k x y) (mk2 k x' y').
Proof. intros H Hx Hy. unfold mk2. eapply bo_bind; [exact Hx|]. intros ? ? ?. eapply bo_bind; [exact Hy|]. intros ? ? ?. now apply H. Qed.
Lemma bo_for4 {A} (S : A -> A -> Prop) s s' k l : S s s' -> (forall i a b, S a b -> both S (k i a) (l i b)) -> both S (for4 s k) (for4 s' l).
Proof. intros H K. unfold for4. repeat (eapply bo_bind; [apply K; eassumption|]; intros ? ? ?). now apply K. Qed.
Lemma bo_for4_rev {A} (S : A -> A -> Prop) s s' k l : S s s' -> (forall i a b, S a b -> both S (k i a) (l i b)) -> both S (for4_rev s k) (for4_rev s' l).
Proof. intros H K. unfold for4_rev. repeat (eapply bo_bind; [apply K; eassumption|]; intros ? ? ?). now apply K. Qed.

Section Zero.
Context (f : fmt).
Notation B := (flt f).
Notation E := (f_elem f).
Notation FT := (f_float f).
Notation zero := (f_of_int f 0).
Notation one := (f_of_int f 1).
Implicit Types x y z : B.

(** ** Floats *)
Lemma up_cases x y : upto x y <-> x = y \/ (a_zero x /\ a_zero y).
Proof.
  unfold upto. split.
  - intros H. assert (K : is_finite x = true -> is_finite y = true -> B2R x = B2R y).
    { intros Fx Fy. destruct x as [s|s| |s m e b], y as [t|t| |t n h b']; try discriminate Fx; try discriminate Fy; cbn [value] in H; first [reflexivity | now injection H]. }
    destruct x as [s|s| |s m e b], y as [t|t| |t n h b']; cbn [value] in H; try (destruct s; discriminate H); try (destruct t; discriminate H); try discriminate H.
    + right. split; eexists; reflexivity.
    + exfalso. specialize (K eq_refl eq_refl). cbn in K. symmetry in K. apply Float_prop.eq_0_F2R in K || apply eq_0_F2R in K. destruct t; discriminate K.
    + left. destruct s, t; congruence.
    + now left.
    + exfalso. specialize (K eq_refl eq_refl). cbn in K. apply Float_prop.eq_0_F2R in K || apply eq_0_F2R in K. destruct s; discriminate K.
    + left. apply B2R_inj; [reflexivity..|]. now apply K.
  - intros [->|[[s ->] [t ->]]]; reflexivity.
Qed.
Lemma up_refl x : upto x x.
Proof. reflexivity. Qed.
Lemma up_sym x y : upto x y -> upto y x.
Proof. unfold upto. auto. Qed.
Lemma up_trans x y z : upto x y -> upto y z -> upto x z.
Proof. unfold upto. congruence. Qed.
Lemma up_nonzero x y : upto x y -> ~ a_zero x -> x = y.
Proof. rewrite up_cases. tauto. Qed.
Ltac two H K := apply up_cases in H as [->|[[? ->] [? ->]]]; apply up_cases in K as [->|[[? ->] [? ->]]].
Ltac one_ H := apply up_cases in H as [->|[[? ->] [? ->]]].
Ltac bash := repeat match goal with s : bool |- _ => destruct s end; cbn; try reflexivity.
Ltac fin2 H K := two H K; try reflexivity; try (match goal with v : B |- _ => destruct v end; bash; fail); bash.
Lemma up_add x y x' y' : upto x x' -> upto y y' -> upto (f_add x y) (f_add x' y').
Proof. intros H K. fin2 H K. Qed.
Lemma up_sub x y x' y' : upto x x' -> upto y y' -> upto (f_sub x y) (f_sub x' y').
Proof. intros H K. fin2 H K. Qed.
Lemma up_mult x y x' y' : upto x x' -> upto y y' -> upto (f_mult x y) (f_mult x' y').
Proof. intros H K. fin2 H K. Qed.
Lemma up_div x y x' : upto x x' -> upto (f_div x y) (f_div x' y).
Proof. intros H. one_ H; try reflexivity. destruct y; bash. Qed.
Lemma up_opp x x' : upto x x' -> upto (Bopp x) (Bopp x').
Proof. intros H. one_ H; reflexivity. Qed.
Lemma up_abs x x' : upto x x' -> Babs x = Babs x'.
Proof. intros H. one_ H; reflexivity. Qed.
Lemma up_square x x' : upto x x' -> f_mult x x = f_mult x' x'.
Proof. intros H. one_ H; bash. Qed.
Lemma up_sqrt x x' : upto x x' -> upto (Bsqrt mode_NE x) (Bsqrt mode_NE x').
Proof. intros H. one_ H; reflexivity. Qed.
Lemma up_round md x x' : upto x x' -> upto (Bnearbyint md x) (Bnearbyint md x').
Proof. intros H. one_ H; reflexivity. Qed.
Lemma up_nan x x' : upto x x' -> is_nan x = is_nan x'.
Proof. intros H. one_ H; reflexivity. Qed.
Lemma up_lt x y x' y' : upto x x' -> upto y y' -> Bltb x y = Bltb x' y'.
Proof. intros H K. fin2 H K. Qed.
Lemma up_le x y x' y' : upto x x' -> upto y y' -> Bleb x y = Bleb x' y'.
Proof. intros H K. fin2 H K. Qed.
Lemma up_eqb x y x' y' : upto x x' -> upto y y' -> Beqb x y = Beqb x' y'.
Proof. intros H K. fin2 H K. Qed.
Lemma up_alike x y : upto x y -> is_nan x = false -> alike x y.
Proof. intros H N. destruct (value x) as [r|] eqn:V; [|now destruct x]. exists r. split; [exact V|]. now rewrite <- H. Qed.
Lemma alike_up x y : alike x y -> upto x y.
Proof. intros (r & A & A'). unfold upto. congruence. Qed.
(** The difference of two different floats is not zero. *)
Lemma diff_nonzero x y : Bltb x y = true -> ~ a_zero (f_sub y x).
Proof.
  intros L [s Z]. destruct (is_finite x) eqn:Fx, (is_finite y) eqn:Fy.
  - rewrite Bltb_correct in L by assumption. assert (L' : (B2R x < B2R y)%R) by (revert L; case Rlt_bool_spec; [auto|discriminate]).
    pose proof (rnd_sub_pos f x y L') as P. pose proof (Bminus_correct _ _ _ _ mode_NE y x Fy Fx) as M.
    destruct (Rlt_bool _ _) in M.
    + destruct M as (M & _). change (Bminus mode_NE y x) with (f_sub y x) in M. rewrite Z in M. cbn in M.
      assert (M' : 0%R = rnd f (B2R y - B2R x)) by exact M. lra.
    + destruct M as (M & _). change (Bminus mode_NE y x) with (f_sub y x) in M. rewrite Z in M. destruct (Bsign y); discriminate M.
  - destruct y as [t|t| |t n h b']; try discriminate Fy; destruct x as [u|u| |u m e b]; try discriminate Fx; discriminate Z.
  - destruct y as [t|t| |t n h b']; try discriminate Fy; destruct x as [u|u| |u m e b]; try discriminate Fx; discriminate Z.
  - destruct y as [t|t| |t n h b']; try discriminate Fy; destruct x as [u|u| |u m e b]; try discriminate Fx; try discriminate L; destruct t, u; try discriminate L; discriminate Z.
Qed.

(** ** Operations *)
Lemma o_add x y x' y' : upto x x' -> upto y y' -> both upto (e_add E x y) (e_add E x' y').
Proof. apply up_add. Qed.
Lemma o_sub x y x' y' : upto x x' -> upto y y' -> both upto (e_sub E x y) (e_sub E x' y').
Proof. apply up_sub. Qed.
Lemma o_mul x y x' y' : upto x x' -> upto y y' -> both upto (e_mul E x y) (e_mul E x' y').
Proof. apply up_mult. Qed.
Lemma o_div x y x' : upto x x' -> both upto (e_div E x y) (e_div E x' y).
Proof. apply up_div. Qed.
Lemma o_neg x x' : upto x x' -> both upto (e_neg E x) (e_neg E x').
Proof. apply up_opp. Qed.
Lemma o_abs x x' : upto x x' -> both upto (e_abs E x) (e_abs E x').
Proof. intros H. cbn. now rewrite (up_abs _ _ H). Qed.
Lemma o_lt x y x' y' : upto x x' -> upto y y' -> e_lt E x y = e_lt E x' y'.
Proof. apply up_lt. Qed.
Lemma o_le x y x' y' : upto x x' -> upto y y' -> e_le E x y = e_le E x' y'.
Proof. apply up_le. Qed.
Lemma o_eq x y x' y' : upto x x' -> upto y y' -> e_eq E x y = e_eq E x' y'.
Proof. apply up_eqb. Qed.
Lemma o_nan x x' : upto x x' -> e_is_nan E x = e_is_nan E x'.
Proof. apply up_nan. Qed.
Lemma o_sqrt x x' : upto x x' -> both upto (fl_sqrt FT x) (fl_sqrt FT x').
Proof. apply up_sqrt. Qed.
Lemma o_pmin l l' : Forall2 upto l l' -> both upto (pmin E l) (pmin E l').
Proof.
  intros H. destruct H as [|x y l l' Hx Hl]; [exact I|]. cbn. revert x y Hx. induction Hl as [|a b l l' Ha Hl IH]; intros x y Hx; [exact Hx|]. cbn.
  apply IH. rewrite (up_lt _ _ _ _ Ha Hx). now destruct (Bltb b y).
Qed.
Lemma o_pmax l l' : Forall2 upto l l' -> both upto (pmax E l) (pmax E l').
Proof.
  intros H. destruct H as [|x y l l' Hx Hl]; [exact I|]. cbn. revert x y Hx. induction Hl as [|a b l l' Ha Hl IH]; intros x y Hx; [exact Hx|]. cbn.
  apply IH. rewrite (up_lt _ _ _ _ Hx Ha). now destruct (Bltb y b).
Qed.
Lemma pmin2 x y x' y' : upto x x' -> upto y y' -> both upto (pmin E [x; y]) (pmin E [x'; y']).
Proof. intros. apply o_pmin. auto. Qed.
Lemma pmax2 x y x' y' : upto x x' -> upto y y' -> both upto (pmax E [x; y]) (pmax E [x'; y']).
Proof. intros. apply o_pmax. auto. Qed.
Lemma pmin3 x y z x' y' z' : upto x x' -> upto y y' -> upto z z' -> both upto (pmin E [x; y; z]) (pmin E [x'; y'; z']).
Proof. intros. apply o_pmin. auto. Qed.
Lemma pmax3 x y z x' y' z' : upto x x' -> upto y y' -> upto z z' -> both upto (pmax E [x; y; z]) (pmax E [x'; y'; z']).
Proof. intros. apply o_pmax. auto. Qed.

Ltac parts := unfold up_pair, up_rd, up_ray, up_b3, up_it, up_t, up_p2, up_p3, up_v2, up_v3, up_n3 in *; repeat match goal with H : _ /\ _ |- _ => destruct H end;
  cbn [p2x p2y px py pz v2x v2y vx vy vz nx ny nz b_min b_max it_max it_x it_y r_o r_d r_t_max r_time rd_ray rd_has rx_origin ry_origin rx_direction ry_direction t_m t_inv fst snd] in *.
Ltac leaf := first [assumption | reflexivity | apply up_refl].
Ltac z1 :=
  match goal with
  | |- both _ (Done _) (Done _) => cbn [both]
  | |- both _ (mk3 _ _ _ _) (mk3 _ _ _ _) => apply (bo_mk3 upto)
  | |- both _ (mk2 _ _ _) (mk2 _ _ _) => apply (bo_mk2 upto)
  | |- both _ (lift2 (e_add E) _ _) _ => apply bo_lift2; [exact o_add|..]
  | |- both _ (lift2 (e_sub E) _ _) _ => apply bo_lift2; [exact o_sub|..]
  | |- both _ (lift2 (e_mul E) _ _) _ => apply bo_lift2; [exact o_mul|..]
  | |- both _ (e_add E _ _) _ => apply o_add
  | |- both _ (e_sub E _ _) _ => apply o_sub
  | |- both _ (e_mul E _ _) _ => apply o_mul
  | |- both _ (e_neg E _) _ => apply o_neg
  | |- both _ (e_abs E _) _ => apply o_abs
  | |- both _ (fl_sqrt FT _) _ => apply o_sqrt
  | |- both _ (pmin E [_; _]) _ => apply pmin2
  | |- both _ (pmax E [_; _]) _ => apply pmax2
  | |- both _ (pmin E [_; _; _]) _ => apply pmin3
  | |- both _ (pmax E [_; _; _]) _ => apply pmax3
  | |- _ /\ _ => split
  | |- forall _, _ => intro
  | |- upto _ _ => leaf
  end.
Ltac z := change (fl_elem FT) with E in *; parts; repeat (z1; parts); try leaf.
Section Points.
Context (p q p' q' : Point3 B) (v v' : Vector3 B) (s s' : B).
Lemma z_p2_abs (a b : Point2 B) : up_p2 a b -> both up_p2 (p2_abs E a) (p2_abs E b).
Proof. intros H. unfold p2_abs. z. Qed.
Lemma z_p3_abs (Hp : up_p3 p p') : both up_p3 (p3_abs E p) (p3_abs E p').
Proof. unfold p3_abs. z. Qed.
Lemma z_p3_min (Hp : up_p3 p p') (Hq : up_p3 q q') : both up_p3 (p3_min E p q) (p3_min E p' q').
Proof. unfold p3_min. z. Qed.
Lemma z_p3_max (Hp : up_p3 p p') (Hq : up_p3 q q') : both up_p3 (p3_max E p q) (p3_max E p' q').
Proof. unfold p3_max. z. Qed.
Lemma z_has_nan (Hp : up_p3 p p') : p3_has_nan E p = p3_has_nan E p'.
Proof. unfold p3_has_nan. parts. now rewrite (o_nan (px p) (px p')), (o_nan (py p) (py p')), (o_nan (pz p) (pz p')). Qed.
Lemma z_p2_from_p3 (Hp : up_p3 p p') : both up_p2 (p2_from_p3 E p) (p2_from_p3 E p').
Proof. unfold p2_from_p3. rewrite (z_has_nan Hp). destruct (p3_has_nan E p'); [exact I|]. z. Qed.
Lemma z_p3_add (Hp : up_p3 p p') (Hv : up_v3 v v') : both up_p3 (p3_add E p v) (p3_add E p' v').
Proof. unfold p3_add. z. Qed.
Lemma z_p3_sub_v (Hp : up_p3 p p') (Hv : up_v3 v v') : both up_p3 (p3_sub_v E p v) (p3_sub_v E p' v').
Proof. unfold p3_sub_v. z. Qed.
Lemma z_p3_sub (Hp : up_p3 p p') (Hq : up_p3 q q') : both up_v3 (p3_sub E p q) (p3_sub E p' q').
Proof. unfold p3_sub. z. Qed.
Lemma z_p3_mul (Hp : up_p3 p p') (Hs : upto s s') : both up_p3 (p3_mul E p s) (p3_mul E p' s').
Proof. unfold p3_mul. z. Qed.
Lemma z_p3_div (Hp : up_p3 p p') : both up_p3 (p3_div E p s) (p3_div E p' s).
Proof. unfold p3_div. parts. apply (bo_mk3 upto); [z|..]; apply (o_div _ s); assumption. Qed.
Lemma z_floor (Hp : up_p3 p p') : up_p3 (p3_floor FT p) (p3_floor FT p').
Proof. unfold p3_floor. parts. repeat split; cbn; now apply up_round. Qed.
Lemma z_ceil (Hp : up_p3 p p') : up_p3 (p3_ceil FT p) (p3_ceil FT p').
Proof. unfold p3_ceil. parts. repeat split; cbn; now apply up_round. Qed.
Lemma z_p3_lerp (Hp : up_p3 p p') (Hq : up_p3 q q') (Hs : upto s s') : both up_p3 (p3_lerp FT s p q) (p3_lerp FT s' p' q').
Proof.
  unfold p3_lerp. eapply (bo_bind upto); [z|]. intros a b Hab. eapply (bo_bind up_p3); [unfold p3_mul; z|]. intros c d Hcd.
  eapply (bo_bind up_p3); [unfold p3_mul; z|]. intros g h Hgh. unfold p3_add, v3_from_p3. z.
Qed.
End Points.
Section Vectors.
Context (u v u' v' : Vector3 B) (s s' : B).
Lemma z_v2_index (a b : Vector2 B) i : up_v2 a b -> both upto (v2_index a i) (v2_index b i).
Proof. intros H. unfold v2_index. parts. destruct i as [|[|]]; cbn; auto. Qed.
Lemma z_v2_div (a b : Vector2 B) (Hs : upto s s') : up_v2 a b -> both up_v2 (v2_div E a s) (v2_div E b s').
Proof. intros H. unfold v2_div. rewrite (o_eq s _ s' (e_from_int E 0) Hs (up_refl _)). destruct (negb _); [|exact I]. z. Qed.
Lemma z_v3_index i (Hu : up_v3 u u') : both upto (v3_index u i) (v3_index u' i).
Proof. unfold v3_index. parts. destruct i as [|[|[|]]]; cbn; auto. Qed.
Lemma z_len_sq (Hu : up_v3 u u') : both eq (v3_len_sq E u) (v3_len_sq E u').
Proof. unfold v3_len_sq. parts. cbn. now rewrite (up_square (vx u) (vx u')), (up_square (vy u) (vy u')), (up_square (vz u) (vz u')). Qed.
Lemma z_len (Hu : up_v3 u u') : both eq (v3_len FT E (fun x => x) u) (v3_len FT E (fun x => x) u').
Proof. unfold v3_len. eapply bo_bind; [exact (z_len_sq Hu)|]. intros a b ->. reflexivity. Qed.
Lemma z_dot (Hu : up_v3 u u') (Hv : up_v3 v v') : both upto (v3_dot E u v) (v3_dot E u' v').
Proof. unfold v3_dot. z. Qed.
Lemma z_cross (Hu : up_v3 u u') (Hv : up_v3 v v') : both up_v3 (v3_cross E u v) (v3_cross E u' v').
Proof. unfold v3_cross. z. Qed.
Lemma z_permute i j k (Hu : up_v3 u u') : both up_v3 (v3_permute u i j k) (v3_permute u' i j k).
Proof. unfold v3_permute. apply (bo_mk3 upto); [z|..]; now apply z_v3_index. Qed.
Lemma z_neg (Hu : up_v3 u u') : both up_v3 (v3_neg E u) (v3_neg E u').
Proof. unfold v3_neg. z. Qed.
Lemma z_face_forward (Hu : up_v3 u u') (Hv : up_v3 v v') : both up_v3 (v3_face_forward E u v) (v3_face_forward E u' v').
Proof.
  unfold v3_face_forward. eapply (bo_bind upto); [exact (z_dot Hu Hv)|]. intros a b H. rewrite (o_lt a _ b (e_from_int E 0) H (up_refl _)).
  destruct (e_lt E b _); [exact (z_neg Hu)|exact Hu].
Qed.
Lemma z_v3_min (Hu : up_v3 u u') (Hv : up_v3 v v') : both up_v3 (v3_min E u v) (v3_min E u' v').
Proof. unfold v3_min. z. Qed.
Lemma z_v3_max (Hu : up_v3 u u') (Hv : up_v3 v v') : both up_v3 (v3_max E u v) (v3_max E u' v').
Proof. unfold v3_max. z. Qed.
Lemma z_min_component (Hu : up_v3 u u') : both upto (v3_min_component E u) (v3_min_component E u').
Proof. unfold v3_min_component. z. Qed.
Lemma z_max_component (Hu : up_v3 u u') : both upto (v3_max_component E u) (v3_max_component E u').
Proof. unfold v3_max_component. z. Qed.
Lemma z_max_dimension (Hu : up_v3 u u') : v3_max_dimension E u = v3_max_dimension E u'.
Proof.
  unfold v3_max_dimension. parts. now rewrite (o_lt (vy u) (vx u) (vy u') (vx u')), (o_lt (vz u) (vx u) (vz u') (vx u')), (o_lt (vz u) (vy u) (vz u') (vy u')).
Qed.
Lemma z_v3_add (Hu : up_v3 u u') (Hv : up_v3 v v') : both up_v3 (v3_add E u v) (v3_add E u' v').
Proof. unfold v3_add. z. Qed.
Lemma z_v3_sub (Hu : up_v3 u u') (Hv : up_v3 v v') : both up_v3 (v3_sub E u v) (v3_sub E u' v').
Proof. unfold v3_sub. z. Qed.
Lemma z_v3_mul (Hu : up_v3 u u') (Hs : upto s s') : both up_v3 (v3_mul E u s) (v3_mul E u' s').
Proof. unfold v3_mul. z. Qed.
Lemma z_v3_div (Hu : up_v3 u u') : both up_v3 (v3_div E u s) (v3_div E u' s).
Proof. unfold v3_div. parts. apply (bo_mk3 upto); [z|..]; apply (o_div _ s); assumption. Qed.
Lemma z_frame (Hu : up_v3 u u') : both (up_pair up_v3 up_v3) (coordinate_system FT u) (coordinate_system FT u').
Proof.
  unfold coordinate_system. eapply (bo_bind eq); [parts; cbn; now rewrite (up_abs (vx u) (vx u'))|]. intros ax ? <-.
  eapply (bo_bind eq); [parts; cbn; now rewrite (up_abs (vy u) (vy u'))|]. intros ay ? <-.
  assert (S : forall a b a' b', upto a a' -> upto b b' -> both eq (lift2 (e_add E) (lift2 (e_mul E) !a !a) (lift2 (e_mul E) !b !b)) (lift2 (e_add E) (lift2 (e_mul E) !a' !a') (lift2 (e_mul E) !b' !b'))).
  { intros a b a' b' Ha Hb. cbn. now rewrite (up_square a a' Ha), (up_square b b' Hb). }
  eapply (bo_bind up_v3).
  - destruct (e_lt FT ay ax).
    + eapply (bo_bind upto); [apply o_neg; parts; assumption|]. intros m n Hm. eapply (bo_bind eq); [parts; apply S; assumption|]. intros q ? <-.
      eapply (bo_bind eq); [reflexivity|]. intros r ? <-. unfold v3_div. parts. apply (bo_mk3 upto); [z|..]; apply (o_div _ r); leaf.
    + eapply (bo_bind upto); [apply o_neg; parts; assumption|]. intros m n Hm. eapply (bo_bind eq); [parts; apply S; assumption|]. intros q ? <-.
      eapply (bo_bind eq); [reflexivity|]. intros r ? <-. unfold v3_div. parts. apply (bo_mk3 upto); [z|..]; apply (o_div _ r); leaf.
  - intros a b Hab. eapply (bo_bind up_v3); [unfold v3_cross; z|]. intros c d Hcd. split; assumption.
Qed.
End Vectors.
Section Normals.
Context (u v u' v' : Normal3 B) (s s' : B).
Lemma z_n3_index i (Hu : up_n3 u u') : both upto (n3_index u i) (n3_index u' i).
Proof. unfold n3_index. parts. destruct i as [|[|[|]]]; cbn; auto. Qed.
Lemma z_n3_len_sq (Hu : up_n3 u u') : both eq (n3_len_sq E u) (n3_len_sq E u').
Proof. unfold n3_len_sq. parts. cbn. now rewrite (up_square (nx u) (nx u')), (up_square (ny u) (ny u')), (up_square (nz u) (nz u')). Qed.
Lemma z_n3_len (Hu : up_n3 u u') : both eq (n3_len FT E (fun x => x) u) (n3_len FT E (fun x => x) u').
Proof. unfold n3_len. eapply bo_bind; [exact (z_n3_len_sq Hu)|]. intros a b ->. reflexivity. Qed.
Lemma z_n3_dot (Hu : up_n3 u u') (Hv : up_n3 v v') : both upto (n3_dot E u v) (n3_dot E u' v').
Proof. unfold n3_dot. z. Qed.
Lemma z_n3_cross (Hu : up_n3 u u') (Hv : up_n3 v v') : both up_n3 (n3_cross E u v) (n3_cross E u' v').
Proof. unfold n3_cross. z. Qed.
Lemma z_n3_permute i j k (Hu : up_n3 u u') : both up_n3 (n3_permute u i j k) (n3_permute u' i j k).
Proof. unfold n3_permute. apply (bo_mk3 upto); [z|..]; now apply z_n3_index. Qed.
Lemma z_n3_neg (Hu : up_n3 u u') : both up_n3 (n3_neg E u) (n3_neg E u').
Proof. unfold n3_neg. z. Qed.
Lemma z_n3_face_forward (Hu : up_n3 u u') (Hv : up_n3 v v') : both up_n3 (n3_face_forward E u v) (n3_face_forward E u' v').
Proof.
  unfold n3_face_forward. eapply (bo_bind upto); [exact (z_n3_dot Hu Hv)|]. intros a b H. rewrite (o_lt a _ b (e_from_int E 0) H (up_refl _)).
  destruct (e_lt E b _); [exact (z_n3_neg Hu)|exact Hu].
Qed.
Lemma z_n3_min (Hu : up_n3 u u') (Hv : up_n3 v v') : both up_n3 (n3_min E u v) (n3_min E u' v').
Proof. unfold n3_min. z. Qed.
Lemma z_n3_max (Hu : up_n3 u u') (Hv : up_n3 v v') : both up_n3 (n3_max E u v) (n3_max E u' v').
Proof. unfold n3_max. z. Qed.
Lemma z_n3_min_component (Hu : up_n3 u u') : both upto (n3_min_component E u) (n3_min_component E u').
Proof. unfold n3_min_component. z. Qed.
Lemma z_n3_max_component (Hu : up_n3 u u') : both upto (n3_max_component E u) (n3_max_component E u').
Proof. unfold n3_max_component. z. Qed.
Lemma z_n3_max_dimension (Hu : up_n3 u u') : n3_max_dimension E u = n3_max_dimension E u'.
Proof.
  unfold n3_max_dimension. parts. now rewrite (o_lt (ny u) (nx u) (ny u') (nx u')), (o_lt (nz u) (nx u) (nz u') (nx u')), (o_lt (nz u) (ny u) (nz u') (ny u')).
Qed.
Lemma z_n3_add (Hu : up_n3 u u') (Hv : up_n3 v v') : both up_n3 (n3_add E u v) (n3_add E u' v').
Proof. unfold n3_add. z. Qed.
Lemma z_n3_sub (Hu : up_n3 u u') (Hv : up_n3 v v') : both up_n3 (n3_sub E u v) (n3_sub E u' v').
Proof. unfold n3_sub. z. Qed.
Lemma z_n3_mul (Hu : up_n3 u u') (Hs : upto s s') : both up_n3 (n3_mul E u s) (n3_mul E u' s').
Proof. unfold n3_mul. z. Qed.
Lemma z_n3_div (Hu : up_n3 u u') : both up_n3 (n3_div E u s) (n3_div E u' s).
Proof. unfold n3_div. parts. apply (bo_mk3 upto); [z|..]; apply (o_div _ s); assumption. Qed.
End Normals.

(** ** Boxes *)
Section Boxes.
Context (a b a' b' : Bounds3 B) (p q p' q' : Point3 B) (s s' : B).
Lemma z_b3_new (c d c' d' : Point3 B) : up_p3 c c' -> up_p3 d d' -> both up_b3 (b3_new E c d) (b3_new E c' d').
Proof.
  intros Hc Hd. unfold b3_new. eapply (bo_bind up_p3); [z|]. intros l l' Hl. eapply (bo_bind up_p3); [z|]. intros h h' Hh. split; assumption.
Qed.
Lemma z_union_pt (Ha : up_b3 a a') (Hp : up_p3 p p') : both up_b3 (b3_union_pt E a p) (b3_union_pt E a' p').
Proof. unfold b3_union_pt. eapply (bo_bind up_p3); [z|]. intros l l' Hl. eapply (bo_bind up_p3); [z|]. intros h h' Hh. now apply z_b3_new. Qed.
Lemma z_union (Ha : up_b3 a a') (Hb : up_b3 b b') : both up_b3 (b3_union E a b) (b3_union E a' b').
Proof. unfold b3_union. eapply (bo_bind up_p3); [z|]. intros l l' Hl. eapply (bo_bind up_p3); [z|]. intros h h' Hh. now apply z_b3_new. Qed.
Lemma z_intersect (Ha : up_b3 a a') (Hb : up_b3 b b') : both up_b3 (b3_intersect E a b) (b3_intersect E a' b').
Proof. unfold b3_intersect. eapply (bo_bind up_p3); [z|]. intros l l' Hl. eapply (bo_bind up_p3); [z|]. intros h h' Hh. now apply z_b3_new. Qed.
Lemma z_corner n (Ha : up_b3 a a') : up_p3 (b3_corner a n) (b3_corner a' n).
Proof. unfold b3_corner. parts. destruct (0 <? N.land n 1)%N, (0 <? N.land n 2)%N, (0 <? N.land n 4)%N; cbn [px py pz]; auto. Qed.
Ltac cmp := change (fl_elem FT) with E in *; parts; repeat match goal with
  | |- context [e_le E ?x ?y] => match goal with Hx : upto x ?x', Hy : upto y ?y' |- _ => rewrite (o_le x y x' y' Hx Hy) end
  | |- context [e_lt E ?x ?y] => match goal with Hx : upto x ?x', Hy : upto y ?y' |- _ => rewrite (o_lt x y x' y' Hx Hy) end end.
Lemma z_overlaps (Ha : up_b3 a a') (Hb : up_b3 b b') : b3_overlaps E a b = b3_overlaps E a' b'.
Proof. unfold b3_overlaps. cbv zeta. cmp. reflexivity. Qed.
Lemma z_inside (Ha : up_b3 a a') (Hp : up_p3 p p') : b3_inside E a p = b3_inside E a' p'.
Proof. unfold b3_inside. cmp. reflexivity. Qed.
Lemma z_inside_exclusive (Ha : up_b3 a a') (Hp : up_p3 p p') : b3_inside_exclusive E a p = b3_inside_exclusive E a' p'.
Proof. unfold b3_inside_exclusive. cmp. reflexivity. Qed.
Lemma z_expand (Ha : up_b3 a a') (Hs : upto s s') : both up_b3 (b3_expand E a s) (b3_expand E a' s').
Proof.
  unfold b3_expand. eapply (bo_bind up_p3); [unfold p3_sub_v; z|]. intros l l' Hl. eapply (bo_bind up_p3); [unfold p3_add; z|]. intros h h' Hh. now apply z_b3_new.
Qed.
Lemma z_diagonal (Ha : up_b3 a a') : both up_v3 (b3_diagonal E a) (b3_diagonal E a').
Proof. unfold b3_diagonal, p3_sub. z. Qed.
Lemma z_surface (Ha : up_b3 a a') : both upto (b3_surface_area E a) (b3_surface_area E a').
Proof. unfold b3_surface_area. eapply (bo_bind up_v3); [exact (z_diagonal Ha)|]. intros l l' Hl. z. Qed.
Lemma z_volume (Ha : up_b3 a a') : both upto (b3_volume E a) (b3_volume E a').
Proof. unfold b3_volume. eapply (bo_bind up_v3); [exact (z_diagonal Ha)|]. intros l l' Hl. z. Qed.
Lemma z_extent (Ha : up_b3 a a') : b3_maximum_extent E a = b3_maximum_extent E a'.
Proof.
  assert (K : both eq (b3_maximum_extent E a) (b3_maximum_extent E a')).
  { unfold b3_maximum_extent. eapply (bo_bind up_v3); [exact (z_diagonal Ha)|]. intros l l' Hl. cbn [both]. cmp. reflexivity. }
  destruct (b3_maximum_extent E a), (b3_maximum_extent E a'); cbn in K; try contradiction; congruence.
Qed.
Lemma z_quot m M m' M' x x' : upto m m' -> upto M M' -> upto x x' -> e_lt E m M = true ->
  both upto (lift2 (e_div E) !x (lift2 (e_sub E) !M !m)) (lift2 (e_div E) !x' (lift2 (e_sub E) !M' !m')).
Proof.
  intros Hm HM Hx L. cbn. rewrite (up_nonzero (f_sub M m) (f_sub M' m')); [now apply up_div|now apply up_sub|]. now apply diff_nonzero.
Qed.
Lemma z_offset (Ha : up_b3 a a') (Hp : up_p3 p p') : both up_v3 (b3_offset E a p) (b3_offset E a' p').
Proof.
  unfold b3_offset. eapply (bo_bind up_v3); [unfold p3_sub; z|]. intros o o' Ho. parts.
  eapply (bo_bind up_v3).
  { rewrite <- (o_lt (px (b_min a)) (px (b_max a)) (px (b_min a')) (px (b_max a'))) by assumption. destruct (e_lt E (px (b_min a)) _) eqn:L; [|now repeat split].
    eapply (bo_bind upto); [now apply z_quot|]. intros x x' Hx. repeat split; assumption. }
  clear o o' H H0 H1 || idtac. intros o1 o1' Ho1. parts.
  eapply (bo_bind up_v3).
  { rewrite <- (o_lt (py (b_min a)) (py (b_max a)) (py (b_min a')) (py (b_max a'))) by assumption. destruct (e_lt E (py (b_min a)) _) eqn:L; [|now repeat split].
    eapply (bo_bind upto); [now apply z_quot|]. intros x x' Hx. repeat split; assumption. }
  intros o2 o2' Ho2. parts.
  rewrite <- (o_lt (pz (b_min a)) (pz (b_max a)) (pz (b_min a')) (pz (b_max a'))) by assumption. destruct (e_lt E (pz (b_min a)) _) eqn:L; [|now repeat split].
  eapply (bo_bind upto); [now apply z_quot|]. intros x x' Hx. repeat split; assumption.
Qed.
Lemma z_next (i j : Bounds2Iter B) : up_it i j -> both (up_pair (up_opt up_p2) up_it) (b2_next E i) (b2_next E j).
Proof.
  intros H. unfold b2_next. cmp. destruct (e_le E _ _ && _) eqn:C; [repeat split; assumption|]. clear C.
  eapply (bo_bind up_it).
  - destruct (e_le E _ _).
    + eapply (bo_bind upto); [apply o_add; leaf|]. intros x x' Hx. repeat split; leaf.
    + eapply (bo_bind upto); [apply o_add; leaf|]. intros x x' Hx. repeat split; leaf.
  - intros k l Hk. parts. repeat split; cbn; assumption.
Qed.
Lemma z_sphere (Ha : up_b3 a a') : both (up_pair up_p3 upto) (bounding_sphere FT a) (bounding_sphere FT a').
Proof.
  unfold bounding_sphere. eapply (bo_bind up_p3); [unfold p3_add, v3_from_p3; z|]. intros c c' Hc.
  eapply (bo_bind up_p3); [unfold p3_div; parts; apply (bo_mk3 upto); [z|..]; apply (o_div _ (e_from_int FT 2)); assumption|]. intros d d' Hd.
  eapply (bo_bind upto).
  - replace (b3_inside FT a' d') with (b3_inside FT a d) by (unfold b3_inside; cmp; reflexivity). destruct (b3_inside FT a d); [|apply up_refl].
    eapply (bo_bind up_v3); [unfold p3_sub; z|]. intros g h Hg. eapply bo_impl; [|apply z_len; exact Hg]. intros ? ? ->. apply up_refl.
  - intros r r' Hr. split; assumption.
Qed.
Lemma z_lerp x y t x' y' t' : upto x x' -> upto y y' -> upto t t' -> both upto (lerp FT t x y) (lerp FT t' x' y').
Proof. intros Hx Hy Ht. unfold lerp. z. Qed.
Lemma z_b3_lerp (Ha : up_b3 a a') (Hp : up_p3 p p') : both up_p3 (b3_lerp FT a p) (b3_lerp FT a' p').
Proof. unfold b3_lerp. parts. apply (bo_mk3 upto); [z|..]; apply z_lerp; assumption. Qed.
End Boxes.

(** ** Rays *)
Lemma z_ray_new (o o' : Point3 B) (d d' : Vector3 B) : up_p3 o o' -> up_v3 d d' -> up_ray (ray_new_infinite FT o d) (ray_new_infinite FT o' d').
Proof. intros. repeat split; cbn; parts; leaf. Qed.
Lemma z_ray_at (r r' : Ray B) t t' : up_ray r r' -> upto t t' -> both up_p3 (ray_at FT r t) (ray_at FT r' t').
Proof. intros Hr Ht. unfold ray_at. eapply (bo_bind up_v3); [unfold v3_mul; z|]. intros v v' Hv. unfold p3_add. z. Qed.
Lemma z_rd_new (r r' : Ray B) : up_ray r r' -> up_rd (rd_new FT r) (rd_new FT r').
Proof. intros H. split; [exact H|]. repeat split; leaf. Qed.
Lemma z_rd_scale (r r' : RayDifferential B) s s' : up_rd r r' -> upto s s' -> both up_rd (rd_scale FT r s) (rd_scale FT r' s').
Proof.
  intros Hr Hs. unfold rd_scale. cbv zeta. destruct Hr as (Hr & Hh & Ho1 & Ho2 & Hd1 & Hd2). assert (Hr' := Hr). destruct Hr' as (Ho & Hd & _).
  do 2 (eapply (bo_bind up_v3); [now apply z_p3_sub|]; intros ? ? ?; eapply (bo_bind up_v3); [now apply z_v3_mul|]; intros ? ? ?;
    eapply (bo_bind up_p3); [now apply z_p3_add|]; intros ? ? ?).
  do 2 (eapply (bo_bind up_v3); [now apply z_v3_sub|]; intros ? ? ?; eapply (bo_bind up_v3); [now apply z_v3_mul|]; intros ? ? ?;
    eapply (bo_bind up_v3); [now apply z_v3_add|]; intros ? ? ?).
  cbn [both]. split; [exact Hr|]. cbn. auto 8.
Qed.

(** ** Matrices *)
Lemma z_mset (m m' : Matrix4 B) r c x x' : up_m4 m m' -> upto x x' -> up_m4 (mset m r c x) (mset m' r c x').
Proof. intros H Hx i j. specialize (H i j). destruct r, c, i, j; cbn in *; assumption. Qed.
Lemma z_const x x' : upto x x' -> up_m4 (vconst (vconst x)) (vconst (vconst x')).
Proof. intros H r c. now destruct r, c. Qed.
Lemma z_transpose (m m' : Matrix4 B) : up_m4 m m' -> up_m4 (m4_transpose m) (m4_transpose m').
Proof. intros H r c. specialize (H c r). destruct r, c; cbn in *; assumption. Qed.
Lemma z_m4_add (m n m' n' : Matrix4 B) : up_m4 m m' -> up_m4 n n' -> both up_m4 (m4_add E m n) (m4_add E m' n').
Proof.
  intros Hm Hn. unfold m4_add. apply bo_for4; [apply z_const, up_refl|]. intros r a b Hab. apply bo_for4; [exact Hab|]. intros c a1 b1 H1.
  eapply (bo_bind upto); [apply o_add; auto|]. intros x y Hxy. now apply z_mset.
Qed.
Lemma z_m4_mul (m n m' n' : Matrix4 B) : up_m4 m m' -> up_m4 n n' -> both up_m4 (m4_mul E m n) (m4_mul E m' n').
Proof.
  intros Hm Hn. unfold m4_mul. apply bo_for4; [apply z_const, up_refl|]. intros r a b Hab. apply bo_for4; [exact Hab|]. intros c a1 b1 H1.
  eapply (bo_bind upto).
  - apply bo_for4; [apply up_refl|]. intros i x y Hxy. eapply (bo_bind upto); [apply o_mul; auto|]. intros s t Hst. now apply o_add.
  - intros x y Hxy. now apply z_mset.
Qed.
Lemma z_m4_eq (m n m' n' : Matrix4 B) : up_m4 m m' -> up_m4 n n' -> m4_eq E m n = m4_eq E m' n'.
Proof.
  intros Hm Hn. apply eq_true_iff_eq. rewrite !float_matrix.
  assert (K : forall x y x' y' : B, upto x x' -> upto y y' -> (alike x y <-> alike x' y')).
  { intros x y x' y' Hx Hy. unfold alike. rewrite <- Hx, <- Hy. reflexivity. }
  split; intros H r c; specialize (H r c); now apply (K _ _ _ _ (Hm r c) (Hn r c)).
Qed.
Definition up_pivot (s t : B * ix * ix) : Prop := let '(x, i, j) := s in let '(y, i', j') := t in upto x y /\ i = i' /\ j = j'.
Section Inverse.
Variables first_panic second_panic : forall A, out A.
Hypothesis fp : forall A (R : A -> A -> Prop), both R (first_panic A) (first_panic A).
Hypothesis sp : forall A (R : A -> A -> Prop), both R (second_panic A) (second_panic A).
Lemma z_choose (m m' : Matrix4 B) ipiv : up_m4 m m' -> both up_pivot (choose_pivot E first_panic m ipiv) (choose_pivot E first_panic m' ipiv).
Proof.
  intros Hm. unfold choose_pivot. apply bo_for4; [repeat split; apply up_refl|]. intros j s t Hst. destruct (negb _); [|exact Hst].
  apply bo_for4; [exact Hst|]. intros k [[big r] c] [[big' r'] c'] (Hb & <- & <-). destruct (vget ipiv k =? 0)%N.
  - eapply (bo_bind upto); [apply o_abs; auto|]. intros x y Hxy. rewrite (o_le big x big' y Hb Hxy). destruct (e_le E big' y); cbn [both]; repeat split; assumption.
  - destruct (1 <? vget ipiv k)%N; [apply fp|]. repeat split; assumption.
Qed.
Lemma z_swap (m m' : Matrix4 B) i j k l : up_m4 m m' -> up_m4 (mat4swap m i j k l) (mat4swap m' i j k l).
Proof. intros H. unfold mat4swap. apply z_mset; [apply z_mset|]; auto. Qed.
Lemma z_swap_rows (m m' : Matrix4 B) i j : up_m4 m m' -> both up_m4 (swap_rows m i j) (swap_rows m' i j).
Proof. intros H. unfold swap_rows. destruct (negb _); [|exact H]. apply bo_for4; [exact H|]. intros k a b Hab. now apply z_swap. Qed.
Lemma z_scale_row (m m' : Matrix4 B) i : up_m4 m m' -> mget m i i = mget m' i i -> both up_m4 (scale_row E m i) (scale_row E m' i).
Proof.
  intros H Eq. unfold scale_row. rewrite Eq. eapply (bo_bind eq); [reflexivity|]. intros p ? <-. apply bo_for4; [apply z_mset; [exact H|apply up_refl]|].
  intros j a b Hab. eapply (bo_bind upto); [apply o_mul; [apply Hab|apply up_refl]|]. intros x y Hxy. now apply z_mset.
Qed.
Lemma z_clear (m m' : Matrix4 B) i : up_m4 m m' -> both up_m4 (clear_column E m i) (clear_column E m' i).
Proof.
  intros H. unfold clear_column. apply bo_for4; [exact H|]. intros j a b Hab. destruct (negb _); [|exact Hab]. cbv zeta.
  apply bo_for4; [apply z_mset; [exact Hab|apply up_refl]|]. intros k c d Hcd. eapply (bo_bind upto); [apply o_mul; auto|]. intros p q Hpq.
  eapply (bo_bind upto); [apply o_sub; auto|]. intros x y Hxy. now apply z_mset.
Qed.
Definition up_state (s t : @inv_state B) : Prop := up_m4 (is_minv s) (is_minv t) /\ is_ipiv s = is_ipiv t /\ is_indxr s = is_indxr t /\ is_indxc s = is_indxc t.
Lemma z_step i s t : up_state s t -> both up_state (inverse_step E first_panic second_panic i s) (inverse_step E first_panic second_panic i t).
Proof.
  intros (Hm & Hp & Hr & Hc). unfold inverse_step. rewrite Hp, Hr, Hc. eapply (bo_bind up_pivot); [now apply z_choose|].
  intros [[big r] c] [[big' r'] c'] (Hb & <- & <-). cbv zeta. eapply (bo_bind up_m4); [now apply z_swap_rows|]. intros a b Hab.
  rewrite <- (o_eq (mget a c c) (e_from_int E 0) (mget b c c) (e_from_int E 0) (Hab c c) (up_refl _)).
  destruct (e_eq E (mget a c c) _) eqn:Z; [apply sp|]. eapply (bo_bind up_m4).
  - apply z_scale_row; [exact Hab|]. apply up_nonzero; [apply Hab|]. intros [sg Es]. rewrite Es in Z. cbn in Z. destruct sg; discriminate Z || (destruct f; discriminate Z).
  - intros a1 b1 H1. eapply (bo_bind up_m4); [now apply z_clear|]. intros a2 b2 H2. repeat split; assumption.
Qed.
Lemma z_inverse_with (m m' : Matrix4 B) : up_m4 m m' -> both up_m4 (inverse_with E first_panic second_panic m) (inverse_with E first_panic second_panic m').
Proof.
  intros H. unfold inverse_with. eapply (bo_bind up_state).
  - apply bo_for4; [repeat split; exact H|]. intros i s t Hst. now apply z_step.
  - intros s t (Hm & Hp & Hr & Hc). unfold swap_columns. rewrite Hr, Hc. apply bo_for4_rev; [exact Hm|]. intros j a b Hab. cbv zeta. destruct (negb _); [|exact Hab].
    apply bo_for4; [exact Hab|]. intros k c d Hcd. now apply z_swap.
Qed.
End Inverse.
Lemma z_inverse (m m' : Matrix4 B) : up_m4 m m' -> both up_m4 (m4_inverse E m) (m4_inverse E m').
Proof. apply z_inverse_with; exact (fun _ _ => I). Qed.

(** ** Transforms *)
Lemma z_t_new (m m' : Matrix4 B) : up_m4 m m' -> both up_t (t_new_ FT m) (t_new_ FT m').
Proof. intros H. unfold t_new_. eapply (bo_bind up_m4); [now apply z_inverse|]. intros a b Hab. split; assumption. Qed.
Lemma z_t_inverse (t t' : Transform B) : up_t t t' -> up_t (t_inverse t) (t_inverse t').
Proof. intros [H H']. split; assumption. Qed.
Lemma z_t_transpose (t t' : Transform B) : up_t t t' -> up_t (t_transpose t) (t_transpose t').
Proof. intros [H H']. split; now apply z_transpose. Qed.
Lemma z_is_identity (t t' : Transform B) : up_t t t' -> t_is_identity FT t = t_is_identity FT t'.
Proof. intros [H _]. unfold t_is_identity. apply z_m4_eq; [exact H|]. intros r c. apply up_refl. Qed.
Lemma z_translate (d d' : Vector3 B) : up_v3 d d' -> both up_t (t_translate FT d) (t_translate FT d').
Proof.
  intros H. unfold t_translate. parts. do 3 (eapply (bo_bind upto); [apply o_neg; eassumption|]; intros ? ? ?).
  split; intros r c; destruct r, c; leaf.
Qed.
Lemma z_t_scale x y z x' y' z' : upto x x' -> upto y y' -> upto z z' -> ~ a_zero x -> ~ a_zero y -> ~ a_zero z -> t_scale FT x y z = t_scale FT x' y' z'.
Proof. intros Hx Hy Hz Nx Ny Nz. now rewrite (up_nonzero x x'), (up_nonzero y y'), (up_nonzero z z'). Qed.
Lemma z_transform (v v' : Vector3 B) (t t' : Transform B) : up_v3 v v' -> up_t t t' -> both up_v3 (v3_transform FT (fun x => x) v t) (v3_transform FT (fun x => x) v' t').
Proof.
  intros Hv [Ht _]. unfold v3_transform. cbv zeta. parts. assert (R : forall r c, upto (mget (t_m t) r c) (mget (t_m t') r c)) by exact Ht.
  apply (bo_mk3 upto); [z|..]; repeat (apply bo_lift2; [first [exact o_add|exact o_mul]|..]); cbn [both]; auto.
Qed.
Lemma z_has_scale (t t' : Transform B) : up_t t t' -> t_has_scale FT t = t_has_scale FT t'.
Proof.
  intros Ht. assert (K : both eq (t_has_scale FT t) (t_has_scale FT t')).
  { unfold t_has_scale. do 3 (eapply (bo_bind up_v3); [apply z_transform; [repeat split; apply up_refl|exact Ht]|]; intros ? ? ?;
      eapply (bo_bind eq); [apply z_len_sq; eassumption|]; intros ? ? <-). reflexivity. }
  destruct (t_has_scale FT t), (t_has_scale FT t'); cbn in K; try contradiction; congruence.
Qed.
End Zero.

(** ** All together *)
Lemma all_points : forall f, forall (p q p' q' : Point3 (flt f)) (v v' : Vector3 (flt f)) (s s' : flt f), up_p3 p p' -> up_p3 q q' -> up_v3 v v' -> upto s s' ->
  both up_p3 (p3_abs (f_elem f) p) (p3_abs (f_elem f) p') /\
  both up_p3 (p3_min (f_elem f) p q) (p3_min (f_elem f) p' q') /\
  both up_p3 (p3_max (f_elem f) p q) (p3_max (f_elem f) p' q') /\
  p3_has_nan (f_elem f) p = p3_has_nan (f_elem f) p' /\
  both up_p2 (p2_from_p3 (f_elem f) p) (p2_from_p3 (f_elem f) p') /\
  both up_p3 (p3_add (f_elem f) p v) (p3_add (f_elem f) p' v') /\
  both up_p3 (p3_sub_v (f_elem f) p v) (p3_sub_v (f_elem f) p' v') /\
  both up_v3 (p3_sub (f_elem f) p q) (p3_sub (f_elem f) p' q') /\
  both up_p3 (p3_mul (f_elem f) p s) (p3_mul (f_elem f) p' s') /\
  up_p3 (p3_floor (f_float f) p) (p3_floor (f_float f) p') /\
  up_p3 (p3_ceil (f_float f) p) (p3_ceil (f_float f) p') /\
  both up_p3 (p3_lerp (f_float f) s p q) (p3_lerp (f_float f) s' p' q').
Proof. intros f p q p' q' v v' s s' Hp Hq Hv Hs. split; [now apply z_p3_abs|]. split; [now apply z_p3_min|]. split; [now apply z_p3_max|]. split; [now apply z_has_nan|]. split; [now apply z_p2_from_p3|]. split; [now apply z_p3_add|]. split; [now apply z_p3_sub_v|]. split; [now apply z_p3_sub|]. split; [now apply z_p3_mul|]. split; [now apply z_floor|]. split; [now apply z_ceil|]. now apply z_p3_lerp. Qed.
Lemma all_vectors : forall f, forall (u v u' v' : Vector3 (flt f)) (s s' : flt f), up_v3 u u' -> up_v3 v v' -> upto s s' ->
  both eq (v3_len_sq (f_elem f) u) (v3_len_sq (f_elem f) u') /\
  both eq (v3_len (f_float f) (f_elem f) (fun x => x) u) (v3_len (f_float f) (f_elem f) (fun x => x) u') /\
  both upto (v3_dot (f_elem f) u v) (v3_dot (f_elem f) u' v') /\
  both up_v3 (v3_cross (f_elem f) u v) (v3_cross (f_elem f) u' v') /\
  (forall i j k, both up_v3 (v3_permute u i j k) (v3_permute u' i j k)) /\
  both up_v3 (v3_neg (f_elem f) u) (v3_neg (f_elem f) u') /\
  both up_v3 (v3_face_forward (f_elem f) u v) (v3_face_forward (f_elem f) u' v') /\
  both up_v3 (v3_min (f_elem f) u v) (v3_min (f_elem f) u' v') /\
  both up_v3 (v3_max (f_elem f) u v) (v3_max (f_elem f) u' v') /\
  both upto (v3_min_component (f_elem f) u) (v3_min_component (f_elem f) u') /\
  both upto (v3_max_component (f_elem f) u) (v3_max_component (f_elem f) u') /\
  v3_max_dimension (f_elem f) u = v3_max_dimension (f_elem f) u' /\
  both up_v3 (v3_add (f_elem f) u v) (v3_add (f_elem f) u' v') /\
  both up_v3 (v3_sub (f_elem f) u v) (v3_sub (f_elem f) u' v') /\
  both up_v3 (v3_mul (f_elem f) u s) (v3_mul (f_elem f) u' s') /\
  both (up_pair up_v3 up_v3) (coordinate_system (f_float f) u) (coordinate_system (f_float f) u').
Proof. intros f u v u' v' s s' Hu Hv Hs. split; [now apply z_len_sq|]. split; [now apply z_len|]. split; [now apply z_dot|]. split; [now apply z_cross|]. split; [intros i j k; now apply z_permute|]. split; [now apply z_neg|]. split; [now apply z_face_forward|]. split; [now apply z_v3_min|]. split; [now apply z_v3_max|]. split; [now apply z_min_component|]. split; [now apply z_max_component|]. split; [now apply z_max_dimension|]. split; [now apply z_v3_add|]. split; [now apply z_v3_sub|]. split; [now apply z_v3_mul|]. now apply z_frame. Qed.
Lemma all_normals : forall f, forall (u v u' v' : Normal3 (flt f)) (s s' : flt f), up_n3 u u' -> up_n3 v v' -> upto s s' ->
  both eq (n3_len_sq (f_elem f) u) (n3_len_sq (f_elem f) u') /\
  both eq (n3_len (f_float f) (f_elem f) (fun x => x) u) (n3_len (f_float f) (f_elem f) (fun x => x) u') /\
  both upto (n3_dot (f_elem f) u v) (n3_dot (f_elem f) u' v') /\
  both up_n3 (n3_cross (f_elem f) u v) (n3_cross (f_elem f) u' v') /\
  (forall i j k, both up_n3 (n3_permute u i j k) (n3_permute u' i j k)) /\
  both up_n3 (n3_neg (f_elem f) u) (n3_neg (f_elem f) u') /\
  both up_n3 (n3_face_forward (f_elem f) u v) (n3_face_forward (f_elem f) u' v') /\
  both up_n3 (n3_min (f_elem f) u v) (n3_min (f_elem f) u' v') /\
  both up_n3 (n3_max (f_elem f) u v) (n3_max (f_elem f) u' v') /\
  both upto (n3_min_component (f_elem f) u) (n3_min_component (f_elem f) u') /\
  both upto (n3_max_component (f_elem f) u) (n3_max_component (f_elem f) u') /\
  n3_max_dimension (f_elem f) u = n3_max_dimension (f_elem f) u' /\
  both up_n3 (n3_add (f_elem f) u v) (n3_add (f_elem f) u' v') /\
  both up_n3 (n3_sub (f_elem f) u v) (n3_sub (f_elem f) u' v') /\
  both up_n3 (n3_mul (f_elem f) u s) (n3_mul (f_elem f) u' s').
Proof. intros f u v u' v' s s' Hu Hv Hs. split; [now apply z_n3_len_sq|]. split; [now apply z_n3_len|]. split; [now apply z_n3_dot|]. split; [now apply z_n3_cross|]. split; [intros i j k; now apply z_n3_permute|]. split; [now apply z_n3_neg|]. split; [now apply z_n3_face_forward|]. split; [now apply z_n3_min|]. split; [now apply z_n3_max|]. split; [now apply z_n3_min_component|]. split; [now apply z_n3_max_component|]. split; [now apply z_n3_max_dimension|]. split; [now apply z_n3_add|]. split; [now apply z_n3_sub|]. now apply z_n3_mul. Qed.
Lemma all_boxes : forall f, forall (a b a' b' : Bounds3 (flt f)) (p q p' q' : Point3 (flt f)) (s s' : flt f), up_b3 a a' -> up_b3 b b' -> up_p3 p p' -> up_p3 q q' -> upto s s' ->
  both up_b3 (b3_new (f_elem f) p q) (b3_new (f_elem f) p' q') /\
  both up_b3 (b3_union_pt (f_elem f) a p) (b3_union_pt (f_elem f) a' p') /\
  both up_b3 (b3_union (f_elem f) a b) (b3_union (f_elem f) a' b') /\
  both up_b3 (b3_intersect (f_elem f) a b) (b3_intersect (f_elem f) a' b') /\
  (forall n, up_p3 (b3_corner a n) (b3_corner a' n)) /\
  b3_overlaps (f_elem f) a b = b3_overlaps (f_elem f) a' b' /\
  b3_inside (f_elem f) a p = b3_inside (f_elem f) a' p' /\
  b3_inside_exclusive (f_elem f) a p = b3_inside_exclusive (f_elem f) a' p' /\
  both up_b3 (b3_expand (f_elem f) a s) (b3_expand (f_elem f) a' s') /\
  both up_v3 (b3_diagonal (f_elem f) a) (b3_diagonal (f_elem f) a') /\
  both upto (b3_surface_area (f_elem f) a) (b3_surface_area (f_elem f) a') /\
  both upto (b3_volume (f_elem f) a) (b3_volume (f_elem f) a') /\
  b3_maximum_extent (f_elem f) a = b3_maximum_extent (f_elem f) a' /\
  both up_v3 (b3_offset (f_elem f) a p) (b3_offset (f_elem f) a' p') /\
  both (up_pair up_p3 upto) (bounding_sphere (f_float f) a) (bounding_sphere (f_float f) a') /\
  both up_p3 (b3_lerp (f_float f) a p) (b3_lerp (f_float f) a' p').
Proof. intros f a b a' b' p q p' q' s s' Ha Hb Hp Hq Hs. split; [now apply z_b3_new|]. split; [now apply z_union_pt|]. split; [now apply z_union|]. split; [now apply z_intersect|]. split; [intros n; now apply z_corner|]. split; [now apply z_overlaps|]. split; [now apply z_inside|]. split; [now apply z_inside_exclusive|]. split; [now apply z_expand|]. split; [now apply z_diagonal|]. split; [now apply z_surface|]. split; [now apply z_volume|]. split; [now apply z_extent|]. split; [now apply z_offset|]. split; [now apply z_sphere|]. now apply z_b3_lerp. Qed.
Lemma all_lists : forall f, forall l l' : list (flt f), Forall2 upto l l' ->
  both upto (pmin (f_elem f) l) (pmin (f_elem f) l') /\
  both upto (pmax (f_elem f) l) (pmax (f_elem f) l').
Proof. intros f l l' Hl. split; [now apply o_pmin|]. now apply o_pmax. Qed.
Lemma all_two : forall f, forall (p p' : Point2 (flt f)) (v v' : Vector2 (flt f)) (s s' : flt f) (i i' : Bounds2Iter (flt f)), up_p2 p p' -> up_v2 v v' -> upto s s' -> up_it i i' ->
  both up_p2 (p2_abs (f_elem f) p) (p2_abs (f_elem f) p') /\
  (forall n, both upto (v2_index v n) (v2_index v' n)) /\
  both up_v2 (v2_div (f_elem f) v s) (v2_div (f_elem f) v' s') /\
  both (up_pair (up_opt up_p2) up_it) (b2_next (f_elem f) i) (b2_next (f_elem f) i').
Proof. intros f p p' v v' s s' i i' Hp Hv Hs Hi. split; [now apply z_p2_abs|]. split; [intros n; now apply z_v2_index|]. split; [now apply z_v2_div|]. now apply z_next. Qed.
Lemma all_rays : forall f, forall (r r' : Ray (flt f)) (d d' : RayDifferential (flt f)) (o o' : Point3 (flt f)) (v v' : Vector3 (flt f)) (t t' : flt f), up_ray r r' -> up_rd d d' -> up_p3 o o' -> up_v3 v v' -> upto t t' ->
  up_ray (ray_new_infinite (f_float f) o v) (ray_new_infinite (f_float f) o' v') /\
  both up_p3 (ray_at (f_float f) r t) (ray_at (f_float f) r' t') /\
  up_rd (rd_new (f_float f) r) (rd_new (f_float f) r') /\
  both up_rd (rd_scale (f_float f) d t) (rd_scale (f_float f) d' t') /\
  both upto (lerp (f_float f) t (px o) (py o)) (lerp (f_float f) t' (px o') (py o')).
Proof. intros f r r' d d' o o' v v' t t' Hr Hd Ho Hv Ht. split; [now apply z_ray_new|]. split; [now apply z_ray_at|]. split; [now apply z_rd_new|]. split; [now apply z_rd_scale|]. destruct Ho as (Hx & Hy & _); now apply z_lerp. Qed.
Lemma all_matrices : forall f, forall m n m' n' : Matrix4 (flt f), up_m4 m m' -> up_m4 n n' ->
  up_m4 (m4_transpose m) (m4_transpose m') /\
  both up_m4 (m4_add (f_elem f) m n) (m4_add (f_elem f) m' n') /\
  both up_m4 (m4_mul (f_elem f) m n) (m4_mul (f_elem f) m' n') /\
  m4_eq (f_elem f) m n = m4_eq (f_elem f) m' n' /\
  both up_m4 (m4_inverse (f_elem f) m) (m4_inverse (f_elem f) m') /\
  both up_t (t_new_ (f_float f) m) (t_new_ (f_float f) m').
Proof. intros f m n m' n' Hm Hn. split; [now apply z_transpose|]. split; [now apply z_m4_add|]. split; [now apply z_m4_mul|]. split; [now apply z_m4_eq|]. split; [now apply z_inverse|]. now apply z_t_new. Qed.
Lemma all_transforms : forall f, forall (t t' : Transform (flt f)) (v v' : Vector3 (flt f)), up_t t t' -> up_v3 v v' ->
  up_t (t_inverse t) (t_inverse t') /\
  up_t (t_transpose t) (t_transpose t') /\
  t_is_identity (f_float f) t = t_is_identity (f_float f) t' /\
  both up_t (t_translate (f_float f) v) (t_translate (f_float f) v') /\
  both up_v3 (v3_transform (f_float f) (fun x => x) v t) (v3_transform (f_float f) (fun x => x) v' t') /\
  t_has_scale (f_float f) t = t_has_scale (f_float f) t'.
Proof. intros f t t' v v' Ht Hv. split; [now apply z_t_inverse|]. split; [now apply z_t_transpose|]. split; [now apply z_is_identity|]. split; [now apply z_translate|]. split; [now apply z_transform|]. now apply z_has_scale. Qed.
Lemma all_quotients : forall f, forall (p p' : Point3 (flt f)) (v v' : Vector3 (flt f)) (n n' : Normal3 (flt f)) (s s' : flt f), up_p3 p p' -> up_v3 v v' -> up_n3 n n' -> upto s s' -> s = s' \/ ~ a_zero s ->
  both up_p3 (p3_div (f_elem f) p s) (p3_div (f_elem f) p' s') /\
  both up_v3 (v3_div (f_elem f) v s) (v3_div (f_elem f) v' s') /\
  both up_n3 (n3_div (f_elem f) n s) (n3_div (f_elem f) n' s').
Proof. intros f p p' v v' n n' s s' Hp Hv Hn Hs Hz. assert (Es : s = s') by (destruct Hz as [Hz|Hz]; [exact Hz|now apply up_nonzero]). subst s'. split; [now apply z_p3_div|]. split; [now apply z_v3_div|]. now apply z_n3_div. Qed.
Lemma relation_cases : forall f (x y : flt f), (upto x y <-> x = y \/ (a_zero x /\ a_zero y)) /\ (upto x y <-> alike x y \/ (is_nan x = true /\ is_nan y = true)).
Proof.
  intros f x y. split; [apply up_cases|]. split.
  - intros H. destruct (is_nan x) eqn:N; [right; split; [reflexivity|]; rewrite <- N; symmetry; now apply up_nan|left; now apply up_alike].
  - intros [H|[H H']]; [now apply alike_up|]. destruct x, y; try discriminate H; try discriminate H'. reflexivity.
Qed.
Lemma scale_nonzero : forall f (x y z x' y' z' : flt f), upto x x' -> upto y y' -> upto z z' -> ~ a_zero x -> ~ a_zero y -> ~ a_zero z ->
  t_scale (f_float f) x y z = t_scale (f_float f) x' y' z'.
Proof. exact z_t_scale. Qed.
