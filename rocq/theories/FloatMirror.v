(** Proofs about C114: a scene seen in mirrors. *)
From Coq Require Import ZArith Reals Lia Lra Bool List.
From Flocq Require Import Core.Core IEEE754.BinarySingleNaN.
From Verif Require Import Base Elem FloatInst GeoModel MatModel GeoSpec ArithSpec MatSpec OpsSpec SignSpec MirSpec OrderProofs MatThms.
From Verif Require Import FloatCore FloatThms OpsThms TransVec FloatSign.
Local Open Scope mon_scope.
Local Open Scope R_scope.

Section Mirror.
Context (f : fmt).
Notation B := (flt f).
Notation zero := (f_of_int f 0).
Notation one := (f_of_int f 1).
Notation veq := (veq f).
Notation flip := (flip f).
Notation mir := (mir f).

Lemma m_refl (x : B) : mir false x x. Proof. apply veq_refl. Qed.
Lemma flip_add s (x y : B) : veq (f_add (flip s x) (flip s y)) (flip s (f_add x y)).
Proof. destruct s; [apply add_neg|apply veq_refl]. Qed.
Lemma m_add s (x x' y y' : B) : mir s x x' -> mir s y y' -> mir s (f_add x y) (f_add x' y').
Proof. unfold MirSpec.mir. intros H1 H2. eapply veq_trans; [apply veq_sym, flip_add|]. now apply add_veq2. Qed.
Lemma m_sub s (x x' y y' : B) : mir s x x' -> mir s y y' -> mir s (f_sub x y) (f_sub x' y').
Proof. unfold MirSpec.mir. intros H1 H2. eapply veq_trans; [apply veq_sym, sub_flip|]. now apply sub_veq2. Qed.
Lemma m_mul s t (x x' y y' : B) : mir s x x' -> mir t y y' -> mir (xorb s t) (f_mult x y) (f_mult x' y').
Proof. unfold MirSpec.mir. intros H1 H2. eapply veq_trans; [apply veq_sym, mult_flip|]. now apply mult_veq2. Qed.
Lemma m_opp s (x x' : B) : mir s x x' -> mir s (Bopp x) (Bopp x').
Proof. unfold MirSpec.mir. intros H. apply opp_veq in H. destruct s; exact H. Qed.
Lemma m_turn s (x x' : B) : mir s x x' -> mir (negb s) x (Bopp x').
Proof. unfold MirSpec.mir. intros H. apply opp_veq in H. destruct s; cbn in *; [now rewrite Bopp_involutive in H|exact H]. Qed.
Lemma m_zero s : mir s zero zero.
Proof. unfold MirSpec.mir. rewrite (zero_is f). destruct s; [apply zeros_veq|apply veq_refl]. Qed.
Lemma m_div s (x x' y : B) : mir s x x' -> mir s (f_div x y) (f_div x' y).
Proof.
  unfold MirSpec.mir. intros H.
  assert (Q : veq (flip s (f_div x y)) (f_div (flip s x) y)).
  { destruct s; [|apply veq_refl]. cbn. destruct (is_finite x) eqn:Fx; [destruct (is_finite y) eqn:Fy|].
    - destruct (Req_dec (B2R y) 0) as [Y|Y].
      + apply zero_of in Y as [t ->]; auto. destruct x as [[]|[]| |[] m e Hx]; try discriminate; destruct t; apply veq_refl.
      + destruct (div_key f x y Fx Fy Y) as (N1 & K1 & _). destruct (div_key f (Bopp x) y) as (N2 & K2 & _); rewrite ?is_finite_Bopp; auto.
        apply key_veq; rewrite ?nan_opp; auto. rewrite key_opp, K1, K2, B2R_Bopp.
        replace (- B2R x / B2R y) with (- (B2R x / B2R y)) by (field; assumption). now rewrite rnd_opp, sat_opp.
    - destruct y as [t|t| |t m e Hy]; try discriminate; destruct x as [[]|[]| |[] m' e' Hx]; try discriminate; try destruct t; apply veq_refl || apply zeros_veq.
    - destruct x as [t|t| |t m e Hx]; try discriminate; destruct y as [[]|[]| |[] m' e' Hy]; destruct t || idtac; apply veq_refl. }
  eapply veq_trans; [exact Q|]. destruct (veq_cases f _ _ H) as [-> |(Ha & Hb & Fa & Fb)]; [apply veq_refl|].
  destruct (zero_of f _ Fa Ha) as [a ->], (zero_of f _ Fb Hb) as [b ->].
  destruct y as [t|t| |t m e Hy]; try destruct t; destruct a, b; apply veq_refl || apply zeros_veq.
Qed.
Lemma m_sqrt (x x' : B) : mir false x x' -> mir false (Bsqrt mode_NE x) (Bsqrt mode_NE x').
Proof.
  unfold MirSpec.mir. cbn. intros H. destruct (veq_cases f _ _ H) as [-> |(Ha & Hb & Fa & Fb)]; [apply veq_refl|].
  destruct (zero_of f _ Fa Ha) as [a ->], (zero_of f _ Fb Hb) as [b ->]. apply zeros_veq.
Qed.
(** Comparisons. *)
Lemma m_keys s (x x' : B) : mir s x x' -> is_nan x = is_nan x' /\ (is_nan x = false -> key f x' = if s then - key f x else key f x).
Proof.
  unfold MirSpec.mir. rewrite veq_key. rewrite flip_nan. intros [H1 H2]. split; auto. intros N. rewrite <- H2 by assumption.
  destruct s; [apply key_opp|reflexivity].
Qed.
Lemma m_lt s (x x' y y' : B) : mir s x x' -> mir s y y' -> Bltb x y = if s then Bltb y' x' else Bltb x' y'.
Proof.
  intros H1 H2. apply m_keys in H1 as [N1 K1], H2 as [N2 K2].
  apply eq_true_iff_eq. destruct s; rewrite !ltb_key; rewrite <- N1, <- N2; split; intros (A1 & A2 & A3); repeat split; auto;
    rewrite ?K1, ?K2 in * by auto; lra.
Qed.
Lemma m_le s (x x' y y' : B) : mir s x x' -> mir s y y' -> Bleb x y = if s then Bleb y' x' else Bleb x' y'.
Proof.
  intros H1 H2. apply m_keys in H1 as [N1 K1], H2 as [N2 K2].
  apply eq_true_iff_eq. destruct s; rewrite !leb_key; rewrite <- N1, <- N2; split; intros (A1 & A2 & A3); repeat split; auto;
    rewrite ?K1, ?K2 in * by auto; lra.
Qed.
Definition fmin (x y : B) := if Bltb y x then y else x.
Definition fmax (x y : B) := if Bltb x y then y else x.
Lemma m_min s (x x' y y' : B) : mir s x x' -> mir s y y' -> mir s (fmin x y) (if s then fmax x' y' else fmin x' y').
Proof. intros H1 H2. unfold fmin, fmax. rewrite (m_lt s y y' x x' H2 H1). destruct s; [destruct (Bltb x' y')|destruct (Bltb y' x')]; assumption. Qed.
Lemma m_max s (x x' y y' : B) : mir s x x' -> mir s y y' -> mir s (fmax x y) (if s then fmin x' y' else fmax x' y').
Proof. intros H1 H2. unfold fmin, fmax. rewrite (m_lt s x x' y y' H1 H2). destruct s; [destruct (Bltb y' x')|destruct (Bltb x' y')]; assumption. Qed.
Lemma min_swap (x y : B) : is_nan x = false -> is_nan y = false -> veq (fmin x y) (fmin y x).
Proof.
  intros N1 N2. unfold fmin. destruct (Bltb y x) eqn:A, (Bltb x y) eqn:C; try apply veq_refl.
  - apply ltb_key in A as (_ & _ & A), C as (_ & _ & C). lra.
  - assert (A' : ~ key f y < key f x) by (intros Q; rewrite (proj2 (ltb_key f y x)) in A; [discriminate|auto]).
    assert (C' : ~ key f x < key f y) by (intros Q; rewrite (proj2 (ltb_key f x y)) in C; [discriminate|auto]).
    apply key_veq; auto. lra.
Qed.
Lemma max_swap (x y : B) : is_nan x = false -> is_nan y = false -> veq (fmax x y) (fmax y x).
Proof.
  intros N1 N2. unfold fmax. destruct (Bltb y x) eqn:A, (Bltb x y) eqn:C; try apply veq_refl.
  - apply ltb_key in A as (_ & _ & A), C as (_ & _ & C). lra.
  - assert (A' : ~ key f y < key f x) by (intros Q; rewrite (proj2 (ltb_key f y x)) in A; [discriminate|auto]).
    assert (C' : ~ key f x < key f y) by (intros Q; rewrite (proj2 (ltb_key f x y)) in C; [discriminate|auto]).
    apply key_veq; auto. lra.
Qed.
Lemma m_trans s (x y z : B) : mir s x y -> veq y z -> mir s x z.
Proof. apply veq_trans. Qed.
Lemma nan_min (x y : B) : is_nan x = false -> is_nan y = false -> is_nan (fmin x y) = false.
Proof. unfold fmin. destruct (Bltb y x); auto. Qed.
Lemma nan_max (x y : B) : is_nan x = false -> is_nan y = false -> is_nan (fmax x y) = false.
Proof. unfold fmax. destruct (Bltb x y); auto. Qed.
Lemma m_nan s (x y : B) : mir s x y -> is_nan x = is_nan y. Proof. intros H. apply (m_keys s x y H). Qed.
(** [max - min] from the other end *)
Lemma m_diff s (lo hi lo' hi' : B) : mir s lo (if s then hi' else lo') -> mir s hi (if s then lo' else hi') -> veq (f_sub hi lo) (f_sub hi' lo').
Proof.
  unfold MirSpec.mir. destruct s; cbn; intros H1 H2; [|now apply sub_veq2].
  eapply veq_trans; [apply sub_is|]. eapply veq_trans; [apply add_comm_veq|]. eapply veq_trans; [|apply veq_sym, sub_is].
  apply add_veq2; auto. apply opp_veq in H2. rewrite Bopp_involutive in H2. exact H2.
Qed.

(** ** Vectors *)
Notation E := (f_elem f).
Notation FT := (f_float f).
Notation mvec := (mir_vec f).
Notation mpt := (mir_pt f).
Notation mbox := (mir_box f).
Notation vec := (Vector3 (flt f)).
Notation pt := (Point3 (flt f)).
Notation box := (Bounds3 (flt f)).
Ltac done3 := do 2 eexists; split; [reflexivity|]; split; [reflexivity|].
Ltac ax3 := intros []; cbn [vcoord vx vy vz coord px py pz].
Lemma x_cancel s t : xorb (xorb s t) t = s. Proof. now destruct s, t. Qed.
Lemma m_same s (x x' y y' : B) : mir s x x' -> mir s y y' -> mir false (f_mult x y) (f_mult x' y').
Proof. intros H1 H2. pose proof (m_mul s s x x' y y' H1 H2) as H. now rewrite xorb_nilpotent in H. Qed.
Lemma m_scal s (t x x' : B) : mir s x x' -> mir s (f_mult t x) (f_mult t x').
Proof. intros H. pose proof (m_mul false s t t x x' (m_refl t) H) as Q. now rewrite xorb_false_l in Q. Qed.

Lemma vec_add S (u u' v v' : vec) : mvec S u u' -> mvec S v v' -> both (mvec S) (v3_add E u v) (v3_add E u' v') /\ both (mvec S) (v3_sub E u v) (v3_sub E u' v').
Proof.
  intros H1 H2. split; done3; ax3; first [apply m_add|apply m_sub];
    first [exact (H1 AX)|exact (H1 AY)|exact (H1 AZ)|exact (H2 AX)|exact (H2 AY)|exact (H2 AZ)].
Qed.
Lemma vec_scal S (u u' : vec) s : mvec S u u' -> both (mvec S) (v3_mul E u s) (v3_mul E u' s) /\ both (mvec S) (v3_div E u s) (v3_div E u' s).
Proof. intros H1. split; done3; ax3; first [apply m_scal|apply m_div]; first [exact (H1 AX)|exact (H1 AY)|exact (H1 AZ)]. Qed.
Lemma vec_neg S (u u' : vec) : mvec S u u' -> both (mvec S) (v3_neg E u) (v3_neg E u').
Proof. intros H1. done3. ax3; apply m_opp; first [exact (H1 AX)|exact (H1 AY)|exact (H1 AZ)]. Qed.
Lemma vec_dot S (u u' v v' : vec) : mvec S u u' -> mvec S v v' -> both veq (v3_dot E u v) (v3_dot E u' v').
Proof.
  intros H1 H2. done3. apply (m_add false); [apply m_add|]; eapply m_same;
    [exact (H1 AX)|exact (H2 AX)|exact (H1 AY)|exact (H2 AY)|exact (H1 AZ)|exact (H2 AZ)].
Qed.
Lemma vec_len S (u u' : vec) : mvec S u u' -> both veq (v3_len_sq E u) (v3_len_sq E u') /\ both veq (v3_len FT E (fun x => x) u) (v3_len FT E (fun x => x) u').
Proof.
  intros H1. assert (H : both veq (v3_len_sq E u) (v3_len_sq E u')) by (apply (vec_dot S u u' u u'); assumption).
  split; [exact H|]. destruct H as (a & b & E1 & E2 & H). unfold v3_len. rewrite E1, E2. done3. apply (m_sqrt a b H).
Qed.
Lemma vec_cross S (u u' v v' : vec) : mvec S u u' -> mvec S v v' -> both (mvec (fun i => xorb (odd S) (S i))) (v3_cross E u v) (v3_cross E u' v').
Proof.
  intros H1 H2. done3. unfold odd. ax3; apply m_sub.
  - replace (xorb _ _) with (xorb (S AY) (S AZ)) by (now destruct (S AX), (S AY), (S AZ)). apply m_mul; [apply (H1 AY)|apply (H2 AZ)].
  - replace (xorb _ _) with (xorb (S AZ) (S AY)) by (now destruct (S AX), (S AY), (S AZ)). apply m_mul; [apply (H1 AZ)|apply (H2 AY)].
  - replace (xorb _ _) with (xorb (S AZ) (S AX)) by (now destruct (S AX), (S AY), (S AZ)). apply m_mul; [apply (H1 AZ)|apply (H2 AX)].
  - replace (xorb _ _) with (xorb (S AX) (S AZ)) by (now destruct (S AX), (S AY), (S AZ)). apply m_mul; [apply (H1 AX)|apply (H2 AZ)].
  - replace (xorb _ _) with (xorb (S AX) (S AY)) by (now destruct (S AX), (S AY), (S AZ)). apply m_mul; [apply (H1 AX)|apply (H2 AY)].
  - replace (xorb _ _) with (xorb (S AY) (S AX)) by (now destruct (S AX), (S AY), (S AZ)). apply m_mul; [apply (H1 AY)|apply (H2 AX)].
Qed.
Lemma vec_face S (u u' v v' : vec) : mvec S u u' -> mvec S v v' -> both (mvec S) (v3_face_forward E u v) (v3_face_forward E u' v').
Proof.
  intros H1 H2. destruct (vec_dot S u u' v v' H1 H2) as (d & d' & E1 & E2 & D). unfold v3_face_forward. rewrite E1, E2. cbn [obind].
  change (e_lt E d (e_from_int E 0)) with (Bltb d zero). change (e_lt E d' (e_from_int E 0)) with (Bltb d' zero).
  rewrite (m_lt false d d' zero zero D (m_refl zero)). destruct (Bltb d' zero); [now apply vec_neg|]. exists u, u'. auto.
Qed.

(** ** Points and rays *)
Lemma pt_add S (p p' : pt) (v v' : vec) : mpt S p p' -> mvec S v v' -> both (mpt S) (p3_add E p v) (p3_add E p' v') /\ both (mpt S) (p3_sub_v E p v) (p3_sub_v E p' v').
Proof.
  intros H1 H2. split; done3; ax3; first [apply m_add|apply m_sub];
    first [exact (H1 AX)|exact (H1 AY)|exact (H1 AZ)|exact (H2 AX)|exact (H2 AY)|exact (H2 AZ)].
Qed.
Lemma pt_sub S (p p' q q' : pt) : mpt S p p' -> mpt S q q' -> both (mvec S) (p3_sub E p q) (p3_sub E p' q').
Proof. intros H1 H2. done3. ax3; apply m_sub; first [exact (H1 AX)|exact (H1 AY)|exact (H1 AZ)|exact (H2 AX)|exact (H2 AY)|exact (H2 AZ)]. Qed.
Lemma pt_scal S (u u' : pt) s : mpt S u u' -> both (mpt S) (p3_mul E u s) (p3_mul E u' s) /\ both (mpt S) (p3_div E u s) (p3_div E u' s).
Proof. intros H1. split; done3; ax3; first [apply m_scal|apply m_div]; first [exact (H1 AX)|exact (H1 AY)|exact (H1 AZ)]. Qed.
Lemma pt_lerp S (p p' q q' : pt) t : mpt S p p' -> mpt S q q' -> both (mpt S) (p3_lerp FT t p q) (p3_lerp FT t p' q').
Proof.
  intros H1 H2. unfold p3_lerp. destruct (pt_scal S p p' (f_sub one t) H1) as [(a & a' & A & A' & Ha) _]. destruct (pt_scal S q q' t H2) as [(b & b' & C & C' & Hb) _].
  done3. ax3; apply m_add; apply m_scal; first [exact (H1 AX)|exact (H1 AY)|exact (H1 AZ)|exact (H2 AX)|exact (H2 AY)|exact (H2 AZ)].
Qed.
Lemma ray_mir S (r r' : Ray (flt f)) t : mir_ray f S r r' -> both (mpt S) (ray_at FT r t) (ray_at FT r' t).
Proof.
  intros [H1 H2]. unfold ray_at. destruct (vec_scal S _ _ t H2) as [(a & a' & A & A' & Ha) _].
  change (v3_mul FT (r_d r) t) with (v3_mul E (r_d r) t). change (v3_mul FT (r_d r') t) with (v3_mul E (r_d r') t). rewrite A, A'. apply (pt_add S _ _ _ _ H1 Ha).
Qed.

(** Rounding to integers *)
Lemma near_val m (x : B) : is_finite x = true -> is_finite (Bnearbyint m x) = true /\ B2R (Bnearbyint m x) = round radix2 (FIX_exp 0) (round_mode m) (B2R x).
Proof. intros Fx. destruct (Bnearbyint_correct _ _ (fprec_lt_emax f) m x) as (H1 & H2 & _). split; [now rewrite H2|exact H1]. Qed.
Lemma m_near s (x x' : B) : mir s x x' -> mir s (Bnearbyint mode_DN x) (Bnearbyint (if s then mode_UP else mode_DN) x') /\
  mir s (Bnearbyint mode_UP x) (Bnearbyint (if s then mode_DN else mode_UP) x').
Proof.
  intros H. destruct (is_finite x) eqn:Fx.
  - assert (K : is_finite x' = true /\ B2R x' = if s then - B2R x else B2R x).
    { unfold MirSpec.mir in H. destruct (veq_cases f _ _ H) as [<- |(A & C & FA & FC)].
      - rewrite flip_fin. split; auto. destruct s; [apply B2R_Bopp|reflexivity].
      - split; auto. rewrite C. destruct s; cbn in A; [rewrite B2R_Bopp in A|]; lra. }
    destruct K as [F' K].
    assert (G : forall m m', (s = true -> round radix2 (FIX_exp 0) (round_mode m') (- B2R x) = - round radix2 (FIX_exp 0) (round_mode m) (B2R x)) ->
      (s = false -> m' = m) -> mir s (Bnearbyint m x) (Bnearbyint m' x')).
    { intros m m' Ht Hf. destruct (near_val m x Fx) as [F1 V1], (near_val m' x' F') as [F2 V2].
      apply key_veq; [rewrite flip_nan; now apply fin_nan|now apply fin_nan|]. rewrite key_finite by now rewrite flip_fin. rewrite key_finite by auto.
      rewrite V2, K. destruct s; cbn [SignSpec.flip].
      - rewrite B2R_Bopp, V1. symmetry. now apply Ht.
      - rewrite V1. now rewrite (Hf eq_refl). }
    split; apply G; intros ->; auto; cbn [round_mode]; [apply round_UP_opp|apply round_DN_opp].
  - destruct x as [|t| |]; try discriminate; unfold MirSpec.mir in H.
    + assert (X : x' = flip s (B754_infinity t)). { destruct (veq_cases f _ _ H) as [-> |(A & C & FA & FC)]; auto. destruct s; discriminate. }
      subst x'. destruct s, t; split; apply veq_refl.
    + destruct (veq_cases f _ _ H) as [<- |(A & C & FA & FC)]; destruct s; try discriminate; split; right; split; reflexivity.
Qed.
Lemma pt_floor S (p p' : pt) : mpt S p p' -> mir_box f S (B3 (p3_floor FT p) (p3_ceil FT p)) (B3 (p3_floor FT p') (p3_ceil FT p')).
Proof.
  intros H i. pose proof (m_near _ _ _ (H i)) as [A C].
  assert (X : forall q : pt, coord i (p3_floor FT q) = Bnearbyint mode_DN (coord i q) /\ coord i (p3_ceil FT q) = Bnearbyint mode_UP (coord i q)) by (intros q; now destruct i).
  cbn [b_min b_max]. rewrite (proj1 (X p)), (proj2 (X p)). destruct (S i); rewrite (proj1 (X p')), (proj2 (X p')); auto.
Qed.

(** ** Boxes *)
Definition mkp (g : axis -> B) : pt := P3 (g AX) (g AY) (g AZ).
Lemma coord_mkp i g : coord i (mkp g) = g i. Proof. now destruct i. Qed.
Lemma new_is (p q : pt) : b3_new E p q = Done (B3 (mkp (fun i => fmin (coord i p) (coord i q))) (mkp (fun i => fmax (coord i p) (coord i q)))).
Proof. reflexivity. Qed.
Lemma union_is (a b : box) : b3_union E a b = b3_new E (mkp (fun i => fmin (coord i (b_min a)) (coord i (b_min b)))) (mkp (fun i => fmax (coord i (b_max a)) (coord i (b_max b)))).
Proof. reflexivity. Qed.
Lemma union_pt_is (a : box) (p : pt) : b3_union_pt E a p = b3_new E (mkp (fun i => fmin (coord i (b_min a)) (coord i p))) (mkp (fun i => fmax (coord i (b_max a)) (coord i p))).
Proof. reflexivity. Qed.
Lemma intersect_is (a b : box) : b3_intersect E a b = b3_new E (mkp (fun i => fmax (coord i (b_min a)) (coord i (b_min b)))) (mkp (fun i => fmin (coord i (b_max a)) (coord i (b_max b)))).
Proof. reflexivity. Qed.
Lemma expand_is (a : box) d : b3_expand E a d = b3_new E (mkp (fun i => f_sub (coord i (b_min a)) d)) (mkp (fun i => f_add (coord i (b_max a)) d)).
Proof. reflexivity. Qed.
Lemma box_new S (p p' q q' : pt) : mpt S p p' -> mpt S q q' -> both (mbox S) (b3_new E p q) (b3_new E p' q').
Proof.
  intros H1 H2. rewrite !new_is. done3. intros i. cbn [b_min b_max]. rewrite !coord_mkp.
  pose proof (m_min (S i) _ _ _ _ (H1 i) (H2 i)) as A. pose proof (m_max (S i) _ _ _ _ (H1 i) (H2 i)) as C.
  destruct (S i); cbn [b_min b_max]; rewrite ?coord_mkp; auto.
Qed.
Notation valid := (box_valid (TFloat f)).
Lemma valid_is (b : box) i : valid b -> is_nan (coord i (b_min b)) = false /\ is_nan (coord i (b_max b)) = false.
Proof. intros [H1 H2]. split; [apply (H1 i)|apply (H2 i)]. Qed.
(** Sorting the bounds of a box. *)
Lemma box_sort S (lo hi lo' hi' : pt) : mbox S (B3 lo hi) (B3 lo' hi') -> valid (B3 lo hi) -> both (mbox S) (b3_new E lo hi) (b3_new E lo' hi').
Proof.
  intros H V. rewrite !new_is. done3. intros i. cbn [b_min b_max]. rewrite !coord_mkp. destruct (H i) as [H1 H2]. destruct (valid_is _ i V) as [N1 N2]. cbn [b_min b_max] in *.
  pose proof (m_nan _ _ _ H1) as M1. pose proof (m_nan _ _ _ H2) as M2. rewrite N1 in M1. rewrite N2 in M2.
  pose proof (m_min (S i) _ _ _ _ H1 H2) as A. pose proof (m_max (S i) _ _ _ _ H1 H2) as C.
  destruct (S i); cbn [b_min b_max] in *; rewrite ?coord_mkp; [|auto].
  split; [eapply m_trans; [exact A|apply max_swap; auto]|eapply m_trans; [exact C|apply min_swap; auto]].
Qed.
Lemma valid_mk (g h : axis -> B) : (forall i, is_nan (g i) = false) -> (forall i, is_nan (h i) = false) -> valid (B3 (mkp g) (mkp h)).
Proof. intros H1 H2. split; intros i; cbn; rewrite coord_mkp; [apply H1|apply H2]. Qed.
Lemma box_union S (a a' b b' : box) : mbox S a a' -> mbox S b b' -> valid a -> valid b -> both (mbox S) (b3_union E a b) (b3_union E a' b').
Proof.
  intros H1 H2 V1 V2. rewrite !union_is.
  apply box_sort.
  - intros i. cbn [b_min b_max]. rewrite !coord_mkp. destruct (H1 i) as [A1 A2], (H2 i) as [C1 C2].
    pose proof (m_min _ _ _ _ _ A1 C1) as A. pose proof (m_max _ _ _ _ _ A2 C2) as C. destruct (S i); cbn [b_min b_max] in *; rewrite ?coord_mkp; auto.
  - apply valid_mk; intros i; destruct (valid_is a i V1), (valid_is b i V2); [now apply nan_min|now apply nan_max].
Qed.
Lemma box_intersect S (a a' b b' : box) : mbox S a a' -> mbox S b b' -> valid a -> valid b -> both (mbox S) (b3_intersect E a b) (b3_intersect E a' b').
Proof.
  intros H1 H2 V1 V2. rewrite !intersect_is.
  apply box_sort.
  - intros i. cbn [b_min b_max]. rewrite !coord_mkp. destruct (H1 i) as [A1 A2], (H2 i) as [C1 C2].
    pose proof (m_max _ _ _ _ _ A1 C1) as A. pose proof (m_min _ _ _ _ _ A2 C2) as C. destruct (S i); cbn [b_min b_max] in *; rewrite ?coord_mkp; auto.
  - apply valid_mk; intros i; destruct (valid_is a i V1), (valid_is b i V2); [now apply nan_max|now apply nan_min].
Qed.
Lemma box_union_pt S (a a' : box) (p p' : pt) : mbox S a a' -> mpt S p p' -> valid a -> pt_valid (TFloat f) p -> both (mbox S) (b3_union_pt E a p) (b3_union_pt E a' p').
Proof.
  intros H1 H2 V1 V2. rewrite !union_pt_is.
  apply box_sort.
  - intros i. cbn [b_min b_max]. rewrite !coord_mkp. destruct (H1 i) as [A1 A2]. pose proof (H2 i) as C1.
    pose proof (m_min _ _ _ _ _ A1 C1) as A. pose proof (m_max _ _ _ _ _ A2 C1) as C. destruct (S i); cbn [b_min b_max] in *; rewrite ?coord_mkp; auto.
  - apply valid_mk; intros i; destruct (valid_is a i V1); pose proof (V2 i : is_nan _ = false); [now apply nan_min|now apply nan_max].
Qed.
Lemma nan_sub (x d : B) : is_nan x = false -> is_finite d = true -> is_nan (f_sub x d) = false /\ is_nan (f_add x d) = false.
Proof.
  intros N Fd. destruct (is_finite x) eqn:Fx.
  - split; [apply (sub_key f x d Fx Fd)|apply (add_key f x d Fx Fd)].
  - destruct x as [|s| |]; try discriminate; destruct d as [t|t| |t m e H]; try discriminate; split; reflexivity.
Qed.
Lemma m_move (x x' d : B) : mir true x x' -> mir true (f_sub x d) (f_add x' d) /\ mir true (f_add x d) (f_sub x' d).
Proof.
  intros H. assert (D : mir true d (Bopp d)) by apply veq_refl. split.
  - eapply m_trans; [apply m_sub; [exact H|exact D]|]. eapply veq_trans; [apply sub_is|]. rewrite Bopp_involutive. apply veq_refl.
  - eapply m_trans; [apply m_add; [exact H|exact D]|]. apply veq_sym, sub_is.
Qed.
Lemma box_expand S (a a' : box) d : mbox S a a' -> valid a -> is_finite d = true -> both (mbox S) (b3_expand E a d) (b3_expand E a' d).
Proof.
  intros H1 V1 Fd. rewrite !expand_is.
  apply box_sort.
  - intros i. cbn [b_min b_max]. rewrite !coord_mkp. destruct (H1 i) as [A1 A2].
    destruct (S i); cbn [b_min b_max] in *; rewrite ?coord_mkp; [split; apply m_move; assumption|split; [apply m_sub|apply m_add]; auto using m_refl].
  - apply valid_mk; intros i; destruct (valid_is a i V1); apply nan_sub; auto.
Qed.
Lemma m_le2 s (x y x' y' : B) : mir s x x' -> mir s y y' -> forall z w, (if s then Bleb y' x' else Bleb x' y') = z -> w = z -> Bleb x y = w.
Proof. intros H1 H2 z w <- ->. now apply m_le. Qed.
Lemma inside_is (b : box) p : b3_inside E b p = Bleb (coord AX (b_min b)) (coord AX p) && Bleb (coord AX p) (coord AX (b_max b)) &&
  (Bleb (coord AY (b_min b)) (coord AY p) && Bleb (coord AY p) (coord AY (b_max b))) && (Bleb (coord AZ (b_min b)) (coord AZ p) && Bleb (coord AZ p) (coord AZ (b_max b))).
Proof. unfold b3_inside. cbn [coord e_le f_elem]. now rewrite !andb_assoc. Qed.
Lemma box_inside S (a a' : box) (p p' : pt) : mbox S a a' -> mpt S p p' -> b3_inside E a p = b3_inside E a' p'.
Proof.
  intros H1 H2. rewrite !inside_is.
  assert (G : forall i, Bleb (coord i (b_min a)) (coord i p) && Bleb (coord i p) (coord i (b_max a)) = Bleb (coord i (b_min a')) (coord i p') && Bleb (coord i p') (coord i (b_max a'))).
  { intros i. destruct (H1 i) as [A1 A2]. rewrite (m_le _ _ _ _ _ A1 (H2 i)), (m_le _ _ _ _ _ (H2 i) A2). destruct (S i); [apply andb_comm|reflexivity]. }
  now rewrite !G.
Qed.
Lemma overlaps_is (a b : box) : b3_overlaps E a b = Bleb (coord AX (b_min b)) (coord AX (b_max a)) && Bleb (coord AX (b_min a)) (coord AX (b_max b)) &&
  (Bleb (coord AY (b_min b)) (coord AY (b_max a)) && Bleb (coord AY (b_min a)) (coord AY (b_max b))) &&
  (Bleb (coord AZ (b_min b)) (coord AZ (b_max a)) && Bleb (coord AZ (b_min a)) (coord AZ (b_max b))).
Proof. reflexivity. Qed.
Lemma box_overlaps S (a a' b b' : box) : mbox S a a' -> mbox S b b' -> b3_overlaps E a b = b3_overlaps E a' b'.
Proof.
  intros H1 H2. rewrite !overlaps_is.
  assert (G : forall i, Bleb (coord i (b_min b)) (coord i (b_max a)) && Bleb (coord i (b_min a)) (coord i (b_max b)) =
    Bleb (coord i (b_min b')) (coord i (b_max a')) && Bleb (coord i (b_min a')) (coord i (b_max b'))).
  { intros i. destruct (H1 i) as [A1 A2], (H2 i) as [C1 C2]. rewrite (m_le _ _ _ _ _ C1 A2), (m_le _ _ _ _ _ A1 C2). destruct (S i); [apply andb_comm|reflexivity]. }
  now rewrite !G.
Qed.
Lemma box_diagonal S (a a' : box) : mbox S a a' -> both (vveq f) (b3_diagonal E a) (b3_diagonal E a').
Proof.
  intros H. done3. intros i. destruct (H i) as [A1 A2].
  assert (G : veq (f_sub (coord i (b_max a)) (coord i (b_min a))) (f_sub (coord i (b_max a')) (coord i (b_min a')))).
  { apply (m_diff (S i)); destruct (S i); assumption. }
  destruct i; exact G.
Qed.
Lemma box_measures S (a a' : box) : mbox S a a' -> both veq (b3_volume E a) (b3_volume E a') /\ both veq (b3_surface_area E a) (b3_surface_area E a') /\
  b3_maximum_extent E a = b3_maximum_extent E a'.
Proof.
  intros H. destruct (box_diagonal S a a' H) as (d & d' & E1 & E2 & D). unfold b3_volume, b3_surface_area, b3_maximum_extent. rewrite E1, E2. cbn [obind].
  pose proof (D AX : mir false _ _) as X. pose proof (D AY : mir false _ _) as Y. pose proof (D AZ : mir false _ _) as Z. cbn [vcoord] in X, Y, Z.
  split; [|split].
  - done3. eapply (m_same false); [eapply m_same|]; eassumption.
  - done3. apply (m_scal false). apply (m_add false); [apply m_add|]; eapply (m_same false); eassumption.
  - cbn. rewrite (m_lt false _ _ _ _ Y X), (m_lt false _ _ _ _ Z X), (m_lt false _ _ _ _ Z Y). reflexivity.
Qed.
Lemma box_centre S (a a' : box) : mbox S a a' -> both (fun c c' => mpt S (fst c) (fst c')) (bounding_sphere FT a) (bounding_sphere FT a').
Proof.
  intros H.
  assert (L : forall b : box, bounding_sphere FT b = (center <~ (s <~ p3_add FT (b_min b) (v3_from_p3 (b_max b)) ;; p3_div FT s (e_from_int FT 2)) ;;
    r <~ (if b3_inside FT b center then d <~ p3_sub FT center (b_max b) ;; v3_len FT FT (fun x => x) d else Done (e_from_int FT 0)) ;; Done (center, r))) by reflexivity.
  rewrite !L. clear L.
  assert (G : exists c c', (s <~ p3_add FT (b_min a) (v3_from_p3 (b_max a)) ;; p3_div FT s (e_from_int FT 2)) = Done c /\
    (s <~ p3_add FT (b_min a') (v3_from_p3 (b_max a')) ;; p3_div FT s (e_from_int FT 2)) = Done c' /\ mpt S c c').
  { done3. assert (X : forall i, mir (S i) (f_add (coord i (b_min a)) (coord i (b_max a))) (f_add (coord i (b_min a')) (coord i (b_max a')))).
    { intros i. destruct (H i) as [A1 A2]. pose proof (m_add _ _ _ _ _ A1 A2) as Q. destruct (S i); [|exact Q]. eapply m_trans; [exact Q|apply add_comm_veq]. }
    ax3; apply m_div; [exact (X AX)|exact (X AY)|exact (X AZ)]. }
  destruct G as (c & c' & E1 & E2 & C).
  assert (R : forall (b : box) x, exists r, (if b3_inside FT b x then d <~ p3_sub FT x (b_max b) ;; v3_len FT FT (fun x => x) d else Done (e_from_int FT 0)) = Done r).
  { intros b x. destruct (b3_inside FT b x); eexists; reflexivity. }
  destruct (R a c) as [r Er]. destruct (R a' c') as [r' Er'].
  rewrite E1, E2. cbn [obind].
  exists (c, r), (c', r'). rewrite Er, Er'. repeat split. exact C.
Qed.

(** ** Matrices and transforms *)
Notation mmat := (mir_mat f).
Lemma mat_mul S T U (a a' b b' : Matrix4 (flt f)) : mmat S T a a' -> mmat T U b b' -> both (mmat S U) (m4_mul E a b) (m4_mul E a' b').
Proof.
  intros H1 H2. do 2 eexists. split; [reflexivity|]. split; [reflexivity|].
  assert (X : forall r c k, mir (xorb (on4 S r) (on4 U c)) (f_mult (mget a r k) (mget b k c)) (f_mult (mget a' r k) (mget b' k c))).
  { intros r c k. pose proof (m_mul _ _ _ _ _ _ (H1 r k) (H2 k c)) as Q.
    replace (xorb (xorb (on4 S r) (on4 T k)) (xorb (on4 T k) (on4 U c))) with (xorb (on4 S r) (on4 U c)) in Q; [exact Q|].
    now destruct (on4 S r), (on4 T k), (on4 U c). }
  assert (SUM : forall r c, let t g h k := f_mult (mget g r k) (mget h k c) in
    mir (xorb (on4 S r) (on4 U c)) (f_add (f_add (f_add (f_add zero (t a b I0)) (t a b I1)) (t a b I2)) (t a b I3))
      (f_add (f_add (f_add (f_add zero (t a' b' I0)) (t a' b' I1)) (t a' b' I2)) (t a' b' I3))).
  { intros r c t. repeat (apply m_add; [|apply X]). apply m_zero. }
  intros [] []; match goal with |- MirSpec.mir _ (xorb (on4 _ ?r) (on4 _ ?c)) _ _ => exact (SUM r c) end.
Qed.
Lemma mat_add S T (a a' b b' : Matrix4 (flt f)) : mmat S T a a' -> mmat S T b b' -> both (mmat S T) (m4_add E a b) (m4_add E a' b').
Proof.
  intros H1 H2. do 2 eexists. split; [reflexivity|]. split; [reflexivity|].
  intros [] []; match goal with |- MirSpec.mir _ (xorb (on4 _ ?r) (on4 _ ?c)) _ _ => exact (m_add _ _ _ _ _ (H1 r c) (H2 r c)) end.
Qed.
Lemma mat_translate S (d d' : vec) : mvec S d d' -> both (fun t t' => mmat S S (t_m t) (t_m t') /\ mmat S S (t_inv t) (t_inv t')) (t_translate FT d) (t_translate FT d').
Proof.
  intros H. done3. split; intros [] []; cbn [on4 mget vget w0 w1 w2 w3 t_m t_inv]; rewrite ?xorb_nilpotent, ?xorb_false_r; try apply m_zero; try apply m_refl;
    try apply m_opp; first [exact (H AX)|exact (H AY)|exact (H AZ)].
Qed.
Lemma vec_transform_by S T k (t t' : Transform (flt f)) (v v' : vec) : mmat S T (t_m t) (t_m t') -> mvec (fun j => xorb (T j) k) v v' ->
  both (mvec (fun i => xorb (S i) k)) (v3_transform FT (fun x => x) v t) (v3_transform FT (fun x => x) v' t').
Proof.
  intros H1 H2. done3.
  assert (X : forall i j, mir (xorb (S i) k) (f_mult (mget (t_m t) (axis_ix i) (axis_ix j)) (vcoord j v)) (f_mult (mget (t_m t') (axis_ix i) (axis_ix j)) (vcoord j v'))).
  { intros i j. pose proof (m_mul _ _ _ _ _ _ (H1 (axis_ix i) (axis_ix j)) (H2 j)) as Q.
    replace (xorb (xorb (on4 S (axis_ix i)) (on4 T (axis_ix j))) (xorb (T j) k)) with (xorb (S i) k) in Q; [exact Q|].
    assert (G : forall U x, on4 U (axis_ix x) = U x) by (intros U []; reflexivity). rewrite !G. now destruct (S i), (T j), k. }
  ax3; (apply m_add; [apply m_add|]); first [apply (X AX AX)|apply (X AX AY)|apply (X AX AZ)|apply (X AY AX)|apply (X AY AY)|apply (X AY AZ)|apply (X AZ AX)|apply (X AZ AY)|apply (X AZ AZ)].
Qed.
Lemma vec_mir S T (v v' : vec) : (forall i, S i = T i) -> mvec S v v' -> mvec T v v'.
Proof. intros H Q i. rewrite <- H. apply Q. Qed.
Lemma vec_transform S T (t t' : Transform (flt f)) (v v' : vec) : mmat S T (t_m t) (t_m t') -> mvec T v v' ->
  both (mvec S) (v3_transform FT (fun x => x) v t) (v3_transform FT (fun x => x) v' t').
Proof.
  intros H1 H2. destruct (vec_transform_by S T false t t' v v' H1) as (a & a' & E1 & E2 & A).
  - eapply vec_mir; [|exact H2]. intros i. now rewrite xorb_false_r.
  - exists a, a'. split; auto. split; auto. eapply vec_mir; [|exact A]. intros i. apply xorb_false_r.
Qed.
Lemma not_one_veq (x y : B) : veq x y -> not_one FT x = not_one FT y.
Proof.
  intros H. unfold not_one. cbn [e_lt fl_elem f_float f_elem]. rewrite (m_lt false x y _ _ H (m_refl _)), (m_lt false _ _ x y (m_refl _) H). reflexivity.
Qed.
Lemma mat_has_scale S T (t t' : Transform (flt f)) : mmat S T (t_m t) (t_m t') -> t_has_scale FT t = t_has_scale FT t'.
Proof.
  intros H.
  assert (U : forall (v : vec) k, mvec (fun j => xorb (T j) k) v v -> exists a a' l l',
     v3_transform FT (fun x => x) v t = Done a /\ v3_transform FT (fun x => x) v t' = Done a' /\ v3_len_sq FT a = Done l /\ v3_len_sq FT a' = Done l' /\ veq l l').
  { intros v k V. destruct (vec_transform_by S T k t t' v v H V) as (a & a' & E1 & E2 & A).
    destruct (vec_len _ _ _ A) as [(l & l' & L1 & L2 & L) _]. exists a, a', l, l'. auto. }
  destruct (U (V3 one zero zero) (T AX)) as (a & a' & l & l' & A1 & A2 & L1 & L2 & La).
  { ax3; rewrite ?xorb_nilpotent; first [apply m_refl|apply m_zero]. }
  destruct (U (V3 zero one zero) (T AY)) as (b & b' & m & m' & B1 & B2 & M1 & M2 & Lb).
  { ax3; rewrite ?xorb_nilpotent; first [apply m_refl|apply m_zero]. }
  destruct (U (V3 zero zero one) (T AZ)) as (c & c' & n & n' & C1 & C2 & N1 & N2 & Lc).
  { ax3; rewrite ?xorb_nilpotent; first [apply m_refl|apply m_zero]. }
  unfold t_has_scale. change (e_from_int FT 1) with one. change (e_from_int FT 0) with zero.
  rewrite A1, A2. cbn [obind]. rewrite L1, L2. cbn [obind]. rewrite B1, B2. cbn [obind]. rewrite M1, M2. cbn [obind].
  rewrite C1, C2. cbn [obind]. rewrite N1, N2. cbn [obind]. now rewrite (not_one_veq _ _ La), (not_one_veq _ _ Lb), (not_one_veq _ _ Lc).
Qed.
End Mirror.

(** ** Examples *)
Ltac cases := repeat match goal with |- _ /\ _ => split end; try match goal with |- _ = _ => vm_compute; reflexivity end;
  lazy beta delta [mir_box mir_vec mir_pt bfinite pfinite box_valid pt_valid]; repeat match goal with |- _ /\ _ => split end; intros []; repeat match goal with |- _ /\ _ => split end; vm_compute; auto.
Definition mirror_x (i : axis) : bool := match i with AX => true | _ => false end.
Lemma mirror_case : let S := mirror_x in let a := bx (f32 1) (f32 0) (f32 0) (f32 3) (f32 1) (f32 1) in let a' := bx (f32 (-3)) (f32 0) (f32 0) (f32 (-1)) (f32 1) (f32 1) in
  let u := V3 (f32 1) (f32 2) (f32 3) in let u' := V3 (f32 (-1)) (f32 2) (f32 3) in let v := V3 (f32 0) (f32 1) (f32 5) in let p := P3 (f32 2) (f32 1) (f32 0) in let p' := P3 (f32 (-2)) (f32 1) (f32 0) in
  mir_box F32 S a a' /\ mir_vec F32 S u u' /\ mir_vec F32 S v v /\ mir_pt F32 S p p' /\ box_valid (TFloat F32) a /\ pt_valid (TFloat F32) p /\
  b3_inside (f_elem F32) a p = true /\ b3_inside (f_elem F32) a' p' = true /\
  omap vsf (v3_cross (f_elem F32) u v) = Done (vsf (V3 (f32 7) (f32 (-5)) (f32 1))) /\
  omap vsf (v3_cross (f_elem F32) u' v) = Done (vsf (V3 (f32 7) (f32 5) (f32 (-1)))).
Proof.
  cbn zeta. cases.
Qed.
Lemma mirror_transform_case : let S := mirror_x in let d := V3 (f32 1) (f32 2) (f32 3) in let d' := V3 (f32 (-1)) (f32 2) (f32 3) in
  mir_vec F32 S d d' /\
  (forall r c, mget (W4 (W4 (f32 1) (f32 0) (f32 0) (f32 1)) (W4 (f32 0) (f32 1) (f32 0) (f32 2)) (W4 (f32 0) (f32 0) (f32 1) (f32 3)) (W4 (f32 0) (f32 0) (f32 0) (f32 1))) r c =
    match t_translate (f_float F32) d with Done t => mget (t_m t) r c | _ => f_nan end) /\
  mir_mat F32 S S (W4 (W4 (f32 2) (f32 3) (f32 0) (f32 1)) (W4 (f32 4) (f32 1) (f32 0) (f32 2)) (W4 (f32 0) (f32 0) (f32 1) (f32 3)) (W4 (f32 0) (f32 0) (f32 0) (f32 1)))
    (W4 (W4 (f32 2) (f32 (-3)) (f32 0) (f32 (-1))) (W4 (f32 (-4)) (f32 1) (f32 0) (f32 2)) (W4 (f32 0) (f32 0) (f32 1) (f32 3)) (W4 (f32 0) (f32 0) (f32 0) (f32 1))).
Proof. cbn zeta. split; [intros []; vm_compute; auto|]. split; [intros [] []; reflexivity|intros [] []; vm_compute; auto]. Qed.
(** The half-open boxes of inside_exclusive are not symmetric. *)
Lemma exclusive_case : exists S (a a' : Bounds3 (flt F32)) p p', mir_box F32 S a a' /\ mir_pt F32 S p p' /\ bfinite a /\ pfinite p /\
  b3_inside_exclusive (f_elem F32) a p = true /\ b3_inside_exclusive (f_elem F32) a' p' = false.
Proof.
  exists mirror_x, (bx (f32 1) (f32 0) (f32 0) (f32 3) (f32 1) (f32 1)), (bx (f32 (-3)) (f32 0) (f32 0) (f32 (-1)) (f32 1) (f32 1)), (P3 (f32 1) (f32 0) (f32 0)), (P3 (f32 (-1)) (f32 0) (f32 0)).
  cases.
Qed.
(** The radius of the bounding sphere is measured to one corner; rounding can make the other corner nearer. *)
Lemma radius_case : exists S (a a' : Bounds3 (flt F32)), mir_box F32 S a a' /\ bfinite a /\
  omap (fun c => B2SF (snd c)) (bounding_sphere (f_float F32) a) = Done (B2SF (f32 8388608)) /\
  omap (fun c => B2SF (snd c)) (bounding_sphere (f_float F32) a') = Done (B2SF (f32 8388607)).
Proof.
  exists mirror_x, (bx (f32 1) (f32 0) (f32 0) (f32 16777216) (f32 0) (f32 0)), (bx (f32 (-16777216)) (f32 0) (f32 0) (f32 (-1)) (f32 0) (f32 0)).
  cases.
Qed.
(** With NaN the images differ. *)
Lemma mirror_nan_case : exists S (a a' b b' : Bounds3 (flt F32)), mir_box F32 S a a' /\ mir_box F32 S b b' /\ bfinite b /\
  omap (fun c => is_nan (px (b_max c))) (b3_union (f_elem F32) a b) = Done true /\
  omap (fun c => is_nan (px (b_min c))) (b3_union (f_elem F32) a' b') = Done false.
Proof.
  exists mirror_x, (bx f_nan (f32 0) (f32 0) (f32 1) (f32 0) (f32 0)), (bx (f32 (-1)) (f32 0) (f32 0) f_nan (f32 0) (f32 0)),
    (bx (f32 0) (f32 0) (f32 0) (f32 2) (f32 0) (f32 0)), (bx (f32 (-2)) (f32 0) (f32 0) (f32 0) (f32 0) (f32 0)).
  cases.
Qed.

(** ** Put together *)
Lemma mirrored_vectors : forall f S (u u' v v' : Vector3 (flt f)) s, mir_vec f S u u' -> mir_vec f S v v' ->
  both (mir_vec f S) (v3_add (f_elem f) u v) (v3_add (f_elem f) u' v') /\ both (mir_vec f S) (v3_sub (f_elem f) u v) (v3_sub (f_elem f) u' v') /\
  both (mir_vec f S) (v3_mul (f_elem f) u s) (v3_mul (f_elem f) u' s) /\ both (mir_vec f S) (v3_div (f_elem f) u s) (v3_div (f_elem f) u' s) /\
  both (mir_vec f S) (v3_neg (f_elem f) u) (v3_neg (f_elem f) u') /\
  both (mir_vec f S) (v3_face_forward (f_elem f) u v) (v3_face_forward (f_elem f) u' v').
Proof. intros f S u u' v v' s H1 H2. destruct (vec_add f S u u' v v' H1 H2), (vec_scal f S u u' s H1). repeat match goal with |- _ /\ _ => split end; auto using vec_neg, vec_face. Qed.
Lemma mirrored_products : forall f S (u u' v v' : Vector3 (flt f)), mir_vec f S u u' -> mir_vec f S v v' ->
  both (veq f) (v3_dot (f_elem f) u v) (v3_dot (f_elem f) u' v') /\
  both (mir_vec f (fun i => xorb (odd S) (S i))) (v3_cross (f_elem f) u v) (v3_cross (f_elem f) u' v') /\
  both (veq f) (v3_len_sq (f_elem f) u) (v3_len_sq (f_elem f) u') /\
  both (veq f) (v3_len (f_float f) (f_elem f) (fun x => x) u) (v3_len (f_float f) (f_elem f) (fun x => x) u').
Proof. intros f S u u' v v' H1 H2. destruct (vec_len f S u u' H1). repeat match goal with |- _ /\ _ => split end; auto; [now apply (vec_dot f S)|now apply vec_cross]. Qed.
Lemma mirrored_points : forall f S (p p' q q' : Point3 (flt f)) (v v' : Vector3 (flt f)) s, mir_pt f S p p' -> mir_pt f S q q' -> mir_vec f S v v' ->
  both (mir_pt f S) (p3_add (f_elem f) p v) (p3_add (f_elem f) p' v') /\ both (mir_pt f S) (p3_sub_v (f_elem f) p v) (p3_sub_v (f_elem f) p' v') /\
  both (mir_vec f S) (p3_sub (f_elem f) p q) (p3_sub (f_elem f) p' q') /\
  both (mir_pt f S) (p3_mul (f_elem f) p s) (p3_mul (f_elem f) p' s) /\ both (mir_pt f S) (p3_div (f_elem f) p s) (p3_div (f_elem f) p' s) /\
  both (mir_pt f S) (p3_lerp (f_float f) s p q) (p3_lerp (f_float f) s p' q') /\
  mir_box f S (B3 (p3_floor (f_float f) p) (p3_ceil (f_float f) p)) (B3 (p3_floor (f_float f) p') (p3_ceil (f_float f) p')).
Proof. intros f S p p' q q' v v' s H1 H2 H3. destruct (pt_add f S p p' v v' H1 H3), (pt_scal f S p p' s H1).
  repeat match goal with |- _ /\ _ => split end; auto; [now apply pt_sub|now apply pt_lerp|now apply pt_floor]. Qed.
Lemma mirrored_boxes : forall f S (a a' b b' : Bounds3 (flt f)) (p p' : Point3 (flt f)) d, mir_box f S a a' -> mir_box f S b b' -> mir_pt f S p p' ->
  box_valid (TFloat f) a -> box_valid (TFloat f) b -> pt_valid (TFloat f) p -> is_finite d = true ->
  both (mir_box f S) (b3_union (f_elem f) a b) (b3_union (f_elem f) a' b') /\ both (mir_box f S) (b3_union_pt (f_elem f) a p) (b3_union_pt (f_elem f) a' p') /\
  both (mir_box f S) (b3_intersect (f_elem f) a b) (b3_intersect (f_elem f) a' b') /\ both (mir_box f S) (b3_expand (f_elem f) a d) (b3_expand (f_elem f) a' d).
Proof. intros f S a a' b b' p p' d H1 H2 H3 V1 V2 V3 Fd. repeat match goal with |- _ /\ _ => split end; [now apply box_union|now apply box_union_pt|now apply box_intersect|now apply box_expand]. Qed.
Lemma mirrored_measures : forall f S (a a' b b' : Bounds3 (flt f)) (p p' q q' : Point3 (flt f)), mir_box f S a a' -> mir_box f S b b' -> mir_pt f S p p' -> mir_pt f S q q' ->
  both (mir_box f S) (b3_new (f_elem f) p q) (b3_new (f_elem f) p' q') /\
  b3_overlaps (f_elem f) a b = b3_overlaps (f_elem f) a' b' /\ b3_inside (f_elem f) a p = b3_inside (f_elem f) a' p' /\
  both (vveq f) (b3_diagonal (f_elem f) a) (b3_diagonal (f_elem f) a') /\ both (veq f) (b3_volume (f_elem f) a) (b3_volume (f_elem f) a') /\
  both (veq f) (b3_surface_area (f_elem f) a) (b3_surface_area (f_elem f) a') /\ b3_maximum_extent (f_elem f) a = b3_maximum_extent (f_elem f) a' /\
  both (fun c c' => mir_pt f S (fst c) (fst c')) (bounding_sphere (f_float f) a) (bounding_sphere (f_float f) a').
Proof. intros f S a a' b b' p p' q q' H1 H2 H3 H4. destruct (box_measures f S a a' H1) as (A1 & A2 & A3).
  repeat match goal with |- _ /\ _ => split end; auto; [now apply box_new|now apply (box_overlaps f S)|now apply (box_inside f S)|now apply (box_diagonal f S)|now apply box_centre]. Qed.
Lemma mirrored_matrices : forall f S T U (a a' b b' c c' : Matrix4 (flt f)) (t t' : Transform (flt f)) (v v' d d' : Vector3 (flt f)),
  mir_mat f S T a a' -> mir_mat f T U b b' -> mir_mat f S T c c' -> mir_mat f S T (t_m t) (t_m t') -> mir_vec f T v v' -> mir_vec f S d d' ->
  both (mir_mat f S U) (m4_mul (f_elem f) a b) (m4_mul (f_elem f) a' b') /\ both (mir_mat f S T) (m4_add (f_elem f) a c) (m4_add (f_elem f) a' c') /\
  both (mir_vec f S) (v3_transform (f_float f) (fun x => x) v t) (v3_transform (f_float f) (fun x => x) v' t') /\
  t_has_scale (f_float f) t = t_has_scale (f_float f) t' /\
  both (fun x x' => mir_mat f S S (t_m x) (t_m x') /\ mir_mat f S S (t_inv x) (t_inv x')) (t_translate (f_float f) d) (t_translate (f_float f) d').
Proof. intros f S T U a a' b b' c c' t t' v v' d d' H1 H2 H3 H4 H5 H6. repeat match goal with |- _ /\ _ => split end;
  [now apply (mat_mul f S T U)|now apply mat_add|now apply (vec_transform f S T)|now apply (mat_has_scale f S T)|now apply mat_translate]. Qed.
