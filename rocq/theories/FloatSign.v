(** Proofs about C112: Matrix4::inverse in floats and the signs of the entries. *)
From Coq Require Import ZArith Reals Lia Lra Bool.
From Flocq Require Import Core.Core IEEE754.BinarySingleNaN.
From Verif Require Import Base Elem FloatInst GeoModel MatModel GeoSpec ArithSpec MatSpec OpsSpec SignSpec OrderProofs MatThms InvThms.
From Verif Require Import FloatCore FloatThms FloatInv FloatNan.
Local Open Scope mon_scope.
Local Open Scope R_scope.

Section Signs.
Context (f : fmt).
Notation E := (f_elem f).
Notation B := (flt f).
Notation one := (f_of_int f 1).
Notation zero := (f_of_int f 0).
Notation mat := (Matrix4 (flt f)).
Notation veq := (veq f).
Notation flip := (flip f).

(** ** Single operations *)
Lemma mult_comm_veq (a b : B) : veq (f_mult a b) (f_mult b a).
Proof.
  destruct (is_finite a) eqn:Fa; [destruct (is_finite b) eqn:Fb|].
  - destruct (mult_key f a b Fa Fb) as (N1 & K1 & _). destruct (mult_key f b a Fb Fa) as (N2 & K2 & _).
    apply key_veq; auto. now rewrite K1, K2, Rmult_comm.
  - destruct b as [t|t| |t m e H]; try discriminate; destruct a as [s|s| |s m e H]; try discriminate; try destruct s; try destruct t; apply veq_refl.
  - destruct a as [s|s| |s m e H]; try discriminate; destruct b as [t|t| |t m e H]; try apply veq_refl; destruct s; try destruct t; apply veq_refl.
Qed.
Lemma zeros_veq s t : veq (B754_zero s) (B754_zero t). Proof. destruct s, t; left; reflexivity. Qed.
Lemma mult_veq (a b c : B) : veq a b -> veq (f_mult a c) (f_mult b c).
Proof.
  intros H. destruct (veq_cases f a b H) as [-> |(Ha & Hb & Fa & Fb)]; [apply veq_refl|].
  apply zero_of in Ha as [s ->]; auto. apply zero_of in Hb as [s' ->]; auto.
  destruct c as [t|t| |t m e Hc]; try apply veq_refl; apply zeros_veq.
Qed.
Lemma mult_veq2 (a b c d : B) : veq a b -> veq c d -> veq (f_mult a c) (f_mult b d).
Proof.
  intros H1 H2. eapply veq_trans; [apply mult_veq, H1|]. eapply veq_trans; [apply mult_comm_veq|].
  eapply veq_trans; [apply mult_veq, H2|apply mult_comm_veq].
Qed.
Lemma mult_flip s t (x y : B) : veq (f_mult (flip s x) (flip t y)) (flip (xorb s t) (f_mult x y)).
Proof.
  assert (L : forall s x y, veq (f_mult (flip s x) y) (flip s (f_mult x y))).
  { intros [] a b; [apply mult_neg|apply veq_refl]. }
  eapply veq_trans; [apply L|]. assert (C : veq (f_mult x (flip t y)) (flip t (f_mult x y))).
  { eapply veq_trans; [apply mult_comm_veq|]. eapply veq_trans; [apply L|]. destruct t; [apply opp_veq|]; apply mult_comm_veq. }
  destruct s, t; cbn [SignSpec.flip xorb] in *; try exact C; try apply veq_refl.
  eapply veq_trans; [apply opp_veq, C|]. rewrite Bopp_involutive. apply veq_refl.
Qed.
Lemma sub_is (a b : B) : veq (f_sub a b) (f_add a (Bopp b)).
Proof. destruct b as [t|t| |t m e H]; try (rewrite sub_add by reflexivity; apply veq_refl). destruct a; apply veq_refl. Qed.
Lemma sub_veq2 (a b c d : B) : veq a b -> veq c d -> veq (f_sub a c) (f_sub b d).
Proof.
  intros H1 H2. eapply veq_trans; [apply sub_is|]. eapply veq_trans; [|apply veq_sym, sub_is]. apply add_veq2; [assumption|now apply opp_veq].
Qed.
Lemma sub_flip s (x y : B) : veq (f_sub (flip s x) (flip s y)) (flip s (f_sub x y)).
Proof.
  destruct s; [|apply veq_refl]. cbn [SignSpec.flip]. eapply veq_trans; [apply sub_is|]. eapply veq_trans; [apply add_neg|].
  apply opp_veq, veq_sym, sub_is.
Qed.
Lemma flip_veq s (x y : B) : veq x y -> veq (flip s x) (flip s y).
Proof. destruct s; [apply opp_veq|auto]. Qed.
Lemma flip_nan s (x : B) : is_nan (flip s x) = is_nan x. Proof. destruct s; [apply nan_opp|reflexivity]. Qed.
Lemma flip_fin s (x : B) : is_finite (flip s x) = is_finite x. Proof. destruct s; [apply is_finite_Bopp|reflexivity]. Qed.
Lemma veq_zero (x y : B) : veq x y -> Beqb x zero = Beqb y zero.
Proof.
  intros H. destruct (veq_cases f x y H) as [-> |(Ha & Hb & Fa & Fb)]; [reflexivity|].
  destruct (zero_of f x Fa Ha) as [s ->], (zero_of f y Fb Hb) as [t ->]. rewrite (zero_is f). destruct s, t; reflexivity.
Qed.
Lemma flip_zero s (x : B) : Beqb (flip s x) zero = Beqb x zero.
Proof. rewrite (zero_is f). destruct s, x as [[]|[]| |[] m e H]; reflexivity. Qed.
Lemma abs_same s (x y : B) : veq (flip s x) y -> Babs x = Babs y.
Proof.
  intros H. assert (X : Babs (flip s x) = Babs x) by (destruct s, x; reflexivity). rewrite <- X.
  destruct (veq_cases f _ _ H) as [-> |(Ha & Hb & Fa & Fb)]; [reflexivity|].
  destruct (zero_of f _ Fa Ha) as [a ->], (zero_of f _ Fb Hb) as [b ->]. reflexivity.
Qed.
Lemma recip_flip s (x y : B) : veq (flip s x) y -> Beqb x zero = false -> veq (flip s (f_div one x)) (f_div one y).
Proof.
  intros H Z. destruct (veq_cases f _ _ H) as [<- |(Ha & Hb & Fa & Fb)].
  2: { exfalso. rewrite <- (flip_zero s) in Z. destruct (zero_of f _ Fa Ha) as [a Q]. rewrite Q, (zero_is f) in Z. destruct a; discriminate. }
  destruct s; [|apply veq_refl]. cbn [SignSpec.flip]. destruct (one_val f) as [V1 F1]. destruct (is_finite x) eqn:Fx.
  - assert (Nx : B2R x <> 0).
    { intros Q. destruct (zero_of f _ Fx Q) as [a ->]. rewrite (zero_is f) in Z. destruct a; discriminate. }
    destruct (div_key f one x F1 Fx Nx) as (N1 & K1 & _). destruct (div_key f one (Bopp x)) as (N2 & K2 & _); rewrite ?is_finite_Bopp, ?B2R_Bopp; auto; try lra.
    apply key_veq; rewrite ?nan_opp; auto. rewrite key_opp, K1, K2, B2R_Bopp.
    replace (B2R one / - B2R x) with (- (B2R one / B2R x)) by (field; assumption). now rewrite rnd_opp, sat_opp.
  - destruct x as [s|s| |s m e Hx]; try discriminate.
    + destruct f, s; left; vm_compute; reflexivity.
    + destruct f; right; vm_compute; auto.
Qed.

(** ** One round *)
Definition alike (P Q : ix -> bool) (W W' : mat) : Prop := forall r c, veq (flip (xorb (P r) (Q c)) (mget W r c)) (mget W' r c).
Lemma choose_abs (W W' : mat) ip : (forall r c, Babs (mget W r c) = Babs (mget W' r c)) -> choose_pivot E (@Panic) W ip = choose_pivot E (@Panic) W' ip.
Proof.
  intros H. unfold choose_pivot, for4. cbn [e_abs f_elem obind]. now rewrite !H.
Qed.
Definition newP (P Q : ix -> bool) p q r := if ix_eqb r q then Q q else P (sw p q r).
Definition newQ (P Q : ix -> bool) p q c := if ix_eqb c q then P p else Q c.
Lemma round_alike P Q W W' p q V V' : alike P Q W W' -> round_ f W p q V -> round_ f W' p q V' -> alike (newP P Q p q) (newQ P Q p q) V V'.
Proof.
  intros H [R1 R2 R3] [R1' R2' R3'].
  assert (A : forall k, veq (flip (xorb (newP P Q p q q) (newQ P Q p q k)) (mget V q k)) (mget V' q k)).
  { intros k. rewrite R1, R1'. unfold newP, newQ. rewrite ix_eqb_refl. pose proof (recip_flip _ _ _ (H p q) R3) as D.
    destruct (ix_eqb k q) eqn:Ek.
    - apply ix_eqb_eq in Ek as ->. eapply veq_trans; [|apply mult_veq2; [apply (veq_refl f one)|exact D]].
      eapply veq_trans; [|apply veq_sym, (mult_flip false)]. replace (xorb (Q q) (P p)) with (xorb false (xorb (P p) (Q q))) by (destruct (P p), (Q q); reflexivity). apply veq_refl.
    - eapply veq_trans; [|apply mult_veq2; [exact (H p k)|exact D]]. eapply veq_trans; [|apply veq_sym, mult_flip].
      replace (xorb (xorb (P p) (Q k)) (xorb (P p) (Q q))) with (xorb (Q q) (Q k)) by (destruct (P p), (Q q), (Q k); reflexivity). apply veq_refl. }
  intros r c. destruct (ix_dec r q) as [->|N]; [apply A|]. rewrite (R2 _ _ N), (R2' _ _ N).
  pose proof N as N'. apply ix_eqb_neq in N'.
  assert (M : veq (flip (xorb (newP P Q p q r) (newQ P Q p q c)) (f_mult (mget V q c) (mget W (sw p q r) q))) (f_mult (mget V' q c) (mget W' (sw p q r) q))).
  { eapply veq_trans; [|apply mult_veq2; [apply A|apply (H (sw p q r) q)]]. eapply veq_trans; [|apply veq_sym, mult_flip].
    replace (xorb (xorb (newP P Q p q q) (newQ P Q p q c)) (xorb (P (sw p q r)) (Q q))) with (xorb (newP P Q p q r) (newQ P Q p q c)); [apply veq_refl|].
    unfold newP. rewrite ix_eqb_refl, N'. destruct (Q q), (newQ P Q p q c), (P (sw p q r)); reflexivity. }
  eapply veq_trans; [apply veq_sym, sub_flip|]. apply sub_veq2; [|exact M].
  destruct (ix_eqb c q) eqn:Ec.
  - eapply veq_trans; [|apply zeros_veq with (s := false) (t := false)]; rewrite ?(zero_is f). all: destruct (xorb (newP P Q p q r) (newQ P Q p q c)); apply zeros_veq.
  - unfold newP, newQ. rewrite N', Ec. apply H.
Qed.
Definition alike_s P Q (s s' : @inv_state B) : Prop :=
  alike P Q (is_minv s) (is_minv s') /\ is_ipiv s = is_ipiv s' /\ is_indxr s = is_indxr s' /\ is_indxc s = is_indxc s'.
Lemma step_alike P Q i s s' : alike_s P Q s s' ->
  match inverse_step E (@Panic) (@Panic) i s with
  | Done t => exists t' b p q, inverse_step E (@Panic) (@Panic) i s' = Done t' /\ alike_s (newP P Q p q) (newQ P Q p q) t t' /\
      choose_pivot E (@Panic) (is_minv s) (is_ipiv s) = Done (b, p, q) /\ round_ f (is_minv s) p q (is_minv t) /\
      is_ipiv t = vset (is_ipiv s) q (vget (is_ipiv s) q + 1)%N /\ is_indxr t = vset (is_indxr s) i p /\ is_indxc t = vset (is_indxc s) i q
  | o => inverse_step E (@Panic) (@Panic) i s' = o
  end.
Proof.
  intros (H & Hi & Hr & Hc).
  assert (Ch : choose_pivot E (@Panic) (is_minv s) (is_ipiv s) = choose_pivot E (@Panic) (is_minv s') (is_ipiv s')).
  { rewrite <- Hi. apply choose_abs. intros r c. exact (abs_same _ _ _ (H r c)). }
  destruct (inverse_step E (@Panic) (@Panic) i s) as [t| |] eqn:Es.
  - destruct (step_round f _ _ _ Es) as (b & p & q & Ec & R & Pp). 
    assert (T : is_indxr t = vset (is_indxr s) i p /\ is_indxc t = vset (is_indxc s) i q).
    { clear - Es Ec. unfold inverse_step in Es. rewrite Ec in Es. cbn [obind] in Es. rewrite swap_rows_thm in Es. cbn [obind] in Es.
      destruct (e_eq E _ _); [discriminate|]. rewrite scale_row_float in Es. cbn [obind] in Es. rewrite clear_column_float in Es. injection Es as <-. auto. }
    destruct (inverse_step E (@Panic) (@Panic) i s') as [t'| |] eqn:Es'.
    2,3: exfalso; clear Es; unfold inverse_step in Es'; rewrite <- Ch, Ec in Es'; cbn [obind] in Es'; rewrite swap_rows_thm in Es'; cbn [obind] in Es';
      rewrite mget_mkm, sw_r in Es'; change (e_eq E (mget (is_minv s') p q) (e_from_int E 0)) with (Beqb (mget (is_minv s') p q) zero) in Es';
      rewrite <- (veq_zero _ _ (H p q)), flip_zero, (ro_nz f _ _ _ _ R) in Es'; rewrite scale_row_float in Es'; cbn [obind] in Es';
      rewrite clear_column_float in Es'; discriminate.
    destruct (step_round f _ _ _ Es') as (b' & p' & q' & Ec' & R' & Pp'). rewrite <- Ch, Ec in Ec'. injection Ec' as <- <- <-.
    assert (T' : is_indxr t' = vset (is_indxr s') i p /\ is_indxc t' = vset (is_indxc s') i q).
    { clear - Es' Ch Ec. unfold inverse_step in Es'. rewrite <- Ch, Ec in Es'. cbn [obind] in Es'. rewrite swap_rows_thm in Es'. cbn [obind] in Es'.
      destruct (e_eq E _ _); [discriminate|]. rewrite scale_row_float in Es'. cbn [obind] in Es'. rewrite clear_column_float in Es'. injection Es' as <-. auto. }
    exists t', b, p, q. destruct T as [T1 T2], T' as [T1' T2']. split; [reflexivity|]. split; [|auto].
    split; [eapply round_alike; eassumption|]. rewrite Pp, Pp', T1, T2, T1', T2', Hi, Hr, Hc. auto.
  - unfold inverse_step in *. rewrite <- Ch. destruct (choose_pivot E (@Panic) (is_minv s) (is_ipiv s)) as [[[b p] q]| |]; [|reflexivity|discriminate].
    cbn [obind] in *. rewrite swap_rows_thm in *. cbn [obind] in *. rewrite mget_mkm, sw_r in *.
    change (e_eq E (mget (is_minv s') p q) (e_from_int E 0)) with (Beqb (mget (is_minv s') p q) zero).
    rewrite <- (veq_zero _ _ (H p q)), flip_zero.
    change (e_eq E (mget (is_minv s) p q) (e_from_int E 0)) with (Beqb (mget (is_minv s) p q) zero) in Es.
    destruct (Beqb (mget (is_minv s) p q) zero); [reflexivity|]. rewrite scale_row_float in Es. cbn [obind] in Es. rewrite clear_column_float in Es. discriminate.
  - unfold inverse_step in *. rewrite <- Ch. destruct (choose_pivot E (@Panic) (is_minv s) (is_ipiv s)) as [[[b p] q]| |]; [|discriminate|reflexivity].
    exfalso. cbn [obind] in *. rewrite swap_rows_thm in *. cbn [obind] in *.
    destruct (e_eq E _ _); [discriminate|]. rewrite scale_row_float in Es. cbn [obind] in Es. rewrite clear_column_float in Es. discriminate.
Qed.

(** ** Which sign belongs to which entry *)
Section Track.
Variables P0 Q0 : ix -> bool.
Definition track (P Q : ix -> bool) (ip : vec4 N) (pi : ix -> ix) : Prop := forall r,
  P r = (if (vget ip r =? 0)%N then P0 (pi r) else Q0 r) /\ Q r = (if (vget ip r =? 0)%N then Q0 r else P0 (pi r)).
Lemma track_step P Q ip pi p q : track P Q ip pi -> cand ip p q -> track (newP P Q p q) (newQ P Q p q) (vset ip q 1%N) (fun r => pi (sw p q r)).
Proof.
  intros T [Cp Cq] r. unfold newP, newQ. rewrite vget_vset. destruct (ix_eqb r q) eqn:Er.
  - apply ix_eqb_eq in Er as ->. destruct (T q) as [_ T1]. destruct (T p) as [T2 _]. rewrite Cq in T1. rewrite Cp in T2. cbn [N.eqb] in *.
    rewrite sw_r. auto.
  - apply ix_eqb_neq in Er. destruct (T r) as [_ T2]. destruct (T (sw p q r)) as [T3 _]. rewrite T2, T3.
    destruct (ix_dec r p) as [->|Np].
    + rewrite sw_l, Cp, Cq in *. cbn [N.eqb]. auto.
    + rewrite (sw_other p q r Np Er). auto.
Qed.
End Track.

Lemma inverse_alike (P Q : ix -> bool) (A A' : mat) : alike P Q A A' ->
  (m4_inverse E A = Panic <-> m4_inverse E A' = Panic) /\
  forall C, m4_inverse E A = Done C -> (forall r c, is_nan (mget C r c) = false) -> exists C', m4_inverse E A' = Done C' /\ alike Q P C C'.
Proof.
  intros H. unfold m4_inverse, inverse_with. unfold for4 at 1 2 3 4. set (s0 := IS A _ _ _). set (s0' := IS A' _ _ _).
  assert (H0 : alike_s P Q s0 s0') by (repeat split; exact H).
  pose proof (step_alike _ _ I0 _ _ H0) as T1.
  destruct (inverse_step E (@Panic) (@Panic) I0 s0) as [s1| |] eqn:E1; cbn [obind];
    [|rewrite T1; cbn [obind]; split; [tauto|discriminate]|rewrite T1; cbn [obind]; split; [tauto|discriminate]].
  destruct T1 as (s1' & b0 & p0 & q0 & E1' & H1 & Ec1 & R1 & I1' & X1 & Y1). rewrite E1'. cbn [obind].
  pose proof (step_alike _ _ I1 _ _ H1) as T2.
  destruct (inverse_step E (@Panic) (@Panic) I1 s1) as [s2| |] eqn:E2; cbn [obind];
    [|rewrite T2; cbn [obind]; split; [tauto|discriminate]|rewrite T2; cbn [obind]; split; [tauto|discriminate]].
  destruct T2 as (s2' & b1 & p1 & q1 & E2' & H2 & Ec2 & R2 & I2' & X2 & Y2). rewrite E2'. cbn [obind].
  pose proof (step_alike _ _ I2 _ _ H2) as T3.
  destruct (inverse_step E (@Panic) (@Panic) I2 s2) as [s3| |] eqn:E3; cbn [obind];
    [|rewrite T3; cbn [obind]; split; [tauto|discriminate]|rewrite T3; cbn [obind]; split; [tauto|discriminate]].
  destruct T3 as (s3' & b2 & p2 & q2 & E3' & H3 & Ec3 & R3 & I3' & X3 & Y3). rewrite E3'. cbn [obind].
  pose proof (step_alike _ _ I3 _ _ H3) as T4.
  destruct (inverse_step E (@Panic) (@Panic) I3 s3) as [s4| |] eqn:E4; cbn [obind];
    [|rewrite T4; cbn [obind]; split; [tauto|discriminate]|rewrite T4; cbn [obind]; split; [tauto|discriminate]].
  destruct T4 as (s4' & b3 & p3 & q3 & E4' & H4 & Ec4 & R4 & I4' & X4 & Y4). rewrite E4'. cbn [obind].
  assert (SC : forall s : @inv_state B, swap_columns s = Done (mkm (fun i k => mget (is_minv s) i
     (sw (vget (is_indxr s) I3) (vget (is_indxc s) I3) (sw (vget (is_indxr s) I2) (vget (is_indxc s) I2)
     (sw (vget (is_indxr s) I1) (vget (is_indxc s) I1) (sw (vget (is_indxr s) I0) (vget (is_indxc s) I0) k))))))).
  { intros s. unfold swap_columns, for4_rev. rewrite swap_cols_thm. cbn [obind]. rewrite swap_cols_thm. cbn [obind]. rewrite swap_cols_thm. cbn [obind].
    rewrite swap_cols_thm. f_equal. apply mkm_ext. intros r c. now rewrite !mget_mkm. }
  rewrite !SC. split; [split; discriminate|]. intros C [= <-] N. eexists. split; [reflexivity|].
  destruct H4 as (H4 & _ & Hr & Hc). rewrite <- Hr, <- Hc. rewrite X4, X3, X2, X1, Y4, Y3, Y2, Y1 in *.
  cbn [s0 is_indxr is_indxc vget vset MatModel.w0 MatModel.w1 MatModel.w2 MatModel.w3] in *.
  set (g := fun k => sw p3 q3 (sw p2 q2 (sw p1 q1 (sw p0 q0 k)))) in *.
  assert (N4 : forall r c, is_nan (mget (is_minv s4) r c) = false).
  { intros r c. specialize (N r (sw p0 q0 (sw p1 q1 (sw p2 q2 (sw p3 q3 c))))). rewrite mget_mkm in N. unfold g in N. now rewrite !sw_invol in N. }
  pose proof (round_nonan _ _ _ _ _ R4 N4) as N3. pose proof (round_nonan _ _ _ _ _ R3 N3) as N2.
  pose proof (round_nonan _ _ _ _ _ R2 N2) as N1. pose proof (round_nonan _ _ _ _ _ R1 N1) as N0.
  cbn [s0 is_minv is_ipiv] in *.
  assert (B0 : binary (vconst 0%N)) by (intros []; left; reflexivity).
  assert (Bs : forall ip c, binary ip -> binary (vset ip c 1%N)).
  { intros ip c Hb x. rewrite vget_vset. destruct (ix_eqb x c); [now right|apply Hb]. }
  assert (C0 := choose_fresh f _ _ _ _ _ N0 B0 (ex_intro _ I0 eq_refl) Ec1). rewrite (proj2 C0) in I1'.
  change (0 + 1)%N with 1%N in I1'. rewrite I1' in *. assert (B1 := Bs _ q0 B0).
  assert (C1 := choose_fresh f _ _ _ _ _ N1 B1 ltac:(destruct q0; [exists I1|exists I0|exists I0|exists I0]; reflexivity) Ec2).
  rewrite (proj2 C1) in I2'. change (0 + 1)%N with 1%N in I2'. rewrite I2' in *. assert (B2 := Bs _ q1 B1).
  assert (Z2 : exists c, vget (vset (vset (vconst 0%N) q0 1%N) q1 1%N) c = 0%N).
  { destruct C1 as [_ X]. destruct q0, q1; try discriminate X; ((now exists I0) || (now exists I1) || (now exists I2)). }
  assert (C2 := choose_fresh f _ _ _ _ _ N2 B2 Z2 Ec3).
  rewrite (proj2 C2) in I3'. change (0 + 1)%N with 1%N in I3'. rewrite I3' in *. assert (B3 := Bs _ q2 B2).
  assert (Z3 : exists c, vget (vset (vset (vset (vconst 0%N) q0 1%N) q1 1%N) q2 1%N) c = 0%N).
  { destruct C1 as [_ X]. destruct C2 as [_ X']. destruct q0, q1; try discriminate X; destruct q2; try discriminate X';
      ((now exists I0) || (now exists I1) || (now exists I2) || (now exists I3)). }
  assert (C3 := choose_fresh f _ _ _ _ _ N3 B3 Z3 Ec4).
  assert (K0 : track P Q P Q (vconst 0%N) (fun r => r)) by (intros r; rewrite vget_const; auto).
  pose proof (track_step _ _ _ _ _ _ _ _ K0 C0) as K1. pose proof (track_step _ _ _ _ _ _ _ _ K1 C1) as K2.
  pose proof (track_step _ _ _ _ _ _ _ _ K2 C2) as K3. pose proof (track_step _ _ _ _ _ _ _ _ K3 C3) as K4.
  intros r c. rewrite !mget_mkm. specialize (H4 r (g c)). destruct (K4 r) as [Kr _]. destruct (K4 (g c)) as [_ Kc].
  rewrite Kr, Kc in H4.
  pose proof (all_chosen q0 q1 q2 q3 r p1 p2 p3 C1 C2 C3) as O1. apply N.eqb_neq in O1. rewrite O1 in H4.
  pose proof (all_chosen q0 q1 q2 q3 (g c) p1 p2 p3 C1 C2 C3) as O2. apply N.eqb_neq in O2. rewrite O2 in H4.
  unfold g in H4 at 1. rewrite !sw_invol in H4. exact H4.
Qed.
End Signs.

Lemma negated f (A A' : Matrix4 (flt f)) : (forall r c, mget A' r c = Bopp (mget A r c)) ->
  (m4_inverse (f_elem f) A = Panic <-> m4_inverse (f_elem f) A' = Panic) /\
  forall B, m4_inverse (f_elem f) A = Done B -> (forall r c, is_nan (mget B r c) = false) ->
    exists B', m4_inverse (f_elem f) A' = Done B' /\ forall r c, veq f (mget B' r c) (Bopp (mget B r c)).
Proof.
  intros H. destruct (inverse_alike f (fun _ => true) (fun _ => false) A A') as [H1 H2].
  { intros r c. rewrite H. apply veq_refl. }
  split; [exact H1|]. intros B HB N. destruct (H2 B HB N) as (B' & E' & K). exists B'. split; [exact E'|]. intros r c. apply veq_sym, (K r c).
Qed.
Lemma equal_matrices f (A A' : Matrix4 (flt f)) : m4_eq (f_elem f) A A' = true ->
  (m4_inverse (f_elem f) A = Panic <-> m4_inverse (f_elem f) A' = Panic) /\
  forall B, m4_inverse (f_elem f) A = Done B -> (forall r c, is_nan (mget B r c) = false) ->
    exists B', m4_inverse (f_elem f) A' = Done B' /\ m4_eq (f_elem f) B B' = true.
Proof.
  intros H. pose proof (proj1 (m4_eq_iff _ A A') H) as H0. destruct (inverse_alike f (fun _ => false) (fun _ => false) A A') as [H1 H2].
  { intros r c. left. apply H0. }
  split; [exact H1|]. intros B HB N. destruct (H2 B HB N) as (B' & E' & K). exists B'. split; [exact E'|]. apply m4_eq_iff. intros r c.
  destruct (K r c) as [X|[X _]]; [exact X|]. cbn [xorb flip] in X. rewrite N in X. discriminate.
Qed.
(** With NaN the first index can be used as a pivot twice. *)
Definition nan_corner f (s : bool) : Matrix4 (flt f) :=
  let o := f_of_int f 0 in let i := f_of_int f 1 in
  W4 (W4 (flip f s i) (flip f s i) (flip f s o) (flip f s o)) (W4 o i o o) (W4 o o i o) (W4 o o o B754_nan).
Definition nan_inv f s : Matrix4 (flt f) := match m4_inverse (f_elem f) (nan_corner f s) with Done B => B | _ => nan_corner f s end.
Lemma with_nan f : exists (A A' B B' : Matrix4 (flt f)), (forall c, mget A' I0 c = Bopp (mget A I0 c)) /\ (forall r c, r <> I0 -> mget A' r c = mget A r c) /\
  m4_inverse (f_elem f) A = Done B /\ m4_inverse (f_elem f) A' = Done B' /\
  is_nan (mget B I0 I1) = false /\ Beqb (mget B' I0 I1) (mget B I0 I1) = false.
Proof.
  assert (D : forall s, m4_inverse (f_elem f) (nan_corner f s) = Done (nan_inv f s)).
  { intros s. assert (H : match m4_inverse (f_elem f) (nan_corner f s) with Done _ => true | _ => false end = true) by (destruct f, s; vm_compute; reflexivity).
    unfold nan_inv. destruct (m4_inverse (f_elem f) (nan_corner f s)); [reflexivity|discriminate|discriminate]. }
  exists (nan_corner f false), (nan_corner f true), (nan_inv f false), (nan_inv f true).
  split; [intros []; reflexivity|]. split; [intros [] [] H; try congruence; reflexivity|]. split; [apply D|]. split; [apply D|].
  destruct f; split; vm_compute; reflexivity.
Qed.
