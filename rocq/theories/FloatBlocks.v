(** Proofs about C115: blocks of a matrix that do not mix are not mixed by its inverse in floats. *)
From Coq Require Import ZArith Reals Lia Lra Bool.
From Flocq Require Import Core.Core IEEE754.BinarySingleNaN.
From Verif Require Import Base Elem FloatInst GeoModel MatModel GeoSpec ArithSpec MatSpec OpsSpec SignSpec OrderProofs MatThms InvThms.
From Verif Require Import FloatCore FloatThms FloatInv FloatNan FloatSign.
Local Open Scope mon_scope.
Local Open Scope R_scope.

Section Blocks.
Context (f : fmt) (K : ix -> nat).
Notation E := (f_elem f).
Notation B := (flt f).
Notation one := (f_of_int f 1).
Notation zero := (f_of_int f 0).
Notation mat := (Matrix4 (flt f)).
Notation veq := (veq f).
Notation zer := (zer f).

Definition blocky (W : mat) : Prop := forall r c, K r <> K c -> zer (mget W r c).
Lemma piv_same W p q V : round_ f W p q V -> blocky W -> K p = K q.
Proof.
  intros [_ _ Z] H. destruct (Nat.eq_dec (K p) (K q)) as [|N]; [assumption|]. exfalso. specialize (H _ _ N). apply zer_eq in H. congruence.
Qed.
Lemma K_sw p q r : K p = K q -> K (sw p q r) = K r.
Proof. intros H. unfold sw. destruct (ix_eqb r p) eqn:A; [apply ix_eqb_eq in A as ->; auto|]. destruct (ix_eqb r q) eqn:C; [apply ix_eqb_eq in C as ->; auto|reflexivity]. Qed.
Lemma round_blocky W p q V : round_ f W p q V -> nonan f V -> blocky W -> blocky V.
Proof.
  intros R N H. pose proof (piv_same _ _ _ _ R H) as Kpq. destruct R as [R1 R2 R3].
  assert (Rq : forall k, K q <> K k -> zer (mget V q k)).
  { intros k Nk. pose proof (N q k) as Y. rewrite R1 in *. assert (Q : ix_eqb k q = false) by (apply ix_eqb_neq; congruence). rewrite Q in *.
    apply zer_mult_nan; [apply H; congruence|exact Y]. }
  intros r k Nk. destruct (ix_dec r q) as [->|Nr]; [now apply Rq|]. pose proof (N r k) as Y. rewrite (R2 _ _ Nr) in *.
  pose proof (K_sw p q r Kpq) as Ks. pose proof (nonan_sub_r f _ _ Y) as Ym. apply zer_sub.
  - destruct (ix_eqb k q); [apply zer_zero|apply H; congruence].
  - destruct (Nat.eq_dec (K q) (K k)) as [Q|Q].
    + apply zer_mult_nan_r; [apply H; congruence|exact Ym].
    + apply zer_mult_nan; [now apply Rq|exact Ym].
Qed.

Lemma one_mult (x : B) : veq (f_mult one x) x.
Proof.
  destruct (is_finite x) eqn:Fx; [rewrite (mult_1_l f) by assumption; apply veq_refl|].
  destruct x as [|s| |]; try discriminate; [|right; split; [destruct f; reflexivity|reflexivity]]. destruct f, s; left; vm_compute; reflexivity.
Qed.
Lemma sub_zer_veq (x y : B) : zer y -> veq (f_sub x y) x.
Proof.
  intros [t ->]. destruct (is_nan x) eqn:N; [destruct x; try discriminate; apply veq_refl|].
  destruct x as [s|s| |s m e H]; try discriminate; destruct t; try apply veq_refl; destruct s; left; reflexivity.
Qed.

(** An index on its own. *)
Context (k : ix) (Hk : forall r, K r = K k -> r = k) (d : B).
Definition diag (W : mat) (ip : vec4 N) : Prop := if (vget ip k =? 0)%N then veq (mget W k k) d else veq (mget W k k) (f_div one d).
Lemma diag_step W ip p q V : round_ f W p q V -> nonan f V -> cand ip p q -> blocky W -> diag W ip -> diag V (vset ip q 1%N).
Proof.
  intros R N [Cp Cq] H D. pose proof (round_blocky _ _ _ _ R N H) as H'. pose proof (piv_same _ _ _ _ R H) as Kpq. destruct R as [R1 R2 R3].
  unfold diag in *. rewrite vget_vset. destruct (ix_eqb k q) eqn:Q.
  - apply ix_eqb_eq in Q. subst q. apply Hk in Kpq. subst p. rewrite Cq in D. cbn [N.eqb] in D |- *. rewrite R1, ix_eqb_refl.
    eapply veq_trans; [apply one_mult|]. apply (recip_flip f false _ _ D R3).
  - apply ix_eqb_neq in Q. assert (Np : k <> p) by (intros ->; apply Q; symmetry; apply Hk; congruence).
    assert (X : veq (mget V k k) (mget W k k)).
    { pose proof (N k k) as Y. rewrite (R2 _ _ Q) in *. rewrite (sw_other p q k Np Q) in *. apply ix_eqb_neq in Q. rewrite Q in *. apply ix_eqb_neq in Q.
      apply sub_zer_veq. apply zer_mult_nan; [|now apply nonan_sub_r in Y]. apply H'. intros Z. apply Q. symmetry. now apply Hk. }
    destruct (vget ip k =? 0)%N; eapply veq_trans; eauto.
Qed.
End Blocks.

Lemma same_step f i (s t : @inv_state (flt f)) : inverse_step (f_elem f) (@Panic) (@Panic) i s = Done t -> exists b p q,
  choose_pivot (f_elem f) (@Panic) (is_minv s) (is_ipiv s) = Done (b, p, q) /\ round_ f (is_minv s) p q (is_minv t) /\
  is_ipiv t = vset (is_ipiv s) q (vget (is_ipiv s) q + 1)%N /\ is_indxr t = vset (is_indxr s) i p /\ is_indxc t = vset (is_indxc s) i q.
Proof.
  intros H. pose proof (step_alike f (fun _ => false) (fun _ => false) i s s) as A. rewrite H in A. destruct A as (t' & b & p & q & _ & _ & A).
  - repeat split. intros r c. apply veq_refl.
  - exists b, p, q. exact A.
Qed.
(** The rounds, and where the columns go. *)
Lemma four_rounds_cols f (A B : Matrix4 (flt f)) : m4_inverse (f_elem f) A = Done B -> nonan f B ->
  exists W1 W2 W3 W4 p0 q0 p1 q1 p2 q2 p3 q3, (nonan f W1 /\ nonan f W2 /\ nonan f W3 /\ nonan f W4) /\
    (round_ f A p0 q0 W1 /\ round_ f W1 p1 q1 W2 /\ round_ f W2 p2 q2 W3 /\ round_ f W3 p3 q3 W4) /\
    (cand (vconst 0%N) p0 q0 /\ cand (vset (vconst 0%N) q0 1%N) p1 q1 /\ cand (vset (vset (vconst 0%N) q0 1%N) q1 1%N) p2 q2 /\
    cand (vset (vset (vset (vconst 0%N) q0 1%N) q1 1%N) q2 1%N) p3 q3) /\
    (exists b, choose_pivot (f_elem f) (@Panic) A (vconst 0%N) = Done (b, p0, q0)) /\ forall r c, mget B r c = mget W4 r (sw p3 q3 (sw p2 q2 (sw p1 q1 (sw p0 q0 c)))).
Proof.
  unfold m4_inverse, inverse_with. unfold for4 at 1. set (s0 := IS A _ _ _).
  destruct (inverse_step (f_elem f) (@Panic) (@Panic) I0 s0) as [s1| |] eqn:E1; cbn [obind]; try discriminate.
  destruct (inverse_step (f_elem f) (@Panic) (@Panic) I1 s1) as [s2| |] eqn:E2; cbn [obind]; try discriminate.
  destruct (inverse_step (f_elem f) (@Panic) (@Panic) I2 s2) as [s3| |] eqn:E3; cbn [obind]; try discriminate.
  destruct (inverse_step (f_elem f) (@Panic) (@Panic) I3 s3) as [s4| |] eqn:E4; cbn [obind]; try discriminate.
  assert (SC : forall s : @inv_state (flt f), swap_columns s = Done (mkm (fun i k => mget (is_minv s) i
     (sw (vget (is_indxr s) I3) (vget (is_indxc s) I3) (sw (vget (is_indxr s) I2) (vget (is_indxc s) I2)
     (sw (vget (is_indxr s) I1) (vget (is_indxc s) I1) (sw (vget (is_indxr s) I0) (vget (is_indxc s) I0) k))))))).
  { intros s. unfold swap_columns, for4_rev. rewrite swap_cols_thm. cbn [obind]. rewrite swap_cols_thm. cbn [obind]. rewrite swap_cols_thm. cbn [obind].
    rewrite swap_cols_thm. f_equal. apply mkm_ext. intros r c. now rewrite !mget_mkm. }
  destruct (same_step _ _ _ _ E1) as (b0 & p0 & q0 & Ec1 & R1 & P1 & X1 & Y1). destruct (same_step _ _ _ _ E2) as (b1 & p1 & q1 & Ec2 & R2 & P2 & X2 & Y2).
  destruct (same_step _ _ _ _ E3) as (b2 & p2 & q2 & Ec3 & R3 & P3 & X3 & Y3). destruct (same_step _ _ _ _ E4) as (b3 & p3 & q3 & Ec4 & R4 & P4 & X4 & Y4).
  rewrite SC. rewrite X4, X3, X2, X1, Y4, Y3, Y2, Y1. cbn [s0 is_indxr is_indxc vget vset MatModel.w0 MatModel.w1 MatModel.w2 MatModel.w3]. intros [= <-] N.
  assert (N4 : nonan f (is_minv s4)).
  { intros r c. specialize (N r (sw p0 q0 (sw p1 q1 (sw p2 q2 (sw p3 q3 c))))). rewrite mget_mkm in N. now rewrite !sw_invol in N. }
  pose proof (round_nonan f _ _ _ _ R4 N4) as N3. pose proof (round_nonan f _ _ _ _ R3 N3) as N2.
  pose proof (round_nonan f _ _ _ _ R2 N2) as N1. pose proof (round_nonan f _ _ _ _ R1 N1) as N0.
  cbn [s0 is_minv is_ipiv] in *.
  assert (B0 : binary (vconst 0%N)) by (intros []; left; reflexivity).
  assert (Bs : forall ip c, binary ip -> binary (vset ip c 1%N)).
  { intros ip c H x. rewrite vget_vset. destruct (ix_eqb x c); [now right|apply H]. }
  assert (C0 := choose_fresh f _ _ _ _ _ N0 B0 (ex_intro _ I0 eq_refl) Ec1). rewrite (proj2 C0) in P1.
  change (0 + 1)%N with 1%N in P1. rewrite P1 in *. assert (B1 := Bs _ q0 B0).
  assert (C1 := choose_fresh f _ _ _ _ _ N1 B1 ltac:(destruct q0; [exists I1|exists I0|exists I0|exists I0]; reflexivity) Ec2).
  rewrite (proj2 C1) in P2. change (0 + 1)%N with 1%N in P2. rewrite P2 in *. assert (B2 := Bs _ q1 B1).
  assert (Z2 : exists c, vget (vset (vset (vconst 0%N) q0 1%N) q1 1%N) c = 0%N).
  { destruct C1 as [_ C]. destruct q0, q1; try discriminate C; ((now exists I0) || (now exists I1) || (now exists I2)). }
  assert (C2 := choose_fresh f _ _ _ _ _ N2 B2 Z2 Ec3).
  rewrite (proj2 C2) in P3. change (0 + 1)%N with 1%N in P3. rewrite P3 in *. assert (B3 := Bs _ q2 B2).
  assert (Z3 : exists c, vget (vset (vset (vset (vconst 0%N) q0 1%N) q1 1%N) q2 1%N) c = 0%N).
  { destruct C1 as [_ C1]. destruct C2 as [_ C2]. destruct q0, q1; try discriminate C1; destruct q2; try discriminate C2;
      ((now exists I0) || (now exists I1) || (now exists I2) || (now exists I3)). }
  assert (C3 := choose_fresh f _ _ _ _ _ N3 B3 Z3 Ec4).
  exists (is_minv s1), (is_minv s2), (is_minv s3), (is_minv s4), p0, q0, p1, q1, p2, q2, p3, q3.
  repeat match goal with |- _ /\ _ => split end; auto; [now exists b0|]. intros r c. now rewrite mget_mkm.
Qed.

Lemma beq_zer f (x : flt f) : Beqb x (f_of_int f 0) = true -> zer f x.
Proof. rewrite (zero_is f). destruct x as [s|s| |s m e Hm]; intros Q; try discriminate Q; [now exists s| |]; destruct s; discriminate Q. Qed.
Lemma inverse_blocks f (K : ix -> nat) (A C : Matrix4 (flt f)) :
  (forall r c, K r <> K c -> Beqb (mget A r c) (f_of_int f 0) = true) ->
  m4_inverse (f_elem f) A = Done C -> (forall r c, is_nan (mget C r c) = false) ->
  (forall r c, K r <> K c -> Beqb (mget C r c) (f_of_int f 0) = true) /\
  (forall k, (forall r, K r = K k -> r = k) -> Beqb (mget C k k) (f_div (f_of_int f 1) (mget A k k)) = true).
Proof.
  intros H HC N. destruct (four_rounds_cols f A C HC N) as (W1 & W2 & W3 & W4 & p0 & q0 & p1 & q1 & p2 & q2 & p3 & q3 & (N1 & N2 & N3 & N4) & (R1 & R2 & R3 & R4) & (C0 & C1 & C2 & C3) & _ & G).
  assert (H0 : blocky f K A) by (intros r c Q; apply beq_zer; auto).
  pose proof (round_blocky f K _ _ _ _ R1 N1 H0) as H1. pose proof (round_blocky f K _ _ _ _ R2 N2 H1) as H2.
  pose proof (round_blocky f K _ _ _ _ R3 N3 H2) as H3. pose proof (round_blocky f K _ _ _ _ R4 N4 H3) as H4.
  pose proof (piv_same f K _ _ _ _ R1 H0) as S0. pose proof (piv_same f K _ _ _ _ R2 H1) as S1.
  pose proof (piv_same f K _ _ _ _ R3 H2) as S2. pose proof (piv_same f K _ _ _ _ R4 H3) as S3.
  assert (KG : forall c, K (sw p3 q3 (sw p2 q2 (sw p1 q1 (sw p0 q0 c)))) = K c) by (intros c; now rewrite !K_sw).
  split.
  - intros r c Q. rewrite G. apply zer_eq, H4. now rewrite KG.
  - intros k Hk. rewrite G. rewrite (Hk _ (KG k)).
    assert (D0 : diag f k (mget A k k) A (vconst 0%N)) by (unfold diag; rewrite vget_const; apply veq_refl).
    pose proof (diag_step f K k Hk _ _ _ _ _ _ R1 N1 C0 H0 D0) as D1. pose proof (diag_step f K k Hk _ _ _ _ _ _ R2 N2 C1 H1 D1) as D2.
    pose proof (diag_step f K k Hk _ _ _ _ _ _ R3 N3 C2 H2 D2) as D3. pose proof (diag_step f K k Hk _ _ _ _ _ _ R4 N4 C3 H3 D3) as D4.
    unfold diag in D4. pose proof (all_chosen q0 q1 q2 q3 k p1 p2 p3 C1 C2 C3) as O1. apply N.eqb_neq in O1. rewrite O1 in D4.
    destruct D4 as [D4|[D4 _]]; [exact D4|]. rewrite N4 in D4. discriminate.
Qed.

(** ** The last row of an affine matrix, when its last entry is the largest *)
Section Affine.
Context (f : fmt).
Notation E := (f_elem f).
Notation B := (flt f).
Notation one := (f_of_int f 1).
Notation zero := (f_of_int f 0).
Notation mat := (Matrix4 (flt f)).
Notation veq := (veq f).
Notation zer := (zer f).

Lemma for4_inv {A} (P : A -> Prop) (body : ix -> A -> out A) s : (forall j s, P s -> exists s', body j s = Done s' /\ P s') -> P s -> exists s', for4 s body = Done s' /\ P s'.
Proof.
  intros H H0. unfold for4. destruct (H I0 _ H0) as (s1 & -> & H1). cbn [obind]. destruct (H I1 _ H1) as (s2 & -> & H2). cbn [obind].
  destruct (H I2 _ H2) as (s3 & -> & H3). cbn [obind]. exact (H I3 _ H3).
Qed.
Lemma last_largest (W : mat) : (forall r c, Bleb (Babs (mget W r c)) (Babs (mget W I3 I3)) = true) ->
  exists b, choose_pivot E (@Panic) W (vconst 0%N) = Done (b, I3, I3).
Proof.
  intros H. set (P := fun s : B * ix * ix => Bleb (fst (fst s)) (Babs (mget W I3 I3)) = true).
  assert (Nn : is_nan (mget W I3 I3) = false) by (specialize (H I3 I3); destruct (mget W I3 I3); try reflexivity; discriminate H).
  assert (S : forall j k s, P s -> exists s', inner E (@Panic) W (vconst 0%N) j k s = Done s' /\ P s').
  { intros j k [[b p] q] Hs. unfold inner. rewrite vget_const. cbn [N.eqb e_abs f_elem obind e_le].
    destruct (Bleb b (Babs (mget W j k))); eexists; (split; [reflexivity|]); [apply H|exact Hs]. }
  assert (L : forall s, P s -> exists b, inner E (@Panic) W (vconst 0%N) I3 I3 s = Done (b, I3, I3)).
  { intros [[b p] q] Hs. unfold inner. rewrite vget_const. cbn [N.eqb e_abs f_elem obind e_le]. unfold P in Hs. cbn [fst] in Hs. rewrite Hs. eexists. reflexivity. }
  assert (R : forall j s, P s -> exists s', for4 s (fun k s => inner E (@Panic) W (vconst 0%N) j k s) = Done s' /\ P s') by (intros j s; apply for4_inv; auto).
  assert (Z : P (zero, I0, I0)) by (apply (zero_le f), Nn).
  unfold choose_pivot. change (e_from_int E 0) with zero. unfold for4 at 1. rewrite !vget_const. cbn [N.eqb negb].
  change (exists b, (s <~ for4 (zero, I0, I0) (fun k s => inner E (@Panic) W (vconst 0%N) I0 k s) ;; s <~ for4 s (fun k s => inner E (@Panic) W (vconst 0%N) I1 k s) ;;
    s <~ for4 s (fun k s => inner E (@Panic) W (vconst 0%N) I2 k s) ;; for4 s (fun k s => inner E (@Panic) W (vconst 0%N) I3 k s)) = Done (b, I3, I3)).
  destruct (R I0 _ Z) as (s0 & -> & H0). cbn [obind]. destruct (R I1 _ H0) as (s1 & -> & H1). cbn [obind]. destruct (R I2 _ H1) as (s2 & -> & H2). cbn [obind].
  unfold for4. destruct (S I3 I0 _ H2) as (s3 & -> & H3). cbn [obind]. destruct (S I3 I1 _ H3) as (s4 & -> & H4). cbn [obind].
  destruct (S I3 I2 _ H4) as (s5 & -> & H5). cbn [obind]. exact (L _ H5).
Qed.
Definition last_row (d : B) (W : mat) : Prop := (forall c, c <> I3 -> zer (mget W I3 c)) /\ veq (mget W I3 I3) d.
Lemma last_first d W V : round_ f W I3 I3 V -> nonan f V -> last_row d W -> last_row (f_div one d) V.
Proof.
  intros [R1 R2 R3] N [H D]. split.
  - intros c Q. pose proof (N I3 c) as Y. rewrite R1 in *. apply ix_eqb_neq in Q. rewrite Q in *. apply ix_eqb_neq in Q. apply zer_mult_nan; auto.
  - rewrite R1, ix_eqb_refl. refine (veq_trans f _ _ _ (one_mult f _) _). apply (recip_flip f false _ _ D R3).
Qed.
Lemma last_keep d W p q V : round_ f W p q V -> nonan f V -> p <> I3 -> q <> I3 -> last_row d W -> last_row d V.
Proof.
  intros [R1 R2 R3] N Np Nq [H D].
  assert (G : forall k, mget V I3 k = f_sub (if ix_eqb k q then zero else mget W I3 k) (f_mult (mget V q k) (mget W I3 q))).
  { intros k. rewrite R2 by congruence. now rewrite (sw_other p q I3) by congruence. }
  assert (Z : forall k, zer (f_mult (mget V q k) (mget W I3 q))).
  { intros k. pose proof (N I3 k) as Y. rewrite G in Y. apply zer_mult_nan_r; [auto|now apply nonan_sub_r in Y]. }
  split.
  - intros c Q. rewrite G. apply zer_sub; [|apply Z]. destruct (ix_eqb c q); [apply zer_zero|auto].
  - rewrite G. assert (X : ix_eqb I3 q = false) by (apply ix_eqb_neq; congruence). rewrite X. eapply veq_trans; [apply sub_zer_veq, Z|exact D].
Qed.
Lemma affine_inverse (A C : mat) : (forall c, c <> I3 -> Beqb (mget A I3 c) zero = true) ->
  (forall r c, Bleb (Babs (mget A r c)) (Babs (mget A I3 I3)) = true) ->
  m4_inverse E A = Done C -> (forall r c, is_nan (mget C r c) = false) ->
  (forall c, c <> I3 -> Beqb (mget C I3 c) zero = true) /\ Beqb (mget C I3 I3) (f_div one (mget A I3 I3)) = true.
Proof.
  intros H L HC N. destruct (four_rounds_cols f A C HC N) as (W1 & W2 & W3 & W4 & p0 & q0 & p1 & q1 & p2 & q2 & p3 & q3 & (N1 & N2 & N3 & N4) & (R1 & R2 & R3 & R4) & (C0 & C1 & C2 & C3) & Ec & G).
  destruct (last_largest A L) as [b' Eb]. destruct Ec as [b Ec]. rewrite Eb in Ec. injection Ec as _ <- <-.
  assert (D0 : last_row (mget A I3 I3) A) by (split; [intros c Q; now apply beq_zer, H|apply veq_refl]).
  assert (O2 : forall ip q', vget ip I3 = 1%N -> q' <> I3 -> vget (vset ip q' 1%N) I3 = 1%N).
  { intros ip q' X Y. rewrite vget_vset. assert (Q : ix_eqb I3 q' = false) by (apply ix_eqb_neq; congruence). now rewrite Q. }
  assert (O3 : forall ip p q, vget ip I3 = 1%N -> cand ip p q -> p <> I3 /\ q <> I3).
  { intros ip p q Z [X Y]. split; intros ->; congruence. }
  assert (V0 : vget (vset (vconst 0%N) I3 1%N) I3 = 1%N) by reflexivity.
  destruct (O3 _ _ _ V0 C1) as [P1 Q1]. pose proof (O2 _ q1 V0 Q1) as V1. destruct (O3 _ _ _ V1 C2) as [P2 Q2].
  pose proof (O2 _ q2 V1 Q2) as V2. destruct (O3 _ _ _ V2 C3) as [P3 Q3].
  pose proof (last_first _ _ _ R1 N1 D0) as D1. pose proof (last_keep _ _ _ _ _ R2 N2 P1 Q1 D1) as D2.
  pose proof (last_keep _ _ _ _ _ R3 N3 P2 Q2 D2) as D3. pose proof (last_keep _ _ _ _ _ R4 N4 P3 Q3 D3) as [D4 D5].
  assert (S0 : forall c, sw I3 I3 c = c) by (intros []; reflexivity).
  assert (S3 : sw p3 q3 (sw p2 q2 (sw p1 q1 (sw I3 I3 I3))) = I3) by (rewrite S0, (sw_other p1 q1 I3), (sw_other p2 q2 I3), (sw_other p3 q3 I3) by auto; reflexivity).
  split.
  - intros c Q. rewrite G. apply zer_eq, D4. intros X. apply Q. rewrite S0 in X. rewrite S0 in S3. pose proof (eq_trans X (eq_sym S3)) as Y.
    apply (f_equal (fun c => sw p1 q1 (sw p2 q2 (sw p3 q3 c)))) in Y. now rewrite !sw_invol in Y.
  - rewrite G, S3. destruct D5 as [D5|[D5 _]]; [exact D5|]. rewrite N4 in D5. discriminate.
Qed.
End Affine.

(** ** Cases *)
Definition blk3 (r : ix) : nat := match r with I0 | I1 => 0 | I2 => 1 | I3 => 2 end.
Definition in_blocks : Matrix4 (flt F32) :=
  W4 (W4 (f32 2) (f32 3) (f32 0) (f32 0)) (W4 (f32 5) (f32 7) (f32 0) (f32 0)) (W4 (f32 0) (f32 0) (f32 9) (f32 0)) (W4 (f32 0) (f32 0) (f32 0) (f32 1)).
Definition near : Matrix4 (flt F32) :=
  W4 (W4 (f32 2) (f32 3) (f32 0) (f32 8)) (W4 (f32 5) (f32 7) (f32 0) (f32 (-3))) (W4 (f32 1) (f32 0) (f32 9) (f32 0)) (W4 (f32 0) (f32 0) (f32 0) (f32 11)).
Definition far : Matrix4 (flt F32) :=
  W4 (W4 (f32 1) (f32 0) (f32 0) (f32 13)) (W4 (f32 0) (f32 1) (f32 0) (f32 0)) (W4 (f32 0) (f32 0) (f32 1) (f32 0)) (W4 (f32 0) (f32 0) (f32 0) (f32 1)).
Definition no_nans (m : Matrix4 (flt F32)) : bool :=
  let g r c := negb (is_nan (mget m r c)) in let h r := g r I0 && g r I1 && g r I2 && g r I3 in h I0 && h I1 && h I2 && h I3.
Lemma no_nans_ok m : no_nans m = true -> forall r c, is_nan (mget m r c) = false.
Proof. unfold no_nans. intros H r c. rewrite !andb_true_iff, !negb_true_iff in H. destruct r, c; tauto. Qed.
Lemma blocks_case : (forall r c, blk3 r <> blk3 c -> Beqb (mget in_blocks r c) (f32 0) = true) /\
  (exists C, m4_inverse (f_elem F32) in_blocks = Done C /\ (forall r c, is_nan (mget C r c) = false)) /\
  (forall r, blk3 r = blk3 I2 -> r = I2) /\ (forall r, blk3 r = blk3 I3 -> r = I3).
Proof.
  split; [|split; [|split]].
  - intros r c H. destruct r, c; try (exfalso; now apply H); vm_compute; reflexivity.
  - assert (H : match m4_inverse (f_elem F32) in_blocks with Done C => no_nans C | _ => false end = true) by (vm_compute; reflexivity).
    destruct (m4_inverse (f_elem F32) in_blocks) as [C| |]; try discriminate. exists C. split; [reflexivity|now apply no_nans_ok].
  - intros []; (discriminate || reflexivity).
  - intros []; (discriminate || reflexivity).
Qed.
Lemma affine_case : (forall c, c <> I3 -> Beqb (mget near I3 c) (f32 0) = true) /\
  (forall r c, Bleb (Babs (mget near r c)) (Babs (mget near I3 I3)) = true) /\
  (exists C, m4_inverse (f_elem F32) near = Done C /\ (forall r c, is_nan (mget C r c) = false)).
Proof.
  split; [|split].
  - intros c H. destruct c; try (exfalso; now apply H); vm_compute; reflexivity.
  - intros r c. destruct r, c; vm_compute; reflexivity.
  - assert (H : match m4_inverse (f_elem F32) near with Done C => no_nans C | _ => false end = true) by (vm_compute; reflexivity).
    destruct (m4_inverse (f_elem F32) near) as [C| |]; try discriminate. exists C. split; [reflexivity|now apply no_nans_ok].
Qed.
Lemma affine_far_case : exists A C : Matrix4 (flt F32), (forall c, c <> I3 -> Beqb (mget A I3 c) (f32 0) = true) /\ Beqb (mget A I3 I3) (f32 1) = true /\
  m4_inverse (f_elem F32) A = Done C /\ (forall r c, is_nan (mget C r c) = false) /\ Beqb (mget C I3 I0) (f32 0) = false /\ Beqb (mget C I3 I3) (f32 1) = false.
Proof.
  assert (Z : forall c, c <> I3 -> Beqb (mget far I3 c) (f32 0) = true) by (intros c Hc; destruct c; try (exfalso; now apply Hc); vm_compute; reflexivity).
  assert (H : match m4_inverse (f_elem F32) far with Done C => no_nans C && negb (Beqb (mget C I3 I0) (f32 0)) && negb (Beqb (mget C I3 I3) (f32 1)) | _ => false end = true) by (vm_compute; reflexivity).
  destruct (m4_inverse (f_elem F32) far) as [C| |] eqn:E; [|discriminate H|discriminate H]. rewrite !andb_true_iff, !negb_true_iff in H. destruct H as [[H1 H2] H3].
  exists far, C. split; [exact Z|]. split; [vm_compute; reflexivity|]. split; [exact E|].
  split; [exact (no_nans_ok C H1)|]. split; assumption.
Qed.
