(** Exact inverses over the reals and the rationals, and transforms. *)
From Coq Require Import ZArith Lia Lra Reals QArith Qcanon Qcabs Field.
From Flocq Require Import Core.Raux.
From Verif Require Import Base Elem GeoModel MatModel MatSpec ArithSpec MatThms InvThms ExactInst ExactThms.

(** ** The two exact fields *)
Lemma Rle_bool_iff a b : Rle_bool a b = true <-> (a <= b)%R.
Proof. split; [intros H; destruct (Rle_bool_spec a b); congruence | apply Rle_bool_true]. Qed.
Definition r_exact : exact_field r_elem.
Proof.
  refine (EF _ r_elem 0%R 1%R Rplus Rmult Rminus Ropp Rdiv Rinv Rabs Rfield eq_refl eq_refl (fun _ _ => eq_refl) (fun _ _ => eq_refl)
    (fun _ _ => eq_refl) _ (fun _ => eq_refl) Req_bool_iff _ _ _ _ Rabs_R0); cbn [e_div e_le r_elem].
  - intros a b H. now rewrite Req_bool_false.
  - intros a b c. rewrite !Rle_bool_iff. lra.
  - intros a b. rewrite !Rle_bool_iff. lra.
  - intros a. rewrite Rle_bool_iff. apply Rabs_pos.
  - intros a. rewrite Rle_bool_iff. intros H. pose proof (Rabs_pos a). apply Rabs_eq_R0. lra.
Defined.
Lemma qc_le_iff a b : qc_le a b = true <-> (a <= b)%Qc.
Proof. apply Qle_bool_iff. Qed.
Lemma Qc_eq_iff a b : Qc_eq_bool a b = true <-> a = b.
Proof.
  split; [apply Qc_eq_bool_correct|]. intros ->. unfold Qc_eq_bool. destruct (Qc_eq_dec b b); congruence.
Qed.
Definition qabs (a : Qc) : Qc := if qc_le (Q2Qc 0) a then a else (- a)%Qc.
Definition q_exact : exact_field q_elem.
Proof.
  refine (EF _ q_elem (Q2Qc 0) (Q2Qc 1) Qcplus Qcmult Qcminus Qcopp Qcdiv Qcinv qabs Qcft eq_refl eq_refl (fun _ _ => eq_refl) (fun _ _ => eq_refl)
    (fun _ _ => eq_refl) _ (fun _ => eq_refl) Qc_eq_iff _ _ _ _ eq_refl); cbn [e_div e_le q_elem].
  - intros a b H. destruct (Qc_eq_bool b (Q2Qc 0)) eqn:Q; auto. apply Qc_eq_iff in Q. contradiction.
  - intros a b c. rewrite !qc_le_iff. apply Qcle_trans.
  - intros a b. rewrite !qc_le_iff. destruct (Qclt_le_dec a b); auto using Qclt_le_weak.
  - intros a. rewrite qc_le_iff. unfold qabs. destruct (qc_le (Q2Qc 0) a) eqn:Q; [now apply qc_le_iff|].
    destruct (Qclt_le_dec a (Q2Qc 0)) as [H|H]; [|apply qc_le_iff in H; congruence].
    apply Qclt_le_weak in H. apply Qcopp_le_compat in H. exact H.
  - intros a. rewrite qc_le_iff. unfold qabs. destruct (qc_le (Q2Qc 0) a) eqn:Q; intros H.
    + apply qc_le_iff in Q. now apply Qcle_antisym.
    + exfalso. apply Qcopp_le_compat in H. rewrite Qcopp_involutive in H. change (- Q2Qc 0)%Qc with (Q2Qc 0) in H. apply qc_le_iff in H. congruence.
Defined.

Lemma inverse_R A : 
  (detR A = 0%R /\ m4_inverse r_elem A = Panic /\ ~ exists B, prodR A B = identR /\ prodR B A = identR) \/
  (detR A <> 0%R /\ exists B, m4_inverse r_elem A = Done B /\ prodR A B = identR /\ prodR B A = identR).
Proof.
  destruct (inverse_cases r_elem r_exact A) as [[K P]|(B & S & D)].
  - left. split; [exact (det_kernel r_elem r_exact A K)|]. split; [apply P|]. intros (B & _ & H).
    exact (kernel_no_inverse r_elem r_exact A K B H).
  - right. split.
    + intros H. pose proof (proj2 (singular_iff r_elem r_exact A) H (@Panic)) as X. rewrite D in X. discriminate.
    + exists B. split; [apply D|]. exact (solves_inverse r_elem r_exact A B S).
Qed.
Lemma inverse_Q A : 
  (detQ A = Q2Qc 0 /\ m4_inverse q_elem A = Panic /\ ~ exists B, prodQ A B = identQ /\ prodQ B A = identQ) \/
  (detQ A <> Q2Qc 0 /\ exists B, m4_inverse q_elem A = Done B /\ prodQ A B = identQ /\ prodQ B A = identQ).
Proof.
  destruct (inverse_cases q_elem q_exact A) as [[K P]|(B & S & D)].
  - left. split; [exact (det_kernel q_elem q_exact A K)|]. split; [apply P|]. intros (B & _ & H).
    exact (kernel_no_inverse q_elem q_exact A K B H).
  - right. split.
    + intros H. pose proof (proj2 (singular_iff q_elem q_exact A) H (@Panic)) as X. rewrite D in X. discriminate.
    + exists B. split; [apply D|]. exact (solves_inverse q_elem q_exact A B S).
Qed.
Lemma first_panic_R A fp : inverse_with r_elem fp (@Panic) A = m4_inverse r_elem A.
Proof. unfold m4_inverse. destruct (inverse_cases r_elem r_exact A) as [[_ P]|(B & _ & D)]; [now rewrite !P|now rewrite !D]. Qed.
Lemma first_panic_Q A fp : inverse_with q_elem fp (@Panic) A = m4_inverse q_elem A.
Proof. unfold m4_inverse. destruct (inverse_cases q_elem q_exact A) as [[_ P]|(B & _ & D)]; [now rewrite !P|now rewrite !D]. Qed.
(** The inverse is unique, so it is involutive and reverses products. *)
Lemma inverse_unique A B C : prodR A B = identR -> prodR C A = identR -> B = C.
Proof.
  intros H1 H2. rewrite <- (prod_id_l 0%R 1%R _ _ _ _ RTheory B). fold identR. rewrite <- H2.
  unfold prodR. rewrite (prod_assoc 0%R 1%R _ _ _ _ RTheory). fold (prodR A B). rewrite H1.
  apply (prod_id_r 0%R 1%R _ _ _ _ RTheory).
Qed.

(** ** Transforms *)
Lemma prodR_transpose a b : m4_transpose (prodR a b) = prodR (m4_transpose b) (m4_transpose a).
Proof. apply (prod_transpose 0%R 1%R _ _ _ _ RTheory). Qed.
Lemma identR_transpose : m4_transpose identR = identR. Proof. apply ident_transpose. Qed.
Lemma mutual_inverse t : mutual t -> mutual (t_inverse t). Proof. intros [H1 H2]. split; auto. Qed.
Lemma mutual_transpose t : mutual t -> mutual (t_transpose t).
Proof.
  intros [H1 H2]. unfold mutual, t_transpose. cbn [t_m t_inv]. now rewrite <- !prodR_transpose, H1, H2, identR_transpose.
Qed.
Lemma new_thm m : (detR m <> 0%R -> exists t, t_new_ r_float m = Done t /\ t_m t = m /\ mutual t) /\
  (detR m = 0%R -> t_new_ r_float m = Panic).
Proof.
  unfold t_new_. destruct (inverse_R m) as [(D & P & _)|(D & B & I & H)]; split; intros K; try contradiction.
  - cbn [fl_elem r_float]. now rewrite P.
  - cbn [fl_elem r_float]. rewrite I. exists (mkT m B). repeat split; apply H.
Qed.
Ltac mat_eq := apply mat_ext; intros [] []; unfold prodR, prod_of, identR, ident_of, sum4; rewrite ?mget_mkm; cbn [mget vget w0 w1 w2 w3 ix_eqb].
Lemma translate_mutual d : exists t, t_translate r_float d = Done t /\ mutual t.
Proof. eexists. split; [reflexivity|]. split; cbn [t_m t_inv]; mat_eq; cbn [e_from_int r_float r_elem fl_elem]; ring. Qed.
Lemma translate_inverse T (FT : FloatT T) d nd t : (forall x y, e_neg FT x = Done y -> e_neg FT y = Done x) ->
  v3_neg FT d = Done nd -> t_translate FT d = Done t -> t_translate FT nd = Done (t_inverse t).
Proof.
  intros N. unfold v3_neg, mk3, t_translate.
  destruct (e_neg FT (vx d)) as [x| |] eqn:Qx; cbn [obind]; try discriminate.
  destruct (e_neg FT (vy d)) as [y| |] eqn:Qy; cbn [obind]; try discriminate.
  destruct (e_neg FT (vz d)) as [z| |] eqn:Qz; cbn [obind]; try discriminate.
  intros [= <-] [= <-]. cbn [vx vy vz]. rewrite (N _ _ Qx), (N _ _ Qy), (N _ _ Qz). reflexivity.
Qed.
Lemma scale_r x y z : x <> 0%R -> y <> 0%R -> z <> 0%R -> exists t, t_scale r_float x y z = Done t /\
  prodR (t_m t) (t_inv t) = mset identR I3 I2 z /\ prodR (t_inv t) (t_m t) = mset identR I3 I2 (z * z)%R.
Proof.
  intros Hx Hy Hz. unfold t_scale. cbn [fl_elem r_float e_from_int r_elem e_div]. rewrite !Req_bool_false by auto. cbn [obind].
  eexists. split; [reflexivity|]. cbn [t_m t_inv].
  split; apply mat_ext; intros [] []; unfold prodR, prod_of, identR, ident_of, sum4; rewrite ?mget_mkm;
    cbn [mget vget mset vset mkm mk4 w0 w1 w2 w3 ix_eqb]; field; auto.
Qed.
Lemma mset_ident_neq z : z <> 0%R -> mset identR I3 I2 z <> identR.
Proof. intros H K. apply H. apply (f_equal (fun m => mget m I3 I2)) in K. exact K. Qed.
