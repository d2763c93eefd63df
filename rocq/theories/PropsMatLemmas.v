(** Lemmas in the exact form of the theorems of PropsMat.v and PropsGeo.v. *)
From Coq Require Import ZArith Reals QArith Qcanon Lia Lra.
From Flocq Require Import IEEE754.BinarySingleNaN.
From Verif Require Import Base Elem GeoModel MatModel MatSpec FloatInst ExactInst GeoSpec ArithSpec IterSpec.
From Verif Require Import OrderProofs BoxThms ExactThms IntThms MatThms InvThms TransThms FloatCore FloatThms IterThms.
Local Open Scope mon_scope.

(** ** Matrix laws *)
Section Laws.
  Context {A : Type} (zero one : A) (add mul sub : A -> A -> A) (opp : A -> A) (RT : Ring_theory.ring_theory zero one add mul sub opp eq).
  Context (E : Elem A).
  Hypothesis HM : forall a b, m4_mul E a b = Done (prod_of add mul a b).
  Hypothesis HA : forall a b, m4_add E a b = Done (sum_of add a b).
  Lemma laws a b c :
    (p <~ m4_mul E a b ;; m4_mul E p c) = (p <~ m4_mul E b c ;; m4_mul E a p) /\
    (s <~ m4_add E b c ;; m4_mul E a s) = (p <~ m4_mul E a b ;; q <~ m4_mul E a c ;; m4_add E p q) /\
    (s <~ m4_add E a b ;; m4_mul E s c) = (p <~ m4_mul E a c ;; q <~ m4_mul E b c ;; m4_add E p q) /\
    m4_mul E (ident_of zero one) a = Done a /\ m4_mul E a (ident_of zero one) = Done a.
  Proof.
    repeat (rewrite ?HM, ?HA; cbn [obind]).
    rewrite (prod_assoc zero one _ _ _ _ RT), (prod_sum_l zero one _ _ _ _ RT), (prod_sum_r zero one _ _ _ _ RT),
      (prod_id_l zero one _ _ _ _ RT), (prod_id_r zero one _ _ _ _ RT). auto.
  Qed.
End Laws.
Lemma lawsR a b c :
  (p <~ m4_mul r_elem a b ;; m4_mul r_elem p c) = (p <~ m4_mul r_elem b c ;; m4_mul r_elem a p) /\
  (s <~ m4_add r_elem b c ;; m4_mul r_elem a s) = (p <~ m4_mul r_elem a b ;; q <~ m4_mul r_elem a c ;; m4_add r_elem p q) /\
  (s <~ m4_add r_elem a b ;; m4_mul r_elem s c) = (p <~ m4_mul r_elem a c ;; q <~ m4_mul r_elem b c ;; m4_add r_elem p q) /\
  m4_mul r_elem identR a = Done a /\ m4_mul r_elem a identR = Done a.
Proof. exact (laws 0%R 1%R _ _ _ _ RTheory r_elem mulR addR a b c). Qed.
Lemma lawsQ a b c :
  (p <~ m4_mul q_elem a b ;; m4_mul q_elem p c) = (p <~ m4_mul q_elem b c ;; m4_mul q_elem a p) /\
  (s <~ m4_add q_elem b c ;; m4_mul q_elem a s) = (p <~ m4_mul q_elem a b ;; q <~ m4_mul q_elem a c ;; m4_add q_elem p q) /\
  (s <~ m4_add q_elem a b ;; m4_mul q_elem s c) = (p <~ m4_mul q_elem a c ;; q <~ m4_mul q_elem b c ;; m4_add q_elem p q) /\
  m4_mul q_elem identQ a = Done a /\ m4_mul q_elem a identQ = Done a.
Proof. exact (laws (Q2Qc 0) (Q2Qc 1) _ _ _ _ Qcrt q_elem mulQ addQ a b c). Qed.
Lemma lawsZ a b c : mat_range a -> mat_range b -> mat_range c ->
  (p <~ m4_mul (i64 false) a b ;; m4_mul (i64 false) p c) = (p <~ m4_mul (i64 false) b c ;; m4_mul (i64 false) a p) /\
  (s <~ m4_add (i64 false) b c ;; m4_mul (i64 false) a s) =
    (p <~ m4_mul (i64 false) a b ;; q <~ m4_mul (i64 false) a c ;; m4_add (i64 false) p q) /\
  (s <~ m4_add (i64 false) a b ;; m4_mul (i64 false) s c) =
    (p <~ m4_mul (i64 false) a c ;; q <~ m4_mul (i64 false) b c ;; m4_add (i64 false) p q) /\
  m4_mul (i64 false) identZ a = Done a /\ m4_mul (i64 false) a identZ = Done a.
Proof.
  intros Ha Hb Hc. destruct (mul_assoc_wrap a b c Ha Hb Hc) as [-> ->]. destruct (mul_distr_wrap a b c Ha Hb Hc) as [-> ->].
  rewrite (mul_wrap identZ a ident_range Ha), (mul_wrap a identZ Ha ident_range). rewrite prodZ_id_l, prodZ_id_r, (wrapm_id a Ha). auto.
Qed.
(** Multiplication by the identity never overflows. *)
Lemma cell_small chk a b r c : mat_small 30 a -> mat_small 30 b -> cell (i64 chk) a b r c = Done (mget (prodZ a b) r c).
Proof.
  intros Ha Hb. rewrite cell_lift. unfold prodZ, prod_of. rewrite mget_mkm. unfold sum4.
  assert (P : forall i, small 60 (mget a r i * mget b i c)) by (intros; apply (small_mul 30 30); auto; lia).
  pose proof (P I0) as P0. pose proof (P I1) as P1. pose proof (P I2) as P2. pose proof (P I3) as P3.
  assert (S : forall z, (- 2 ^ 62 <= z <= 2 ^ 62)%Z -> arith chk z = Done z).
  { intros z Hz. apply arith_in. apply (small_range 62); [exact Hz|lia]. }
  unfold small in P0, P1, P2, P3. change (2 ^ 60)%Z with 1152921504606846976%Z in *. change (2 ^ 62)%Z with 4611686018427387904%Z in *.
  unfold lift2. cbn [obind e_mul e_add e_from_int i64]. rewrite (S (mget a r I0 * mget b I0 c)%Z) by lia. cbn [obind].
  rewrite (S (0 + mget a r I0 * mget b I0 c)%Z) by lia. cbn [obind]. rewrite (S (mget a r I1 * mget b I1 c)%Z) by lia. cbn [obind].
  rewrite (S (0 + mget a r I0 * mget b I0 c + mget a r I1 * mget b I1 c)%Z) by lia. cbn [obind]. rewrite (S (mget a r I2 * mget b I2 c)%Z) by lia. cbn [obind].
  rewrite (S (0 + mget a r I0 * mget b I0 c + mget a r I1 * mget b I1 c + mget a r I2 * mget b I2 c)%Z) by lia. cbn [obind].
  rewrite (S (mget a r I3 * mget b I3 c)%Z) by lia. cbn [obind]. rewrite S by lia. reflexivity.
Qed.
Lemma mul_small chk a b : mat_small 30 a -> mat_small 30 b -> m4_mul (i64 chk) a b = Done (prodZ a b).
Proof.
  intros Ha Hb. rewrite mul_fill, (fill_done _ _ (mget (prodZ a b))) by (intros; now apply cell_small). now rewrite <- mat_eta.
Qed.
Lemma volume_small chk b : box_small 19 b ->
  b3_volume (i64 chk) b = Done (extZ b AX * extZ b AY * extZ b AZ)%Z /\
  b3_surface_area (i64 chk) b = Done (2 * (extZ b AX * extZ b AY + extZ b AX * extZ b AZ + extZ b AY * extZ b AZ))%Z.
Proof.
  intros H. assert (X : forall i, small 20 (extZ b i)) by (intros i; destruct (H i); apply (small_sub 19); auto; lia).
  assert (Y : forall i j, small 40 (extZ b i * extZ b j)) by (intros; apply (small_mul 20 20); auto; lia).
  assert (V : small 60 (extZ b AX * extZ b AY * extZ b AZ)) by (apply (small_mul 40 20); auto; lia).
  assert (D : b3_diagonal (i64 chk) b = Done (V3 (extZ b AX) (extZ b AY) (extZ b AZ))).
  { unfold b3_diagonal, p3_sub, mk3, lift2. cbn [obind e_sub i64].
    rewrite (arith_in chk (px (b_max b) - px (b_min b))) by (apply (small_range 20); [apply (X AX)|lia]).
    rewrite (arith_in chk (py (b_max b) - py (b_min b))) by (apply (small_range 20); [apply (X AY)|lia]).
    rewrite (arith_in chk (pz (b_max b) - pz (b_min b))) by (apply (small_range 20); [apply (X AZ)|lia]). reflexivity. }
  assert (M : forall i j, arith chk (extZ b i * extZ b j) = Done (extZ b i * extZ b j)%Z).
  { intros. apply arith_in. apply (small_range 40); [apply Y|lia]. }
  unfold b3_volume, b3_surface_area. rewrite D. unfold lift2. cbn [obind vx vy vz e_mul e_add e_from_int i64]. rewrite !M. cbn [obind].
  split; [apply arith_in, (small_range 60); [exact V|lia]|].
  pose proof (Y AX AY) as Y1. pose proof (Y AX AZ) as Y2. pose proof (Y AY AZ) as Y3. unfold small in *.
  change (2 ^ 40)%Z with 1099511627776%Z in *.
  assert (S : forall z, (- 2 ^ 62 <= z <= 2 ^ 62)%Z -> arith chk z = Done z).
  { intros z Hz. apply arith_in. apply (small_range 62); [exact Hz|lia]. }
  change (2 ^ 62)%Z with 4611686018427387904%Z in *. rewrite ?M. cbn [obind]. rewrite !S by lia. cbn [obind]. rewrite !S by lia. cbn [obind]. rewrite ?S by lia. reflexivity.
Qed.

(** ** Transformations *)
Lemma translate_inverse_f f (d : Vector3 (flt f)) : exists t nd, t_translate (f_float f) d = Done t /\ v3_neg (f_elem f) d = Done nd /\
  t_translate (f_float f) nd = Done (t_inverse t).
Proof.
  do 2 eexists. split; [reflexivity|]. split; [reflexivity|]. eapply (translate_inverse _ (f_float f) d); try reflexivity.
  cbn [e_neg f_float fl_elem f_elem]. intros x y [= <-]. exact (f_equal Done (Bopp_involutive _ _ x)).
Qed.
Lemma translate_inverse_R d : exists t nd, t_translate r_float d = Done t /\ v3_neg r_elem d = Done nd /\
  t_translate r_float nd = Done (t_inverse t).
Proof.
  do 2 eexists. split; [reflexivity|]. split; [reflexivity|]. eapply (translate_inverse _ r_float d); try reflexivity.
  cbn [e_neg r_float fl_elem r_elem]. intros x y [= <-]. exact (f_equal Done (Ropp_involutive x)).
Qed.
Lemma inverse_transpose_laws {F} (t : Transform F) : t_inverse (t_inverse t) = t /\ t_transpose (t_transpose t) = t /\
  t_inverse (t_transpose t) = t_transpose (t_inverse t).
Proof. destruct t as [m i]. unfold t_inverse, t_transpose. cbn [t_m t_inv]. now rewrite !transpose_invol. Qed.
Lemma scale_not_inverse x y z : x <> 0%R -> y <> 0%R -> z <> 0%R -> exists t, t_scale r_float x y z = Done t /\
  ~ prodR (t_m t) (t_inv t) = identR /\ ~ prodR (t_inv t) (t_m t) = identR /\
  prodR (t_m t) (t_inv t) = mset identR I3 I2 z /\ prodR (t_inv t) (t_m t) = mset identR I3 I2 (z * z)%R.
Proof.
  intros Hx Hy Hz. destruct (scale_r x y z Hx Hy Hz) as (t & H & P1 & P2). exists t. split; [exact H|]. rewrite P1, P2.
  repeat split; apply mset_ident_neq; auto.
Qed.
Lemma scale_zero x y z : x = 0%R \/ y = 0%R \/ z = 0%R -> t_scale r_float x y z = Panic.
Proof.
  unfold t_scale. cbn [fl_elem r_float e_from_int r_elem e_div]. intros H.
  destruct (Raux.Req_bool_spec x 0); cbn [obind]; auto. destruct (Raux.Req_bool_spec y 0); cbn [obind]; auto.
  destruct (Raux.Req_bool_spec z 0); cbn [obind]; auto. tauto.
Qed.

(** ** Inverse *)
Lemma inverse_R_done A B : m4_inverse r_elem A = Done B -> prodR A B = identR /\ prodR B A = identR.
Proof. intros H. destruct (inverse_R A) as [(_ & P & _)|(_ & B' & I & K)]; rewrite H in *; [discriminate|]. now injection I as ->. Qed.
Lemma inverse_Q_done A B : m4_inverse q_elem A = Done B -> prodQ A B = identQ /\ prodQ B A = identQ.
Proof. intros H. destruct (inverse_Q A) as [(_ & P & _)|(_ & B' & I & K)]; rewrite H in *; [discriminate|]. now injection I as ->. Qed.
Lemma inverse_R_panic A : (m4_inverse r_elem A = Panic <-> ~ exists B, prodR A B = identR /\ prodR B A = identR) /\
  (m4_inverse r_elem A = Panic <-> detR A = 0%R) /\ m4_inverse r_elem A <> OutOfFuel.
Proof.
  destruct (inverse_R A) as [(D & P & N)|(D & B & I & K)].
  - rewrite P. repeat split; auto. discriminate.
  - rewrite I. repeat split; try discriminate; intros H; [exfalso; eauto|contradiction].
Qed.
Lemma inverse_Q_panic A : (m4_inverse q_elem A = Panic <-> ~ exists B, prodQ A B = identQ /\ prodQ B A = identQ) /\
  (m4_inverse q_elem A = Panic <-> detQ A = Q2Qc 0) /\ m4_inverse q_elem A <> OutOfFuel.
Proof.
  destruct (inverse_Q A) as [(D & P & N)|(D & B & I & K)].
  - rewrite P. repeat split; auto. discriminate.
  - rewrite I. repeat split; try discriminate; intros H; [exfalso; eauto|contradiction].
Qed.
Lemma inverse_involutive A B : m4_inverse r_elem A = Done B -> m4_inverse r_elem B = Done A.
Proof.
  intros H. apply inverse_R_done in H as [H1 H2]. destruct (inverse_R B) as [(_ & _ & N)|(_ & A' & I & K1 & K2)]; [exfalso; eauto|].
  rewrite I. f_equal. eapply inverse_unique; eauto.
Qed.
Lemma transpose_mul_r (a b : Matrix4 R) : (m <~ m4_mul r_elem a b ;; !(m4_transpose m)) = m4_mul r_elem (m4_transpose b) (m4_transpose a).
Proof. rewrite !mulR. cbn [obind]. now rewrite prodR_transpose. Qed.

(** ** Counterexamples *)
Lemma expand_infinite : exists (b : Bounds3 (flt F32)) p b', inb (tle (TFloat F32)) b p /\
  b3_expand (f_elem F32) b (f_inf F32) = Done b' /\ ~ inb (tle (TFloat F32)) b' p.
Proof.
  set (i := f_inf F32). exists (bx i i i i i i), (P3 i i i). eexists. split; [intros []; split; reflexivity|].
  split; [vm_compute; reflexivity|]. intros H. destruct (H AX) as [K _]. vm_compute in K. discriminate.
Qed.
Lemma offset_overflow : exists (b : Bounds3 (flt F32)) p o, bfinite b /\ inb (tle (TFloat F32)) b p /\
  b3_offset (f_elem F32) b p = Done o /\ Bleb (vcoord AX o) (f32 1) = false.
Proof.
  set (h := f_of_int F32 (2 ^ 127)). exists (bx (Bopp h) (f32 0) (f32 0) h (f32 1) (f32 1)), (P3 h (f32 0) (f32 0)). eexists.
  split; [split; intros []; reflexivity|]. split; [intros []; split; reflexivity|]. split; [reflexivity|vm_compute; reflexivity].
Qed.
Lemma v2_div_false : exists (v : Vector2 (flt F32)) s r, Beqb s (f32 0) = false /\ v2_div (f_elem F32) v s = Done r /\
  ~ veq F32 (v2x r) (f_div (v2x v) s).
Proof.
  exists (V2 (f32 1) (f32 1)), (f32 2). eexists. split; [reflexivity|]. split; [reflexivity|]. intros [H|[H _]]; vm_compute in H; discriminate.
Qed.

(** ** Iteration *)
Lemma lattice_all chk b : pt2_range (b2_min b) -> pt2_range (b2_max b) ->
  exists l, collects (i64 chk) (b2_into_iter b) l /\ NoDup l /\ forall p, In p l <->
    (p2x (b2_min b) < p2x p <= p2x (b2_max b) /\ p2y p = p2y (b2_min b))%Z \/
    (0 <= p2x p <= Z.max 0 (p2x (b2_max b)) /\ p2y (b2_min b) < p2y p <= p2y (b2_max b))%Z.
Proof. intros H1 H2. exists (visited b). split; [now apply iter_visited|]. split; [apply visited_nodup|apply visited_in]. Qed.
Lemma lattice_true chk b : pt2_range (b2_min b) -> pt2_range (b2_max b) ->
  p2x (b2_min b) = 0%Z -> (0 <= p2x (b2_max b))%Z -> (p2y (b2_min b) <= p2y (b2_max b))%Z ->
  exists l, collects (i64 chk) (b2_into_iter b) l /\ NoDup l /\ forall p, In p l <-> inb2 b p /\ p <> b2_min b.
Proof.
  intros H1 H2 H3 H4 H5. exists (visited b). split; [now apply iter_visited|]. split; [apply visited_nodup|now apply visited_zero].
Qed.
Lemma lattice_false : exists b l p, pt2_range (b2_min b) /\ pt2_range (b2_max b) /\
  collects (i64 true) (b2_into_iter b) l /\ ((inb2 b p /\ ~ In p l) /\ exists q, In q l /\ ~ inb2 b q).
Proof.
  set (b := (B2 (P2 1 1) (P2 2 2))%Z). exists b, (visited b), (P2 1 1)%Z. split; [split; reflexivity|]. split; [split; reflexivity|].
  split; [apply iter_visited; split; reflexivity|]. split.
  - split; [unfold inb2; cbn; lia|]. rewrite visited_in. cbn. lia.
  - exists (P2 0 2)%Z. rewrite visited_in. unfold inb2. cbn. lia.
Qed.

Lemma p2_from_p3_float f (p : Point3 (flt f)) :
  ((exists i, coord i p = B754_nan) /\ p2_from_p3 (f_elem f) p = Panic) \/
  ((forall i, coord i p <> B754_nan) /\ p2_from_p3 (f_elem f) p = Done (P2 (px p) (py p))).
Proof.
  destruct (p2_from_p3_thm (f_elem f) p) as [[[i H] E]|[H E]].
  - left. split; [|exact E]. exists i. cbn in H. destruct (coord i p); try discriminate. reflexivity.
  - right. split; [|exact E]. intros i N. specialize (H i). cbn in H. rewrite N in H. discriminate.
Qed.
