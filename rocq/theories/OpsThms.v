(** Operators of points, vectors and normals; lengths; transformation of vectors. *)
From Coq Require Import ZArith Reals Lia Lra.
From Flocq Require Import Core.Core IEEE754.BinarySingleNaN.
From Verif Require Import Base Elem GeoModel MatModel MatSpec FloatInst ExactInst GeoSpec ArithSpec OpsSpec.
From Verif Require Import OrderProofs ExactThms IntThms MatThms InvThms TransThms FloatCore FloatThms.
Local Open Scope mon_scope.

(** ** Componentwise operators *)
Lemma elem_defined ty : (forall a b, e_add (elem ty) a b <> OutOfFuel) /\ (forall a b, e_sub (elem ty) a b <> OutOfFuel) /\
  (forall a b, e_mul (elem ty) a b <> OutOfFuel) /\ (forall a b, e_div (elem ty) a b <> OutOfFuel) /\
  (forall a, e_neg (elem ty) a <> OutOfFuel) /\ (forall a, e_abs (elem ty) a <> OutOfFuel).
Proof.
  assert (A : forall chk z, arith chk z <> OutOfFuel) by (intros chk z; unfold arith; destruct (in_range z), chk; discriminate).
  destruct ty as [f|chk]; cbn; repeat split; intros; try discriminate; try apply A.
  - destruct (b =? 0)%Z; [discriminate|]. destruct (in_range _); discriminate.
  - destruct (a <? 0)%Z; [apply A|discriminate].
Qed.
Lemma mk3_comp {T B} (c : T -> T -> T -> B) (get : axis -> B -> T) (op : axis -> out T) :
  (forall x y z, get AX (c x y z) = x /\ get AY (c x y z) = y /\ get AZ (c x y z) = z) ->
  (forall i, op i <> OutOfFuel) -> comp3 get op (mk3 c (op AX) (op AY) (op AZ)).
Proof.
  intros G N. unfold mk3. destruct (op AX) as [x| |] eqn:X; cbn [obind]; [|exists AX; exact X|exact (N _ X)].
  destruct (op AY) as [y| |] eqn:Y; cbn [obind]; [|exists AY; exact Y|exact (N _ Y)].
  destruct (op AZ) as [z| |] eqn:Z; cbn [obind]; [|exists AZ; exact Z|exact (N _ Z)].
  destruct (G x y z) as (G1 & G2 & G3). intros []; congruence.
Qed.
Ltac by_comp ty := match goal with
  | |- comp3 ?g ?op _ => refine (mk3_comp _ g op _ _); [intros; repeat split; reflexivity|intros i; apply (elem_defined ty)] end.
Lemma point_ops ty (p q : Point3 (car ty)) (v : Vector3 (car ty)) s :
  comp3 coord (fun i => e_add (elem ty) (coord i p) (vcoord i v)) (p3_add (elem ty) p v) /\
  comp3 coord (fun i => e_sub (elem ty) (coord i p) (vcoord i v)) (p3_sub_v (elem ty) p v) /\
  comp3 vcoord (fun i => e_sub (elem ty) (coord i p) (coord i q)) (p3_sub (elem ty) p q) /\
  comp3 coord (fun i => e_mul (elem ty) s (coord i p)) (p3_mul (elem ty) p s) /\
  comp3 coord (fun i => e_div (elem ty) (coord i p) s) (p3_div (elem ty) p s) /\
  comp3 coord (fun i => e_abs (elem ty) (coord i p)) (p3_abs (elem ty) p).
Proof. repeat match goal with |- _ /\ _ => split end; by_comp ty. Qed.
Lemma vector_ops ty (u v : Vector3 (car ty)) s :
  comp3 vcoord (fun i => e_add (elem ty) (vcoord i u) (vcoord i v)) (v3_add (elem ty) u v) /\
  comp3 vcoord (fun i => e_sub (elem ty) (vcoord i u) (vcoord i v)) (v3_sub (elem ty) u v) /\
  comp3 vcoord (fun i => e_mul (elem ty) s (vcoord i u)) (v3_mul (elem ty) u s) /\
  comp3 vcoord (fun i => e_div (elem ty) (vcoord i u) s) (v3_div (elem ty) u s) /\
  comp3 vcoord (fun i => e_neg (elem ty) (vcoord i u)) (v3_neg (elem ty) u).
Proof. repeat match goal with |- _ /\ _ => split end; by_comp ty. Qed.
Lemma normal_ops ty (u v : Normal3 (car ty)) s :
  comp3 ncoord (fun i => e_add (elem ty) (ncoord i u) (ncoord i v)) (n3_add (elem ty) u v) /\
  comp3 ncoord (fun i => e_sub (elem ty) (ncoord i u) (ncoord i v)) (n3_sub (elem ty) u v) /\
  comp3 ncoord (fun i => e_mul (elem ty) s (ncoord i u)) (n3_mul (elem ty) u s) /\
  comp3 ncoord (fun i => e_div (elem ty) (ncoord i u) s) (n3_div (elem ty) u s) /\
  comp3 ncoord (fun i => e_neg (elem ty) (ncoord i u)) (n3_neg (elem ty) u).
Proof. repeat match goal with |- _ /\ _ => split end; by_comp ty. Qed.
Lemma point2_abs ty (p : Point2 (car ty)) :
  match p2_abs (elem ty) p with
  | Done w => e_abs (elem ty) (p2x p) = Done (p2x w) /\ e_abs (elem ty) (p2y p) = Done (p2y w)
  | Panic => e_abs (elem ty) (p2x p) = Panic \/ e_abs (elem ty) (p2y p) = Panic
  | OutOfFuel => False
  end.
Proof.
  unfold p2_abs, mk2. pose proof (elem_defined ty) as (_ & _ & _ & _ & _ & N).
  destruct (e_abs (elem ty) (p2x p)) eqn:X; cbn [obind]; [|auto|exact (N _ X)].
  destruct (e_abs (elem ty) (p2y p)) eqn:Y; cbn [obind]; [auto|auto|exact (N _ Y)].
Qed.

(** ** The element operations *)
Lemma machine_integers : forall z, (in_range z = true <-> (- 9223372036854775808 <= z <= 9223372036854775807)%Z) /\
  in_range (wrap z) = true /\ exists k, (wrap z = z + k * 18446744073709551616)%Z.
Proof.
  intros z. unfold in_range, wrap. change int_min with (- 9223372036854775808)%Z. change int_max with 9223372036854775807%Z.
  change (2 ^ 63)%Z with 9223372036854775808%Z. change (2 ^ 64)%Z with 18446744073709551616%Z.
  rewrite !andb_true_iff, !Z.leb_le. split; [reflexivity|].
  pose proof (Z.mod_pos_bound (z + 9223372036854775808) 18446744073709551616 ltac:(lia)) as B. split; [lia|].
  exists (- ((z + 9223372036854775808) / 18446744073709551616))%Z.
  pose proof (Z.div_mod (z + 9223372036854775808) 18446744073709551616 ltac:(lia)). lia.
Qed.
Lemma int_ops chk a b : in_range a = true -> in_range b = true ->
  exactly chk (a + b) (e_add (i64 chk) a b) /\ exactly chk (a - b) (e_sub (i64 chk) a b) /\
  exactly chk (a * b) (e_mul (i64 chk) a b) /\ exactly chk (- a) (e_neg (i64 chk) a) /\ exactly chk (Z.abs a) (e_abs (i64 chk) a).
Proof.
  intros Ha Hb. cbn [e_add e_sub e_mul e_neg e_abs i64]. do 4 (split; [apply ex_arith|]).
  destruct (Z.ltb_spec a 0).
  - rewrite Z.abs_neq by lia. apply ex_arith.
  - rewrite Z.abs_eq by lia. now apply ex_leaf.
Qed.
Lemma range_iff z : in_range z = true <-> (- 2 ^ 63 <= z < 2 ^ 63)%Z.
Proof. unfold in_range, int_min, int_max. rewrite Bool.andb_true_iff, !Z.leb_le. lia. Qed.
Lemma quot_bound a b : (b <> 0 -> Z.abs (Z.quot a b) <= Z.abs a)%Z.
Proof.
  intros Hb. rewrite <- Z.quot_abs by auto. rewrite Z.quot_div_nonneg by lia. apply Z.div_le_upper_bound; nia.
Qed.
Lemma int_div chk a b : in_range a = true -> in_range b = true ->
  (e_div (i64 chk) a b = Panic <-> (b = 0 \/ (a = - 2 ^ 63 /\ b = - 1))%Z) /\
  (forall q, e_div (i64 chk) a b = Done q -> exists r, (a = b * q + r /\ Z.abs r < Z.abs b /\ 0 <= r * a)%Z).
Proof.
  intros Ha Hb. apply range_iff in Ha, Hb. cbn [e_div i64].
  destruct (Z.eqb_spec b 0) as [->|Nb].
  { split; [split; auto|discriminate]. }
  destruct (in_range (Z.quot a b)) eqn:R.
  - split.
    + split; [discriminate|]. intros [|[-> ->]]; [contradiction|]. vm_compute in R. discriminate.
    + intros q [= <-]. exists (Z.rem a b). split; [apply Z.quot_rem'|]. split; [now apply Z.rem_bound_abs|].
      pose proof (Z.rem_sign_mul a b Nb). lia.
  - split; [|discriminate]. split; auto. intros _. right.
    assert (N : ~ (- 2 ^ 63 <= Z.quot a b < 2 ^ 63)%Z) by (rewrite <- range_iff; congruence).
    pose proof (quot_bound a b Nb) as Q.
    destruct (Z.eq_dec a (- 2 ^ 63)) as [->|Na]; [|lia]. split; auto.
    destruct (Z.eq_dec b (- 1)) as [|Nb']; auto. exfalso. apply N.
    assert (Z.abs (Z.quot (- 2 ^ 63) b) < 2 ^ 63 \/ b = 1)%Z as [Hlt| ->]; [|lia|rewrite Z.quot_1_r; lia].
    destruct (Z.eq_dec b 1) as [|Nb1]; auto. left. rewrite <- Z.quot_abs by auto. rewrite Z.quot_div_nonneg by lia.
    apply Z.div_lt_upper_bound; [lia|]. change (Z.abs (- 2 ^ 63)) with (2 ^ 63)%Z. assert (2 <= Z.abs b)%Z by lia. nia.
Qed.
Lemma key_rounds f x (z : flt f) : is_nan z = false -> key f z = sat f (rnd f x) ->
  is_finite z = Rlt_bool (Rabs (rnd f x)) (big f) -> rounds_to f x z.
Proof.
  intros N K Fi. unfold rounds_to. cbv zeta. change (nearest f x) with (rnd f x). change (bpow radix2 (femax f)) with (big f).
  pose proof (big_pos f) as Bp. destruct (Rlt_bool_spec (Rabs (rnd f x)) (big f)) as [L|L].
  - left. split; auto. split; auto. rewrite key_finite, sat_in in K; auto.
  - right. destruct (Rle_or_lt 0 (rnd f x)) as [P|P].
    + left. rewrite Rabs_pos_eq in L by auto. split; auto. rewrite sat_hi in K by auto.
      destruct z as [|[]| |]; try discriminate; cbn in K; auto. lra.
    + right. rewrite Rabs_left in L by auto. split; [lra|]. rewrite sat_lo in K by lra.
      destruct z as [|[]| |]; try discriminate; cbn in K; auto. lra.
Qed.
Lemma float_ops f (a b : flt f) : is_finite a = true -> is_finite b = true ->
  (exists z, e_add (f_elem f) a b = Done z /\ rounds_to f (B2R a + B2R b) z) /\
  (exists z, e_sub (f_elem f) a b = Done z /\ rounds_to f (B2R a - B2R b) z) /\
  (exists z, e_mul (f_elem f) a b = Done z /\ rounds_to f (B2R a * B2R b) z) /\
  (B2R b <> 0%R -> exists z, e_div (f_elem f) a b = Done z /\ rounds_to f (B2R a / B2R b) z) /\
  (exists z, e_neg (f_elem f) a = Done z /\ is_finite z = true /\ B2R z = (- B2R a)%R) /\
  (exists z, e_abs (f_elem f) a = Done z /\ is_finite z = true /\ B2R z = Rabs (B2R a)).
Proof.
  intros Fa Fb. cbn [e_add e_sub e_mul e_div e_neg e_abs f_elem].
  split; [eexists; split; [reflexivity|]; destruct (add_key f a b Fa Fb) as (H1 & H2 & H3); now apply key_rounds|].
  split; [eexists; split; [reflexivity|]; destruct (sub_key f a b Fa Fb) as (H1 & H2 & H3); now apply key_rounds|].
  split; [eexists; split; [reflexivity|]; destruct (mult_key f a b Fa Fb) as (H1 & H2 & H3); now apply key_rounds|].
  split; [intros Nb; eexists; split; [reflexivity|]; destruct (div_key f a b Fa Fb Nb) as (H1 & H2 & H3); now apply key_rounds|].
  split; eexists; split; [reflexivity| |reflexivity|].
  - now rewrite is_finite_Bopp, B2R_Bopp.
  - now rewrite is_finite_Babs, B2R_Babs.
Qed.

(** ** Lengths *)
Local Open Scope R_scope.
Lemma len_r v : v3_len r_float r_elem (fun x => x) v = Done (normR v).
Proof. unfold v3_len. rewrite len_sq_r. cbn [obind]. rewrite sqrt_r by nra. reflexivity. Qed.
Lemma dotR_nonneg v : 0 <= dotR v v. Proof. unfold dotR. nra. Qed.
Lemma normR_sq v : normR v * normR v = dotR v v. Proof. apply sqrt_sqrt, dotR_nonneg. Qed.
Lemma normR_nonneg v : 0 <= normR v. Proof. apply sqrt_pos. Qed.
Lemma cauchy u v : dotR u v <= normR u * normR v.
Proof.
  apply Rsqr_incr_0_var; [|apply Rmult_le_pos; apply normR_nonneg]. unfold Rsqr.
  replace (normR u * normR v * (normR u * normR v)) with ((normR u * normR u) * (normR v * normR v)) by ring. rewrite !normR_sq. unfold dotR.
  destruct u as [a b c], v as [x y z]. cbn [vx vy vz].
  pose proof (Rle_0_sqr (a * y - b * x)) as H1. pose proof (Rle_0_sqr (a * z - c * x)) as H2. pose proof (Rle_0_sqr (b * z - c * y)) as H3.
  unfold Rsqr in *. lra.
Qed.
Lemma norm_triangle u v w : v3_add r_elem u v = Done w -> normR w <= normR u + normR v.
Proof.
  intros [= <-]. apply Rsqr_incr_0_var; [|apply Rplus_le_le_0_compat; apply normR_nonneg]. unfold Rsqr. rewrite normR_sq.
  pose proof (cauchy u v). pose proof (normR_sq u). pose proof (normR_sq v). unfold dotR in *. cbn [vx vy vz] in *. nra.
Qed.
Lemma norm_scale u s w : v3_mul r_elem u s = Done w -> normR w = Rabs s * normR u.
Proof.
  intros [= <-]. unfold normR. rewrite <- (sqrt_Rsqr_abs s), <- sqrt_mult; [|apply Rle_0_sqr|apply dotR_nonneg].
  f_equal. unfold dotR, Rsqr. cbn [vx vy vz]. ring.
Qed.
Lemma norm_zero u : normR u = 0 <-> u = V3 0 0 0.
Proof.
  split.
  - intros H. pose proof (normR_sq u) as Q. rewrite H in Q. unfold dotR in Q. destruct u as [a b c]. cbn [vx vy vz] in Q.
    assert (a * a = 0) by nra. assert (b * b = 0) by nra. assert (c * c = 0) by nra.
    assert (a = 0) by nra. assert (b = 0) by nra. assert (c = 0) by nra. congruence.
  - intros ->. unfold normR, dotR. cbn. rewrite Rmult_0_l, !Rplus_0_l. apply sqrt_0.
Qed.
Lemma len_thm u v s : exists w x l m lw lx, v3_add r_elem u v = Done w /\ v3_mul r_elem u s = Done x /\
  v3_len r_float r_elem (fun x => x) u = Done l /\ v3_len r_float r_elem (fun x => x) v = Done m /\
  v3_len r_float r_elem (fun x => x) w = Done lw /\ v3_len r_float r_elem (fun x => x) x = Done lx /\
  0 <= l /\ l * l = dotR u u /\ (l = 0 <-> u = V3 0 0 0) /\ lw <= l + m /\ lx = Rabs s * l.
Proof.
  exists (V3 (vx u + vx v) (vy u + vy v) (vz u + vz v)), (V3 (s * vx u) (s * vy u) (s * vz u)).
  do 4 eexists. rewrite !len_r. do 6 (split; [reflexivity|]). split; [apply normR_nonneg|]. split; [apply normR_sq|].
  split; [apply norm_zero|]. split; [now apply norm_triangle|now apply norm_scale].
Qed.
Lemma n3_len_as_v3 {T F} (FT : FloatT F) (E : Elem T) as_ n :
  n3_len FT E as_ n = v3_len FT E as_ (V3 (nx n) (ny n) (nz n)).
Proof. reflexivity. Qed.

(** Floats at least zero, infinity included. *)
Definition fnn f (x : flt f) : Prop := is_nan x = false /\ 0 <= key f x.
Lemma fnn_le f (x : flt f) : fnn f x <-> Bleb (f_of_int f 0) x = true.
Proof.
  rewrite leb_key. rewrite (key_finite f (f_of_int f 0)), (proj1 (zero_val f)) by apply zero_val.
  unfold fnn. pose proof (fin_nan f _ (proj2 (zero_val f))). tauto.
Qed.
Lemma sat_nonneg f x : 0 <= x -> 0 <= sat f x.
Proof. intros H. pose proof (big_pos f). unfold sat. apply Rle_trans with (Rmin (big f) x); [apply Rmin_glb; lra|apply Rmax_r]. Qed.
Lemma fnn_sq f (x : flt f) : is_nan x = false -> fnn f (f_mult x x).
Proof.
  intros N. destruct (is_finite x) eqn:Fx.
  - destruct (mult_key f x x Fx Fx) as (H1 & H2 & _). split; auto. rewrite H2. apply sat_nonneg, rnd_nonneg. nra.
  - pose proof (big_pos f). destruct x as [|[]| |]; try discriminate; split; cbn; auto; lra.
Qed.
Lemma fnn_add f (x y : flt f) : fnn f x -> fnn f y -> fnn f (f_add x y).
Proof.
  intros [Nx Kx] [Ny Ky]. pose proof (big_pos f). destruct (is_finite x) eqn:Fx; [destruct (is_finite y) eqn:Fy|].
  - destruct (add_key f x y Fx Fy) as (H1 & H2 & _). split; auto. rewrite H2. apply sat_nonneg, rnd_nonneg.
    rewrite !key_finite in * by auto. lra.
  - destruct y as [|[]| |]; try discriminate; [cbn in Ky; lra|]. destruct x; try discriminate; split; cbn; auto; lra.
  - destruct x as [|[]| |]; try discriminate; [cbn in Kx; lra|].
    destruct y as [|[]| |]; try discriminate; try (cbn in Ky; lra); split; cbn; auto; lra.
Qed.
Lemma fnn_mult f (x y : flt f) : fnn f x -> fnn f y -> (is_finite x = true /\ is_finite y = true) -> fnn f (f_mult x y).
Proof.
  intros [Nx Kx] [Ny Ky] [Fx Fy]. destruct (mult_key f x y Fx Fy) as (H1 & H2 & _). split; auto. rewrite H2.
  apply sat_nonneg, rnd_nonneg. rewrite !key_finite in * by auto. nra.
Qed.
Lemma fnn_sqrt f (x : flt f) : fnn f x -> fnn f (Bsqrt mode_NE x).
Proof.
  intros [Nx Kx]. pose proof (big_pos f). pose proof (Bsqrt_correct _ _ (fprec_gt_0 f) (fprec_lt_emax f) mode_NE x) as (HR & HF & _).
  destruct x as [s|[]| |s m e Hb]; try discriminate; [split; cbn; auto; lra|cbn in Kx; lra|split; cbn; auto; lra|].
  destruct s.
  - exfalso. rewrite key_finite in Kx by reflexivity. cbn in Kx. assert (F2R (Float radix2 (Z.neg m) e) < 0) by (apply F2R_lt_0; reflexivity). cbn in *; lra.
  - split; [apply fin_nan, HF|]. rewrite key_finite by exact HF. rewrite HR.
    apply round_ge_generic; [apply fexp_valid|apply valid_rnd_N|apply generic_format_0|apply sqrt_pos].
Qed.
Lemma len_float f (v : Vector3 (flt f)) : v3_len (f_float f) (f_elem f) (fun x => x) v =
  Done (Bsqrt mode_NE (f_add (f_add (f_mult (vx v) (vx v)) (f_mult (vy v) (vy v))) (f_mult (vz v) (vz v)))).
Proof. reflexivity. Qed.
Lemma len_nonneg_float f (v : Vector3 (flt f)) : (forall i, is_nan (vcoord i v) = false) ->
  exists l, v3_len (f_float f) (f_elem f) (fun x => x) v = Done l /\ Bleb (f_of_int f 0) l = true.
Proof.
  intros H. rewrite len_float. eexists. split; [reflexivity|]. apply fnn_le, fnn_sqrt, fnn_add; [apply fnn_add|];
    apply fnn_sq; [exact (H AX)|exact (H AY)|exact (H AZ)].
Qed.
