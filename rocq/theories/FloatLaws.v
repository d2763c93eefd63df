(** Proofs for C124. *)
From Coq Require Import ZArith Reals Lra Lia.
From Flocq Require Import Core.Core IEEE754.BinarySingleNaN.
From Verif Require Import Base Elem GeoModel FloatInst MatModel MatSpec MatThms GeoSpec ArithSpec OpsSpec FloatCore FloatErrSpec FloatErr FloatErrThms FloatAxes LawSpec.
Local Open Scope R_scope.

Section T.
Context (f : fmt).
Local Notation B := (flt f).
Local Notation u := (half_ulp f).
Local Notation eta := (half_tiny f).
Local Notation ap n K x X A := (approx f n K (@B2R (fprec f) (femax f) x) X A).

Definition fsum4 (g : ix -> B) : B := f_add (f_add (f_add (f_add (f_of_int f 0) (g I0)) (g I1)) (g I2)) (g I3).
Definition fsum3 (g : ix -> B) : B := f_add (f_add (g I0) (g I1)) (g I2).
Lemma ap_add_le n K (x y : B) X A m L Y C : (m <= n)%nat -> ap n K x X A -> ap m L y Y C -> is_finite (f_add x y) = true -> ap (S n) (K + L) (f_add x y) (X + Y) (A + C).
Proof. intros H H1 H2 F. rewrite <- (Nat.max_l n m H). now apply ap_add. Qed.
Lemma fsum4_fin g : is_finite (fsum4 g) = true -> forall i, is_finite (g i) = true.
Proof.
  unfold fsum4. intros H. apply fin_add in H as (H & H3 & _). apply fin_add in H as (H & H2 & _). apply fin_add in H as (H & H1 & _).
  apply fin_add in H as (_ & H0 & _). intros []; assumption.
Qed.
Lemma fsum3_fin g : is_finite (fsum3 g) = true -> forall i, i <> I3 -> is_finite (g i) = true.
Proof. unfold fsum3. intros H. apply fin_add in H as (H & H2 & _). apply fin_add in H as (H0 & H1 & _). intros [] Hi; try assumption. now elim Hi. Qed.
Lemma fsum4_ap n g (K X A : ix -> R) : (forall i, is_finite (g i) = true -> ap n (K i) (g i) (X i) (A i)) -> is_finite (fsum4 g) = true ->
  ap (n + 3) (sumR4 K) (fsum4 g) (sumR4 X) (sumR4 A).
Proof.
  intros H F. pose proof (fsum4_fin g F) as Fi. unfold fsum4, sumR4 in *.
  pose proof (fin_add f _ _ F) as (F3 & _). pose proof (fin_add f _ _ F3) as (F2 & _). pose proof (fin_add f _ _ F2) as (F1 & _).
  destruct (add_zero_l f _ F1) as [_ E0].
  replace (n + 3)%nat with (S (S (S n))) by lia.
  apply (ap_add_le (S (S n)) _ _ _ _ _ n); [lia| |now apply H, Fi|assumption].
  apply (ap_add_le (S n) _ _ _ _ _ n); [lia| |now apply H, Fi|assumption].
  apply (ap_add_le n _ _ _ _ _ n); [lia| |now apply H, Fi|assumption].
  rewrite E0. now apply H, Fi.
Qed.
Lemma fsum3_ap n g (K X A : ix -> R) : (forall i, i <> I3 -> is_finite (g i) = true -> ap n (K i) (g i) (X i) (A i)) -> is_finite (fsum3 g) = true ->
  ap (n + 2) (sumR3 K) (fsum3 g) (sumR3 X) (sumR3 A).
Proof.
  intros H F. pose proof (fsum3_fin g F) as Fi. unfold fsum3, sumR3 in *. pose proof (fin_add f _ _ F) as (F2 & _).
  replace (n + 2)%nat with (S (S n)) by lia.
  apply (ap_add_le (S n) _ _ _ _ _ n); [lia| |apply H; [|apply Fi]; discriminate|assumption].
  apply (ap_add_le n _ _ _ _ _ n); [lia| | |assumption]; (apply H; [|apply Fi]; discriminate).
Qed.

Lemma mul_entry (a b p : Matrix4 B) : m4_mul (f_elem f) a b = Done p -> forall r c, mget p r c = fsum4 (fun i => f_mult (mget a r i) (mget b i c)).
Proof. intros E r c. rewrite mul_fill in E. pose proof (fill_inv _ _ _ E r c) as Ec. cbv beta in Ec. injection Ec as Ec. symmetry. exact Ec. Qed.
Lemma add_entry (a b p : Matrix4 B) : m4_add (f_elem f) a b = Done p -> forall r c, mget p r c = f_add (mget a r c) (mget b r c).
Proof. intros E r c. rewrite add_fill in E. pose proof (fill_inv _ _ _ E r c) as Ec. cbv beta in Ec. injection Ec as Ec. symmetry. exact Ec. Qed.

(** Products of approximations. *)
Lemma mult_r n K (x y : B) X A : ap n K x X A -> is_finite (f_mult x y) = true ->
  ap (S n) (K * Rabs (B2R y) + eta) (f_mult x y) (X * B2R y) (A * Rabs (B2R y)).
Proof.
  intros H F. pose proof (ap_mult f n K x y X A 0 0 _ _ H (ap_exact f y) F) as G. rewrite Nat.add_0_r in G.
  eapply approx_le; [apply Rle_refl| |exact G]. lra.
Qed.
Lemma mult_l n K (x y : B) Y A : ap n K y Y A -> is_finite (f_mult x y) = true ->
  ap (S n) (Rabs (B2R x) * K + eta) (f_mult x y) (B2R x * Y) (Rabs (B2R x) * A).
Proof.
  intros H F. pose proof (ap_mult f 0 0 x y _ _ n K _ _ (ap_exact f x) H F) as G. cbn [plus] in G.
  eapply approx_le; [apply Rle_refl| |exact G]. lra.
Qed.
Lemma entry_ap (a b p : Matrix4 B) r c : m4_mul (f_elem f) a b = Done p -> is_finite (mget p r c) = true ->
  ap 4 (4 * eta) (mget p r c) (sumR4 (fun i => B2R (mget a r i) * B2R (mget b i c))) (sumR4 (fun i => Rabs (B2R (mget a r i)) * Rabs (B2R (mget b i c)))).
Proof.
  intros E F. rewrite (mul_entry _ _ _ E) in *. replace (4 * eta) with (sumR4 (fun _ => eta)) by (unfold sumR4; ring).
  apply (fsum4_ap 1); [|assumption]. intros i Fi. rewrite <- Rabs_mult. now apply ap_product.
Qed.
Lemma mget_real (m : Matrix4 B) r c : mget (m_real m) r c = B2R (mget m r c).
Proof. now destruct r, c. Qed.
(** (a b) c *)
Lemma left_first (a b c p q : Matrix4 B) r s : m4_mul (f_elem f) a b = Done p -> m4_mul (f_elem f) p c = Done q -> is_finite (mget q r s) = true ->
  ap 8 (4 * eta * (1 + col_size (m_real c) s)) (mget q r s)
    (sumR4 (fun j => sumR4 (fun i => B2R (mget a r i) * B2R (mget b i j)) * B2R (mget c j s))) (three_abs (m_real a) (m_real b) (m_real c) r s).
Proof.
  intros E E' F. rewrite (mul_entry _ _ _ E') in *.
  assert (G := fsum4_ap 5 (fun j => f_mult (mget p r j) (mget c j s)) (fun j => 4 * eta * Rabs (B2R (mget c j s)) + eta) _ _
    (fun j Fj => mult_r 4 (4 * eta) (mget p r j) (mget c j s) _ _ (entry_ap a b p r j E (proj1 (fin_mult f _ _ Fj))) Fj) F).
  eapply approx_le; [| |exact G].
  - unfold three_abs. rewrite <- ?mget_real. unfold sumR4. rewrite !mget_real. lra.
  - unfold col_size, sumR4. rewrite !mget_real. lra.
Qed.
(** a (b c) *)
Lemma right_first (a b c p q : Matrix4 B) r s : m4_mul (f_elem f) b c = Done p -> m4_mul (f_elem f) a p = Done q -> is_finite (mget q r s) = true ->
  ap 8 (4 * eta * (1 + row_size (m_real a) r)) (mget q r s)
    (sumR4 (fun i => B2R (mget a r i) * sumR4 (fun j => B2R (mget b i j) * B2R (mget c j s)))) (three_abs (m_real a) (m_real b) (m_real c) r s).
Proof.
  intros E E' F. rewrite (mul_entry _ _ _ E') in *.
  assert (G := fsum4_ap 5 (fun i => f_mult (mget a r i) (mget p i s)) (fun i => Rabs (B2R (mget a r i)) * (4 * eta) + eta) _ _
    (fun i Fi => mult_l 4 (4 * eta) (mget a r i) (mget p i s) _ _ (entry_ap b c p i s E (proj1 (proj2 (fin_mult f _ _ Fi)))) Fi) F).
  eapply approx_le; [| |exact G].
  - unfold three_abs, sumR4. rewrite !mget_real. lra.
  - unfold row_size, sumR4. rewrite !mget_real. lra.
Qed.
(** Two approximations of the same number. *)
Lemma both_near n m K L (x y : B) X Y A C : (n <= 8)%nat -> (m <= 8)%nat -> ap n K x X A -> ap m L y Y C -> Y = X -> A <= C ->
  Rabs (B2R x - B2R y) <= (INR n + INR m + 2) * u * C + 2 * (K + L).
Proof.
  intros Hn Hm H (G1 & G2 & G3) -> HA. apply (approx_le f n K K A C) in H; [|assumption|apply Rle_refl]. destruct H as (H1 & H2 & H3).
  pose proof (Rabs_pos X). pose proof (u_pos f). pose proof (u_small f).
  pose proof (small_power f n Hn) as Pn. pose proof (small_power f m Hm) as Pm.
  assert (INR n <= 8) by (replace 8 with (INR 8) by (cbn; lra); apply le_INR; lia).
  assert (INR m <= 8) by (replace 8 with (INR 8) by (cbn; lra); apply le_INR; lia).
  assert ((1 + u) ^ n <= 2) by nra. assert ((1 + u) ^ m <= 2) by nra.
  replace (B2R x - B2R y) with ((B2R x - X) + - (B2R y - X)) by ring.
  eapply Rle_trans; [apply Rabs_triang|]. rewrite Rabs_Ropp.
  assert (((1 + u) ^ n - 1) * C <= (INR n + 1) * u * C) by (apply Rmult_le_compat_r; lra).
  assert (((1 + u) ^ m - 1) * C <= (INR m + 1) * u * C) by (apply Rmult_le_compat_r; lra).
  assert ((1 + u) ^ n * K <= 2 * K) by (apply Rmult_le_compat_r; lra).
  assert ((1 + u) ^ m * L <= 2 * L) by (apply Rmult_le_compat_r; lra). lra.
Qed.
Lemma assoc_near (a b c p q p' q' : Matrix4 B) r s : m4_mul (f_elem f) a b = Done p -> m4_mul (f_elem f) p c = Done q ->
  m4_mul (f_elem f) b c = Done p' -> m4_mul (f_elem f) a p' = Done q' -> is_finite (mget q r s) = true -> is_finite (mget q' r s) = true ->
  Rabs (B2R (mget q r s) - B2R (mget q' r s)) <= 18 * u * three_abs (m_real a) (m_real b) (m_real c) r s +
    8 * eta * (2 + row_size (m_real a) r + col_size (m_real c) s).
Proof.
  intros E1 E2 E3 E4 F F'. pose proof (left_first a b c p q r s E1 E2 F) as L. pose proof (right_first a b c p' q' r s E3 E4 F') as R.
  eapply Rle_trans; [eapply (both_near 8 8); [lia|lia|exact L|exact R|unfold sumR4; ring|apply Rle_refl]|]. cbn [INR]. lra.
Qed.

(** Sums *)
Lemma sum_ap (x y : B) : is_finite (f_add x y) = true -> ap 1 0 (f_add x y) (B2R x + B2R y) (Rabs (B2R x) + Rabs (B2R y)).
Proof. intros F. pose proof (ap_add_le 0 0 x y _ _ 0 0 _ _ (le_n _) (ap_exact f x) (ap_exact f y) F) as G. eapply approx_le; [apply Rle_refl| |exact G]. lra. Qed.
Lemma left_near (a b c t p p1 p2 q : Matrix4 B) r s : m4_add (f_elem f) b c = Done t -> m4_mul (f_elem f) a t = Done p ->
  m4_mul (f_elem f) a b = Done p1 -> m4_mul (f_elem f) a c = Done p2 -> m4_add (f_elem f) p1 p2 = Done q ->
  is_finite (mget p r s) = true -> is_finite (mget q r s) = true ->
  Rabs (B2R (mget p r s) - B2R (mget q r s)) <= 12 * u * left_abs (m_real a) (m_real b) (m_real c) r s + 24 * eta.
Proof.
  intros E1 E2 E3 E4 E5 F F'. rewrite (mul_entry _ _ _ E2) in *.
  assert (L := fsum4_ap 2 (fun i => f_mult (mget a r i) (mget t i s)) _ (fun i => B2R (mget a r i) * (B2R (mget b i s) + B2R (mget c i s))) (fun i => Rabs (B2R (mget a r i)) * (Rabs (B2R (mget b i s)) + Rabs (B2R (mget c i s))))
    (fun i Fi => mult_l 1 0 (mget a r i) (mget t i s) _ _ ltac:(pose proof (proj1 (proj2 (fin_mult f _ _ Fi))) as Ft; rewrite (add_entry _ _ _ E1) in *; exact (sum_ap _ _ Ft)) Fi) F).
  rewrite (add_entry _ _ _ E5) in *. pose proof (fin_add f _ _ F') as (F1 & F2 & _).
  assert (R := ap_add_le 4 _ _ _ _ _ 4 _ _ _ (le_n _) (entry_ap a b p1 r s E3 F1) (entry_ap a c p2 r s E4 F2) F').
  eapply Rle_trans; [eapply (both_near 5 5); [lia|lia|exact L|exact R|unfold sumR4; ring|unfold sumR4; lra]|].
  cbn [INR]. unfold left_abs, sumR4. rewrite !mget_real. lra.
Qed.
Lemma right_near (a b c t p p1 p2 q : Matrix4 B) r s : m4_add (f_elem f) a b = Done t -> m4_mul (f_elem f) t c = Done p ->
  m4_mul (f_elem f) a c = Done p1 -> m4_mul (f_elem f) b c = Done p2 -> m4_add (f_elem f) p1 p2 = Done q ->
  is_finite (mget p r s) = true -> is_finite (mget q r s) = true ->
  Rabs (B2R (mget p r s) - B2R (mget q r s)) <= 12 * u * right_abs (m_real a) (m_real b) (m_real c) r s + 24 * eta.
Proof.
  intros E1 E2 E3 E4 E5 F F'. rewrite (mul_entry _ _ _ E2) in *.
  assert (L := fsum4_ap 2 (fun i => f_mult (mget t r i) (mget c i s)) _ (fun i => (B2R (mget a r i) + B2R (mget b r i)) * B2R (mget c i s)) (fun i => (Rabs (B2R (mget a r i)) + Rabs (B2R (mget b r i))) * Rabs (B2R (mget c i s)))
    (fun i Fi => mult_r 1 0 (mget t r i) (mget c i s) _ _ ltac:(pose proof (proj1 (fin_mult f _ _ Fi)) as Ft; rewrite (add_entry _ _ _ E1) in *; exact (sum_ap _ _ Ft)) Fi) F).
  rewrite (add_entry _ _ _ E5) in *. pose proof (fin_add f _ _ F') as (F1 & F2 & _).
  assert (R := ap_add_le 4 _ _ _ _ _ 4 _ _ _ (le_n _) (entry_ap a c p1 r s E3 F1) (entry_ap b c p2 r s E4 F2) F').
  eapply Rle_trans; [eapply (both_near 5 5); [lia|lia|exact L|exact R|unfold sumR4; ring|unfold sumR4; lra]|].
  cbn [INR]. unfold right_abs, sumR4. rewrite !mget_real. lra.
Qed.

(** Vectors *)
Definition fvx (v : Vector3 B) (i : ix) : B := match i with I0 => vx v | I1 => vy v | _ => vz v end.
Lemma transform_entry (t : Transform B) v w i : v3_transform (f_float f) (fun x => x) v t = Done w -> i <> I3 ->
  fvx w i = fsum3 (fun c => f_mult (mget (t_m t) i c) (fvx v c)).
Proof. intros [= <-] H. destruct i; try reflexivity. now elim H. Qed.
Lemma transform_ap (t : Transform B) v w i : v3_transform (f_float f) (fun x => x) v t = Done w -> i <> I3 -> is_finite (fvx w i) = true ->
  ap 3 (3 * eta) (fvx w i) (sumR3 (fun c => B2R (mget (t_m t) i c) * B2R (fvx v c))) (sumR3 (fun c => Rabs (B2R (mget (t_m t) i c)) * Rabs (B2R (fvx v c)))).
Proof.
  intros E Hi F. rewrite (transform_entry _ _ _ _ E Hi) in *. replace (3 * eta) with (sumR3 (fun _ => eta)) by (unfold sumR3; ring).
  apply (fsum3_ap 1); [|assumption]. intros c _ Fc. rewrite <- Rabs_mult. now apply ap_product.
Qed.
Lemma vx_real (v : Vector3 B) i : vx_ix (v_real v) i = B2R (fvx v i). Proof. now destruct i. Qed.
Lemma fvx_coord (v : Vector3 B) i : fvx v (axis_ix i) = vcoord i v. Proof. now destruct i. Qed.
Lemma axis_not3 i : axis_ix i <> I3. Proof. now destruct i. Qed.
Lemma successive_near (ta tb tp : Transform B) (v w x y : Vector3 B) i :
  (forall c, c <> I3 -> B2R (mget (t_m tb) I3 c) = 0) ->
  m4_mul (f_elem f) (t_m ta) (t_m tb) = Done (t_m tp) ->
  v3_transform (f_float f) (fun x => x) v tb = Done w -> v3_transform (f_float f) (fun x => x) w ta = Done x ->
  v3_transform (f_float f) (fun x => x) v tp = Done y -> is_finite (vcoord i x) = true -> is_finite (vcoord i y) = true ->
  Rabs (B2R (vcoord i x) - B2R (vcoord i y)) <=
    15 * u * twice_abs (m_real (t_m ta)) (m_real (t_m tb)) (v_real v) (axis_ix i) +
    6 * eta * (2 + linear_size (m_real (t_m ta)) (axis_ix i)) + 8 * eta * vec_size (v_real v).
Proof.
  intros Hz E Eb Ea Ep Fx Fy. rewrite <- !fvx_coord in *. set (r := axis_ix i) in *. pose proof (axis_not3 i : r <> I3) as Hr.
  rewrite (transform_entry _ _ _ _ Ea Hr) in *.
  assert (L := fsum3_ap 4 (fun j => f_mult (mget (t_m ta) r j) (fvx w j)) _ (fun j => B2R (mget (t_m ta) r j) * sumR3 (fun c => B2R (mget (t_m tb) j c) * B2R (fvx v c))) (fun j => Rabs (B2R (mget (t_m ta) r j)) * sumR3 (fun c => Rabs (B2R (mget (t_m tb) j c)) * Rabs (B2R (fvx v c))))
    (fun j Hj Fj => mult_l 3 (3 * eta) (mget (t_m ta) r j) (fvx w j) _ _ (transform_ap tb v w j Eb Hj (proj1 (proj2 (fin_mult f _ _ Fj)))) Fj) Fx).
  rewrite (transform_entry _ _ _ _ Ep Hr) in *.
  assert (R := fsum3_ap 5 (fun c => f_mult (mget (t_m tp) r c) (fvx v c)) _ (fun c => sumR4 (fun k => B2R (mget (t_m ta) r k) * B2R (mget (t_m tb) k c)) * B2R (fvx v c)) (fun c => sumR4 (fun k => Rabs (B2R (mget (t_m ta) r k)) * Rabs (B2R (mget (t_m tb) k c))) * Rabs (B2R (fvx v c)))
    (fun c Hc Fc => mult_r 4 (4 * eta) (mget (t_m tp) r c) (fvx v c) _ _ (entry_ap (t_m ta) (t_m tb) (t_m tp) r c E (proj1 (fin_mult f _ _ Fc))) Fc) Fy).
  assert (Z0 := Hz I0 ltac:(discriminate)). assert (Z1 := Hz I1 ltac:(discriminate)). assert (Z2 := Hz I2 ltac:(discriminate)).
  assert (N0 : Rabs (B2R (mget (t_m tb) I3 I0)) = 0) by (rewrite Z0; apply Rabs_R0).
  assert (N1 : Rabs (B2R (mget (t_m tb) I3 I1)) = 0) by (rewrite Z1; apply Rabs_R0).
  assert (N2 : Rabs (B2R (mget (t_m tb) I3 I2)) = 0) by (rewrite Z2; apply Rabs_R0).
  eapply Rle_trans; [eapply (both_near 6 7); [lia|lia|exact L|exact R| |]|].
  - unfold sumR3, sumR4. rewrite Z0, Z1, Z2. ring.
  - unfold sumR3, sumR4. rewrite N0, N1, N2. lra.
  - cbn [INR]. unfold twice_abs, linear_size, vec_size, sumR3, sumR4. rewrite !mget_real, !vx_real, N0, N1, N2. unfold v_real. cbn [vx vy vz fvx]. lra.
Qed.
End T.

Lemma sum_commutes ty (a b : Matrix4 (car ty)) : m4_add (elem ty) a b = m4_add (elem ty) b a.
Proof. rewrite !add_fill. apply fill_ext. intros r c. apply ety_add_comm. Qed.

(** Examples *)
Definition dia f (x : flt f) : Matrix4 (flt f) := let o := f_of_int f 0 in W4 (W4 x o o o) (W4 o x o o) (W4 o o x o) (W4 o o o x).
