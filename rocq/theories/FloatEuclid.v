(** Proofs for C134: the inequalities of Cauchy and Schwarz and of the triangle in floats. *)
From Coq Require Import ZArith Reals Lia Lra.
From Flocq Require Import Core.Core IEEE754.BinarySingleNaN.
From Verif Require Import Base Elem FloatInst GeoModel GeoSpec ArithSpec OpsSpec FloatErrSpec EuclidSpec.
From Verif Require Import OrderProofs FloatCore FloatThms FloatErr FloatErrThms FloatSphere FloatFrame.
Local Open Scope R_scope.

Lemma dot_abs_norm a b : dot_abs a b <= normR a * normR b.
Proof.
  rewrite <- (norm_abs a), <- (norm_abs b). eapply Rle_trans; [|apply cauchy]. unfold dot_abs, dotR, v_abs; cbn. rewrite !Rabs_mult. lra.
Qed.
Lemma cross_abs_norm a b : normR (V3 (cross_abs AX a b) (cross_abs AY a b) (cross_abs AZ a b)) <= 3 / 2 * (normR a * normR b).
Proof.
  pose proof (norm_pos a). pose proof (norm_pos b). pose proof (norm_sq a) as A. pose proof (norm_sq b) as Bq.
  apply Rsqr_incr_0_var; [|apply Rmult_le_pos; [lra|now apply Rmult_le_pos]]. unfold Rsqr. rewrite norm_sq.
  replace (3 / 2 * (normR a * normR b) * (3 / 2 * (normR a * normR b))) with (9 / 4 * ((normR a * normR a) * (normR b * normR b))) by field.
  rewrite A, Bq. unfold dotR, cross_abs; cbn. rewrite !Rabs_mult. destruct a as [a1 a2 a3], b as [b1 b2 b3]; cbn.
  assert (S : forall x, x * x = Rabs x * Rabs x) by (intros x; rewrite <- Rabs_mult, Rabs_pos_eq by nra; reflexivity).
  rewrite (S a1), (S a2), (S a3), (S b1), (S b2), (S b3).
  generalize (Rabs_pos a1), (Rabs_pos a2), (Rabs_pos a3), (Rabs_pos b1), (Rabs_pos b2), (Rabs_pos b3).
  generalize (Rabs a1), (Rabs a2), (Rabs a3), (Rabs b1), (Rabs b2), (Rabs b3). clear. intros x y z p q r X Y Z P Q R.
  pose proof (Rle_0_sqr (y * r - z * q)). pose proof (Rle_0_sqr (z * p - x * r)). pose proof (Rle_0_sqr (x * q - y * p)). unfold Rsqr in *.
  assert (0 <= x * x * (p * p)) by nra. assert (0 <= y * y * (q * q)) by nra. assert (0 <= z * z * (r * r)) by nra.
  assert (0 <= y * y * (r * r)) by nra. assert (0 <= z * z * (q * q)) by nra. assert (0 <= z * z * (p * p)) by nra.
  assert (0 <= x * x * (r * r)) by nra. assert (0 <= x * x * (q * q)) by nra. assert (0 <= y * y * (p * p)) by nra. lra.
Qed.

Section E.
Context (f : fmt).
Notation B := (flt f).
Notation u := (half_ulp f).
Notation eta := (half_tiny f).
Notation tau := (tiny_len f).

Lemma tau_pos : 0 < tau. Proof. unfold tiny_len. pose proof (eta_pos f). pose proof (sqrt_lt_R0 _ H). lra. Qed.
Lemma tau_sq : tau * tau = 4 * eta.
Proof. unfold tiny_len. pose proof (eta_pos f). pose proof (sqrt_sqrt eta ltac:(lra)). nra. Qed.
Lemma tau_len : (1 + u) * sqrt ((1 + u) ^ 3 * (3 * eta)) <= tau.
Proof.
  pose proof (eta_pos f). pose proof (u_pos f). pose proof (u_small f). pose proof (small_power f 3 ltac:(lia)) as P. pose proof (p1 f 3) as P1. cbn [INR] in P.
  set (k := (1 + u) ^ 3) in *. apply Rsqr_incr_0_var; [|pose proof tau_pos; lra]. unfold Rsqr. rewrite tau_sq.
  replace ((1 + u) * sqrt (k * (3 * eta)) * ((1 + u) * sqrt (k * (3 * eta)))) with ((1 + u) * (1 + u) * (sqrt (k * (3 * eta)) * sqrt (k * (3 * eta)))) by ring.
  rewrite sqrt_sqrt by nra. replace (4 * eta) with ((4 / 3) * (3 * eta)) by field. rewrite <- Rmult_assoc. apply Rmult_le_compat_r; [lra|].
  assert (k <= 1 + 4 * u) by lra. assert ((1 + u) * (1 + u) <= 1 + 3 * u) by nra.
  apply Rle_trans with ((1 + 3 * u) * (1 + 4 * u)); [apply Rmult_le_compat; nra|nra].
Qed.
(** The length as computed is between these multiples of the norm. *)
Lemma len_between (v : Vector3 B) l : len_is v l -> 0 <= B2R l /\ normR (v_real v) <= (1 + 6 * u) * (B2R l + tau) /\ B2R l <= (1 + 5 * u) * normR (v_real v) + tau.
Proof.
  intros [H F]. pose proof (len_err f v l H F) as E. pose proof tau_len as T. pose proof (small_power f 4 ltac:(lia)) as P. cbn [INR] in P.
  pose proof (norm_pos (v_real v)) as N. pose proof (u_pos f). pose proof (u_small f). pose proof tau_pos. set (n := normR (v_real v)) in *. set (k := (1 + u) ^ 4) in *.
  assert (K : (k - 1) * n <= 5 * u * n) by (apply Rmult_le_compat_r; lra). apply Rabs_le_inv in E.
  assert (L : 0 <= B2R l).
  { unfold v3_len in H. destruct (v3_len_sq (f_elem f) v) as [s| |]; try discriminate. injection H as <-. apply fin_sqrt in F as [_ ->].
    apply rnd_nonneg, sqrt_pos. }
  split; [exact L|]. split; [|lra]. assert (n * (1 - 5 * u) <= B2R l + tau) by lra.
  apply Rle_trans with ((1 + 6 * u) * (n * (1 - 5 * u))); [|apply Rmult_le_compat_l; lra].
  replace ((1 + 6 * u) * (n * (1 - 5 * u))) with (n * (1 + (u - 30 * (u * u)))) by ring. assert (0 <= u - 30 * (u * u)) by nra. nra.
Qed.
Lemma prod_bound l m c : 0 <= l -> 0 <= m -> c <= (1 + 6 * u) * (l + tau) * ((1 + 6 * u) * (m + tau)) + tau * tau ->
  c <= (1 + 6 * u) * (1 + 6 * u) * ((l + 2 * tau) * (m + 2 * tau)).
Proof.
  intros L M C. pose proof tau_pos. pose proof (u_pos f). eapply Rle_trans; [exact C|].
  replace ((1 + 6 * u) * (l + tau) * ((1 + 6 * u) * (m + tau)) + tau * tau) with ((1 + 6 * u) * (1 + 6 * u) * ((l + tau) * (m + tau)) + 1 * (tau * tau)) by ring.
  apply Rle_trans with ((1 + 6 * u) * (1 + 6 * u) * ((l + tau) * (m + tau)) + (1 + 6 * u) * (1 + 6 * u) * (tau * tau)); [apply Rplus_le_compat_l, Rmult_le_compat_r; nra|].
  rewrite <- Rmult_plus_distr_l. apply Rmult_le_compat_l; nra.
Qed.
Lemma dot_len (v w : Vector3 B) d l m : v3_dot (f_elem f) v w = Done d -> is_finite d = true -> len_is v l -> len_is w m ->
  Rabs (B2R d) <= (1 + 17 * u) * ((B2R l + 2 * tau) * (B2R m + 2 * tau)).
Proof.
  intros D F L M. destruct (len_between v l L) as (l0 & L1 & _). destruct (len_between w m M) as (m0 & M1 & _).
  pose proof (dot_err f v w d D F) as W. unfold within in W. pose proof (small_power f 3 ltac:(lia)) as P. cbn [INR] in P. pose proof (p1 f 3) as P1.
  pose proof (dot_abs_norm (v_real v) (v_real w)) as A. pose proof (cauchy_abs (v_real v) (v_real w)) as C.
  pose proof (norm_pos (v_real v)). pose proof (norm_pos (v_real w)). pose proof (u_pos f). pose proof (u_small f). pose proof (eta_pos f). pose proof tau_pos. pose proof tau_sq as T2.
  set (nv := normR (v_real v)) in *. set (nw := normR (v_real w)) in *. set (k := (1 + u) ^ 3) in *.
  assert (G : Rabs (B2R d) <= k * (nv * nw + tau * tau)).
  { replace (B2R d) with (dotR (v_real v) (v_real w) + (B2R d - dotR (v_real v) (v_real w))) by ring. eapply Rle_trans; [apply Rabs_triang|].
    assert ((k - 1) * dot_abs (v_real v) (v_real w) <= (k - 1) * (nv * nw)) by (apply Rmult_le_compat_l; lra). rewrite T2.
    assert (k * (3 * eta) <= k * (4 * eta)) by (apply Rmult_le_compat_l; lra). lra. }
  assert (X : nv * nw + tau * tau <= (1 + 6 * u) * (1 + 6 * u) * ((B2R l + 2 * tau) * (B2R m + 2 * tau))).
  { apply prod_bound; auto. apply Rplus_le_compat_r. apply Rmult_le_compat; lra. }
  set (y := (B2R l + 2 * tau) * (B2R m + 2 * tau)) in *. assert (0 <= y) by (unfold y; apply Rmult_le_pos; lra).
  eapply Rle_trans; [exact G|]. apply Rle_trans with ((1 + 4 * u) * ((1 + 6 * u) * (1 + 6 * u) * y)).
  - apply Rmult_le_compat; try lra. apply Rplus_le_le_0_compat; [now apply Rmult_le_pos|nra].
  - rewrite <- Rmult_assoc. apply Rmult_le_compat_r; [lra|]. nra.
Qed.
Lemma len_fin (v : Vector3 B) l : len_is v l -> forall i, is_finite (vcoord i v) = true.
Proof.
  intros [H F]. unfold v3_len in H. cbn in H. injection H as <-. apply fin_sqrt in F as [F _]. apply fin_add in F as (F & Fz & _). apply fin_add in F as (Fx & Fy & _).
  apply fin_mult in Fx as (Fx & _). apply fin_mult in Fy as (Fy & _). apply fin_mult in Fz as (Fz & _). intros []; assumption.
Qed.
Lemma plus_rel (x y : B) : is_finite (f_add x y) = true -> Rabs (B2R (f_add x y) - (B2R x + B2R y)) <= u * Rabs (B2R x + B2R y).
Proof.
  intros F. apply fin_add in F as (_ & _ & ->). destruct (rnd_plus f _ _ (fmt_B f x) (fmt_B f y)) as (d & D & ->).
  replace ((B2R x + B2R y) * (1 + d) - (B2R x + B2R y)) with (d * (B2R x + B2R y)) by ring. rewrite Rabs_mult. apply Rmult_le_compat_r; [apply Rabs_pos|exact D].
Qed.
Lemma minus_rel (x y : B) : is_finite (f_sub x y) = true -> Rabs (B2R (f_sub x y) - (B2R x - B2R y)) <= u * Rabs (B2R x - B2R y).
Proof.
  intros F. apply fin_sub in F as (_ & _ & ->). destruct (rnd_plus f _ _ (fmt_B f x) (generic_format_opp _ _ _ (fmt_B f y))) as (d & D & E). unfold Rminus at 2. rewrite E.
  replace ((B2R x + - B2R y) * (1 + d) - (B2R x - B2R y)) with (d * (B2R x - B2R y)) by ring. rewrite Rabs_mult. apply Rmult_le_compat_r; [apply Rabs_pos|exact D].
Qed.
Lemma sum_len (v w s : Vector3 B) l m k : v3_add (f_elem f) v w = Done s -> len_is v l -> len_is w m -> len_is s k ->
  B2R k <= (1 + 13 * u) * (B2R l + B2R m + 3 * tau).
Proof.
  intros S L M K. pose proof (len_fin s k K) as FS. destruct (len_between v l L) as (l0 & L1 & _). destruct (len_between w m M) as (m0 & M1 & _). destruct (len_between s k K) as (_ & _ & K1).
  pose proof (u_pos f). pose proof (u_small f). pose proof tau_pos.
  assert (R : Rabs (normR (v_real s) - normR (v_add (v_real v) (v_real w))) <= u * normR (v_add (v_real v) (v_real w))).
  { apply norm_rel; [lra|]. intros i. specialize (FS i). cbn in S. injection S as <-. destruct i; apply plus_rel; exact FS. }
  pose proof (norm_triang (v_real v) (v_real w)) as T. apply Rabs_le_inv in R. pose proof (norm_pos (v_add (v_real v) (v_real w))).
  set (ns := normR (v_real s)) in *. set (nt := normR (v_add (v_real v) (v_real w))) in *. set (nv := normR (v_real v)) in *. set (nw := normR (v_real w)) in *.
  assert (X : nt <= (1 + 6 * u) * (B2R l + B2R m + 2 * tau)) by lra. set (y := B2R l + B2R m + 2 * tau) in *. assert (0 <= y) by (unfold y; lra).
  assert (ns <= (1 + u) * ((1 + 6 * u) * y)). { apply Rle_trans with ((1 + u) * nt); [lra|]. apply Rmult_le_compat_l; lra. }
  apply Rle_trans with ((1 + 5 * u) * ((1 + u) * ((1 + 6 * u) * y)) + tau). { eapply Rle_trans; [exact K1|]. apply Rplus_le_compat_r, Rmult_le_compat_l; lra. }
  apply Rle_trans with ((1 + 13 * u) * y + (1 + 13 * u) * tau); [|unfold y; lra]. apply Rplus_le_compat; [|nra].
  rewrite <- !Rmult_assoc. apply Rmult_le_compat_r; [lra|]. nra.
Qed.
Lemma way_norm (p q : Point3 B) d l : p3_sub (f_elem f) p q = Done d -> len_is d l ->
  Rabs (normR (v_real d) - distR (p_real p) (p_real q)) <= u * distR (p_real p) (p_real q).
Proof.
  intros S L. pose proof (len_fin d l L) as FS. pose proof (u_pos f). apply norm_rel; [lra|]. intros i. specialize (FS i). cbn in S. injection S as <-.
  destruct i; apply minus_rel; exact FS.
Qed.
Lemma distance_len (p q r : Point3 B) a b c l m k : p3_sub (f_elem f) p q = Done a -> p3_sub (f_elem f) q r = Done b -> p3_sub (f_elem f) p r = Done c ->
  len_is a l -> len_is b m -> len_is c k -> B2R k <= (1 + 15 * u) * (B2R l + B2R m + 3 * tau).
Proof.
  intros Sa Sb Sc L M K. pose proof (way_norm _ _ _ _ Sa L) as Ra. pose proof (way_norm _ _ _ _ Sb M) as Rb. pose proof (way_norm _ _ _ _ Sc K) as Rc.
  destruct (len_between a l L) as (l0 & L1 & _). destruct (len_between b m M) as (m0 & M1 & _). destruct (len_between c k K) as (_ & _ & K1).
  pose proof (u_pos f). pose proof (u_small f). pose proof tau_pos.
  assert (T : distR (p_real p) (p_real r) <= distR (p_real p) (p_real q) + distR (p_real q) (p_real r)).
  { unfold distR. eapply Rle_trans; [|apply norm_triang]. apply Req_le. f_equal. unfold v_add; cbn. f_equal; ring. }
  assert (N : forall x y, 0 <= distR x y) by (intros; apply norm_pos). pose proof (N (p_real p) (p_real q)). pose proof (N (p_real q) (p_real r)). pose proof (N (p_real p) (p_real r)).
  set (dpq := distR (p_real p) (p_real q)) in *. set (dqr := distR (p_real q) (p_real r)) in *. set (dpr := distR (p_real p) (p_real r)) in *.
  set (na := normR (v_real a)) in *. set (nb := normR (v_real b)) in *. set (nc := normR (v_real c)) in *. apply Rabs_le_inv in Ra, Rb, Rc.
  assert (I : forall x y, 0 <= x -> x * (1 - u) <= y -> x <= (1 + 2 * u) * y).
  { intros x y X Y. apply Rle_trans with ((1 + 2 * u) * (x * (1 - u))); [|apply Rmult_le_compat_l; lra].
    replace ((1 + 2 * u) * (x * (1 - u))) with (x * (1 + (u - 2 * (u * u)))) by ring. assert (0 <= u - 2 * (u * u)) by nra. nra. }
  pose proof (I dpq na ltac:(lra) ltac:(lra)) as Ia. pose proof (I dqr nb ltac:(lra) ltac:(lra)) as Ib.
  set (y := B2R l + B2R m + 2 * tau). assert (0 <= y) by (unfold y; lra).
  assert (na + nb <= (1 + 6 * u) * y) by (unfold y; lra).
  assert (X : dpr <= (1 + 2 * u) * ((1 + 6 * u) * y)). { apply Rle_trans with ((1 + 2 * u) * (na + nb)); [lra|]. apply Rmult_le_compat_l; lra. }
  assert (nc <= (1 + u) * ((1 + 2 * u) * ((1 + 6 * u) * y))). { apply Rle_trans with ((1 + u) * dpr); [lra|]. apply Rmult_le_compat_l; lra. }
  apply Rle_trans with ((1 + 5 * u) * ((1 + u) * ((1 + 2 * u) * ((1 + 6 * u) * y))) + tau). { eapply Rle_trans; [exact K1|]. apply Rplus_le_compat_r, Rmult_le_compat_l; lra. }
  apply Rle_trans with ((1 + 15 * u) * y + (1 + 15 * u) * tau); [|unfold y; lra]. apply Rplus_le_compat; [|nra].
  rewrite <- !Rmult_assoc. apply Rmult_le_compat_r; [lra|].
  assert (E1 : (1 + 5 * u) * (1 + u) <= 1 + 25 / 4 * u) by nra. assert (E2 : (1 + 2 * u) * (1 + 6 * u) <= 1 + 33 / 4 * u) by nra.
  replace ((1 + 5 * u) * (1 + u) * (1 + 2 * u) * (1 + 6 * u)) with (((1 + 5 * u) * (1 + u)) * ((1 + 2 * u) * (1 + 6 * u))) by ring.
  apply Rle_trans with ((1 + 25 / 4 * u) * (1 + 33 / 4 * u)); [apply Rmult_le_compat; nra|nra].
Qed.
Lemma cross_len (v w c : Vector3 B) l m k : v3_cross (f_elem f) v w = Done c -> len_is v l -> len_is w m -> len_is c k ->
  B2R k <= (1 + 24 * u) * ((B2R l + 2 * tau) * (B2R m + 2 * tau) + tau).
Proof.
  intros C L M K. pose proof (len_fin c k K) as FC. destruct (len_between v l L) as (l0 & L1 & _). destruct (len_between w m M) as (m0 & M1 & _). destruct (len_between c k K) as (_ & _ & K1).
  pose proof (u_pos f). pose proof (u_small f). pose proof tau_pos. pose proof tau_sq as T2. pose proof (eta_pos f).
  pose proof (small_power f 2 ltac:(lia)) as P. cbn [INR] in P. pose proof (p1 f 2) as P1. set (e := (1 + u) ^ 2) in *.
  pose proof (norm_diff (v_real c) (crossv (v_real v) (v_real w))) as D. pose proof (cross_norm (v_real v) (v_real w)) as N. pose proof (cross_abs_norm (v_real v) (v_real w)) as A.
  pose proof (norm_pos (v_real v)). pose proof (norm_pos (v_real w)).
  assert (Q : normR (v_sub (v_real c) (crossv (v_real v) (v_real w))) <= 3 * u * normR (V3 (cross_abs AX (v_real v) (v_real w)) (cross_abs AY (v_real v) (v_real w)) (cross_abs AZ (v_real v) (v_real w))) + 7 / 4 * ((1 + 3 * u) * (2 * eta))).
  { apply norm_bound; [lra|nra|]. intros i. pose proof (cross_err f v w c i C (FC i)) as W. unfold within in W. fold e in W.
    assert (Z : 0 <= cross_abs i (v_real v) (v_real w)) by (unfold cross_abs; apply Rplus_le_le_0_compat; apply Rabs_pos).
    replace (Rabs (vcoord i (V3 (cross_abs AX (v_real v) (v_real w)) (cross_abs AY (v_real v) (v_real w)) (cross_abs AZ (v_real v) (v_real w))))) with (cross_abs i (v_real v) (v_real w)) by (destruct i; symmetry; apply Rabs_pos_eq; exact Z).
    replace (vcoord i (v_sub (v_real c) (crossv (v_real v) (v_real w)))) with (B2R (vcoord i c) - cross_r i (v_real v) (v_real w)) by (destruct i; reflexivity).
    eapply Rle_trans; [exact W|]. apply Rplus_le_compat; apply Rmult_le_compat_r; lra. }
  set (nv := normR (v_real v)) in *. set (nw := normR (v_real w)) in *. set (nc := normR (v_real c)) in *. apply Rabs_le_inv in D.
  assert (0 <= nv * nw) by now apply Rmult_le_pos.
  assert (Y : nc <= (1 + 5 * u) * (nv * nw + tau * tau)).
  { rewrite T2. assert (3 * u * normR (V3 (cross_abs AX (v_real v) (v_real w)) (cross_abs AY (v_real v) (v_real w)) (cross_abs AZ (v_real v) (v_real w))) <= 3 * u * (3 / 2 * (nv * nw))) by (apply Rmult_le_compat_l; lra).
    assert (7 / 4 * ((1 + 3 * u) * (2 * eta)) <= 4 * eta * (1 + 5 * u)) by nra. nra. }
  assert (X : nv * nw + tau * tau <= (1 + 6 * u) * (1 + 6 * u) * ((B2R l + 2 * tau) * (B2R m + 2 * tau))).
  { apply prod_bound; auto. apply Rplus_le_compat_r. apply Rmult_le_compat; lra. }
  set (y := (B2R l + 2 * tau) * (B2R m + 2 * tau)) in *. assert (0 <= y) by (unfold y; apply Rmult_le_pos; lra).
  apply Rle_trans with ((1 + 5 * u) * ((1 + 5 * u) * ((1 + 6 * u) * (1 + 6 * u) * y)) + tau).
  { eapply Rle_trans; [exact K1|]. apply Rplus_le_compat_r, Rmult_le_compat_l; [lra|]. eapply Rle_trans; [exact Y|]. apply Rmult_le_compat_l; lra. }
  rewrite (Rmult_plus_distr_l (1 + 24 * u) y tau). apply Rplus_le_compat; [|nra]. rewrite <- !Rmult_assoc. apply Rmult_le_compat_r; [lra|].
  assert (E1 : (1 + 5 * u) * (1 + 5 * u) <= 1 + 21 / 2 * u) by nra. assert (E2 : (1 + 6 * u) * (1 + 6 * u) <= 1 + 25 / 2 * u) by nra.
  replace ((1 + 5 * u) * (1 + 5 * u) * (1 + 6 * u) * (1 + 6 * u)) with (((1 + 5 * u) * (1 + 5 * u)) * ((1 + 6 * u) * (1 + 6 * u))) by ring.
  apply Rle_trans with ((1 + 21 / 2 * u) * (1 + 25 / 2 * u)); [apply Rmult_le_compat; nra|nra].
Qed.
End E.

(** Normals are treated like vectors. *)
Definition as_v {T} (n : Normal3 T) : Vector3 T := V3 (nx n) (ny n) (nz n).
Lemma n_dot_len f (v w : Normal3 (flt f)) d l m : n3_dot (f_elem f) v w = Done d -> is_finite d = true -> n_len_is v l -> n_len_is w m ->
  Rabs (B2R d) <= (1 + 17 * half_ulp f) * ((B2R l + 2 * tiny_len f) * (B2R m + 2 * tiny_len f)).
Proof. exact (dot_len f (as_v v) (as_v w) d l m). Qed.
Lemma n_sum_len f (v w s : Normal3 (flt f)) l m k : n3_add (f_elem f) v w = Done s -> n_len_is v l -> n_len_is w m -> n_len_is s k ->
  B2R k <= (1 + 13 * half_ulp f) * (B2R l + B2R m + 3 * tiny_len f).
Proof. intros [= <-]. exact (sum_len f (as_v v) (as_v w) _ l m k eq_refl). Qed.
Lemma n_cross_len f (v w c : Normal3 (flt f)) l m k : n3_cross (f_elem f) v w = Done c -> n_len_is v l -> n_len_is w m -> n_len_is c k ->
  B2R k <= (1 + 24 * half_ulp f) * ((B2R l + 2 * tiny_len f) * (B2R m + 2 * tiny_len f) + tiny_len f).
Proof. intros [= <-]. exact (cross_len f (as_v v) (as_v w) _ l m k eq_refl). Qed.

Lemma dot_case : exists (v : Vector3 (flt F32)) d l, v3_dot (f_elem F32) v v = Done d /\ len_is v l /\ Bltb (f_mult l l) d = true.
Proof. exists (V3 (f32 1) (f32 1) (f32 0)). do 2 eexists. split; [reflexivity|]. split; [split; [reflexivity|]|]; vm_compute; reflexivity. Qed.
Lemma sum_case : exists (v w s : Vector3 (flt F32)) l m k, v3_add (f_elem F32) v w = Done s /\ len_is v l /\ len_is w m /\ len_is s k /\
  Bltb (f_add l m) k = true.
Proof.
  exists (V3 (f32 1) (f32 1) (f32 0)), (V3 (f32 6) (f32 6) (f32 0)). do 4 eexists. split; [reflexivity|].
  do 3 (split; [split; [reflexivity|vm_compute; reflexivity]|]). vm_compute. reflexivity.
Qed.
