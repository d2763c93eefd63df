(** Proofs about C141: the laws of integer vectors whatever overflows. *)
From Coq Require Import ZArith List Lia.
From Verif Require Import Base Elem GeoModel GeoSpec ArithSpec RingSpec IntThms.
Local Open Scope mon_scope.
Local Open Scope Z_scope.

Lemma wal a b : wrap (wrap a + b) = wrap (a + b).
Proof. apply wrap_eq. rewrite Zplus_mod, wrap_cong, <- Zplus_mod. reflexivity. Qed.
Lemma war a b : wrap (a + wrap b) = wrap (a + b).
Proof. apply wrap_eq. rewrite Zplus_mod, wrap_cong, <- Zplus_mod. reflexivity. Qed.
Lemma wsl a b : wrap (wrap a - b) = wrap (a - b).
Proof. apply wrap_eq. rewrite Zminus_mod, wrap_cong, <- Zminus_mod. reflexivity. Qed.
Lemma wsr a b : wrap (a - wrap b) = wrap (a - b).
Proof. apply wrap_eq. rewrite Zminus_mod, wrap_cong, <- Zminus_mod. reflexivity. Qed.
Lemma wml a b : wrap (wrap a * b) = wrap (a * b).
Proof. apply wrap_eq. rewrite Zmult_mod, wrap_cong, <- Zmult_mod. reflexivity. Qed.
Lemma wmr a b : wrap (a * wrap b) = wrap (a * b).
Proof. apply wrap_eq. rewrite Zmult_mod, wrap_cong, <- Zmult_mod. reflexivity. Qed.
Lemma wn a : wrap (- wrap a) = wrap (- a).
Proof. rewrite <- !Z.sub_0_l. apply wsr. Qed.

(** With checks a computation panics or does what it does without. *)
Definition sim {A} (a b : out A) : Prop := a = Panic \/ a = b.
Lemma sim_refl {A} (a : out A) : sim a a. Proof. now right. Qed.
Lemma sim_bind {A B} (m m' : out A) (k k' : A -> out B) : sim m m' -> (forall x, sim (k x) (k' x)) -> sim (obind m k) (obind m' k').
Proof. intros [->| ->] H; [now left|]. destruct m' as [a| |]; cbn; [apply H|now left|apply sim_refl]. Qed.
Lemma sim_arith z : sim (arith true z) (arith false z).
Proof. unfold arith. destruct (in_range z); [apply sim_refl|now left]. Qed.
Lemma law_sim {A} (l r : bool -> out A) : (exists x, l false = Done x /\ r false = Done x) -> sim (l true) (l false) -> sim (r true) (r false) -> law l r.
Proof. intros (x & Hl & Hr) Sl Sr. split; eauto. intros a b Ha Hb. destruct Sl, Sr; congruence. Qed.

Lemma v3e (a b c x y z : Z) : a = x -> b = y -> c = z -> Done (V3 a b c) = Done (V3 x y z). Proof. congruence. Qed.
Lemma se (a b : Z) : a = b -> Done a = Done b. Proof. congruence. Qed.
Lemma n3e (a b c x y z : Z) : a = x -> b = y -> c = z -> Done (N3 a b c) = Done (N3 x y z). Proof. congruence. Qed.
Lemma p3e (a b c x y z : Z) : a = x -> b = y -> c = z -> Done (P3 a b c) = Done (P3 x y z). Proof. congruence. Qed.

Ltac sims := repeat match goal with
  | |- sim (obind _ _) _ => apply sim_bind; [|intros ?]
  | |- sim (arith true _) _ => apply sim_arith
  | |- sim (Done _) _ => apply sim_refl
  end.
Ltac opn := unfold v3_add, v3_sub, v3_mul, v3_neg, v3_dot, v3_cross, v3_len_sq, p3_add, p3_sub, p3_sub_v, p3_mul, n3_add, n3_sub, n3_mul, n3_neg, n3_dot, n3_cross, n3_len_sq, mk3, lift2; cbn [e_add e_sub e_mul e_neg i64].
Ltac flat := repeat (rewrite wal || rewrite war || rewrite wsl || rewrite wsr || rewrite wml || rewrite wmr || rewrite wn).
(** Wraps are removed as soon as they are inside another, so that none is left inside a sum. *)
Ltac run := repeat first [progress flat | progress (cbn [obind vx vy vz px py pz nx ny nz]) | rewrite arith_wrap].
Ltac same := flat; first [reflexivity | f_equal; ring
  | etransitivity; [symmetry; apply wrap_id; first [eassumption | reflexivity] | f_equal; ring]].
Ltac laws := apply law_sim; [opn; run; eexists; split; [reflexivity|]; first [apply v3e | apply p3e | apply n3e | apply se]; same
  | opn; cbn [obind]; sims | opn; cbn [obind]; sims].
Ltac split_and := match goal with |- _ /\ _ => split end.
Ltac open u := let H := fresh in intros H; pose proof (H AX); pose proof (H AY); pose proof (H AZ); clear H; destruct u as [? ? ?]; cbn [coord vcoord vx vy vz px py pz nx ny nz] in *.

Lemma add_laws u v w : vec_range u -> 
  law (fun c => s <~ v3_add (i64 c) u v ;; v3_add (i64 c) s w) (fun c => s <~ v3_add (i64 c) v w ;; v3_add (i64 c) u s) /\
  law (fun c => v3_add (i64 c) u v) (fun c => v3_add (i64 c) v u) /\
  law (fun c => s <~ v3_add (i64 c) u v ;; v3_sub (i64 c) s v) (fun _ => Done u) /\
  law (fun c => s <~ v3_sub (i64 c) u v ;; v3_add (i64 c) s v) (fun _ => Done u) /\
  law (fun c => v3_sub (i64 c) u v) (fun c => n <~ v3_neg (i64 c) v ;; v3_add (i64 c) u n) /\
  law (fun c => n <~ v3_neg (i64 c) u ;; v3_neg (i64 c) n) (fun _ => Done u).
Proof. open u. repeat split_and; laws. Qed.
Lemma point_laws p q v w : pt_range p -> pt_range q -> vec_range v ->
  law (fun c => d <~ p3_sub (i64 c) q p ;; p3_add (i64 c) p d) (fun _ => Done q) /\
  law (fun c => s <~ p3_add (i64 c) p v ;; p3_sub (i64 c) s p) (fun _ => Done v) /\
  law (fun c => s <~ p3_add (i64 c) p v ;; p3_sub_v (i64 c) s v) (fun _ => Done p) /\
  law (fun c => s <~ p3_add (i64 c) p v ;; p3_add (i64 c) s w) (fun c => s <~ v3_add (i64 c) v w ;; p3_add (i64 c) p s) /\
  law (fun c => n <~ v3_neg (i64 c) v ;; p3_add (i64 c) p n) (fun c => p3_sub_v (i64 c) p v).
Proof. open p. open q. open v. repeat split_and; laws. Qed.
Lemma scale_laws u v j k : 
  law (fun c => s <~ v3_add (i64 c) u v ;; v3_mul (i64 c) s k) (fun c => a <~ v3_mul (i64 c) u k ;; b <~ v3_mul (i64 c) v k ;; v3_add (i64 c) a b) /\
  law (fun c => s <~ e_add (i64 c) j k ;; v3_mul (i64 c) u s) (fun c => a <~ v3_mul (i64 c) u j ;; b <~ v3_mul (i64 c) u k ;; v3_add (i64 c) a b) /\
  law (fun c => a <~ v3_mul (i64 c) u j ;; v3_mul (i64 c) a k) (fun c => s <~ e_mul (i64 c) j k ;; v3_mul (i64 c) u s) /\
  law (fun c => v3_mul (i64 c) u (-1)) (fun c => v3_neg (i64 c) u).
Proof. repeat split_and; laws. Qed.
Lemma dot_laws u v w k :
  law (fun c => v3_dot (i64 c) u v) (fun c => v3_dot (i64 c) v u) /\
  law (fun c => v3_len_sq (i64 c) u) (fun c => v3_dot (i64 c) u u) /\
  law (fun c => s <~ v3_add (i64 c) u v ;; v3_dot (i64 c) s w) (fun c => a <~ v3_dot (i64 c) u w ;; b <~ v3_dot (i64 c) v w ;; e_add (i64 c) a b) /\
  law (fun c => s <~ v3_mul (i64 c) u k ;; v3_dot (i64 c) s v) (fun c => a <~ v3_dot (i64 c) u v ;; e_mul (i64 c) k a).
Proof. repeat split_and; laws. Qed.
Lemma cross_laws u v w k :
  law (fun c => v3_cross (i64 c) u v) (fun c => x <~ v3_cross (i64 c) v u ;; v3_neg (i64 c) x) /\
  law (fun c => v3_cross (i64 c) u u) (fun _ => Done (V3 0 0 0)) /\
  law (fun c => s <~ v3_add (i64 c) u v ;; v3_cross (i64 c) s w) (fun c => a <~ v3_cross (i64 c) u w ;; b <~ v3_cross (i64 c) v w ;; v3_add (i64 c) a b) /\
  law (fun c => s <~ v3_mul (i64 c) u k ;; v3_cross (i64 c) s v) (fun c => a <~ v3_cross (i64 c) u v ;; v3_mul (i64 c) a k) /\
  law (fun c => x <~ v3_cross (i64 c) u v ;; v3_dot (i64 c) u x) (fun _ => Done 0) /\
  law (fun c => x <~ v3_cross (i64 c) u v ;; v3_dot (i64 c) x w) (fun c => x <~ v3_cross (i64 c) v w ;; v3_dot (i64 c) x u).
Proof. repeat split_and; laws. Qed.
Lemma lagrange_laws u v w :
  law (fun c => x <~ v3_cross (i64 c) u v ;; v3_len_sq (i64 c) x)
      (fun c => a <~ v3_len_sq (i64 c) u ;; b <~ v3_len_sq (i64 c) v ;; d <~ v3_dot (i64 c) u v ;; p <~ e_mul (i64 c) a b ;; q <~ e_mul (i64 c) d d ;; e_sub (i64 c) p q) /\
  law (fun c => x <~ v3_cross (i64 c) v w ;; v3_cross (i64 c) u x)
      (fun c => a <~ v3_dot (i64 c) u w ;; b <~ v3_dot (i64 c) u v ;; p <~ v3_mul (i64 c) v a ;; q <~ v3_mul (i64 c) w b ;; v3_sub (i64 c) p q).
Proof. repeat split_and; laws. Qed.
Lemma normal_laws (u v w : Normal3 Z) j k :
  (in_range (nx u) = true /\ in_range (ny u) = true /\ in_range (nz u) = true ->
   law (fun c => s <~ n3_add (i64 c) u v ;; n3_sub (i64 c) s v) (fun _ => Done u) /\
   law (fun c => s <~ n3_sub (i64 c) u v ;; n3_add (i64 c) s v) (fun _ => Done u) /\
   law (fun c => n <~ n3_neg (i64 c) u ;; n3_neg (i64 c) n) (fun _ => Done u)) /\
  law (fun c => s <~ n3_add (i64 c) u v ;; n3_add (i64 c) s w) (fun c => s <~ n3_add (i64 c) v w ;; n3_add (i64 c) u s) /\
  law (fun c => n3_sub (i64 c) u v) (fun c => n <~ n3_neg (i64 c) v ;; n3_add (i64 c) u n) /\
  law (fun c => s <~ n3_add (i64 c) u v ;; n3_mul (i64 c) s k) (fun c => a <~ n3_mul (i64 c) u k ;; b <~ n3_mul (i64 c) v k ;; n3_add (i64 c) a b) /\
  law (fun c => a <~ n3_mul (i64 c) u j ;; n3_mul (i64 c) a k) (fun c => s <~ e_mul (i64 c) j k ;; n3_mul (i64 c) u s) /\
  law (fun c => s <~ n3_add (i64 c) u v ;; n3_dot (i64 c) s w) (fun c => a <~ n3_dot (i64 c) u w ;; b <~ n3_dot (i64 c) v w ;; e_add (i64 c) a b) /\
  law (fun c => n3_cross (i64 c) u v) (fun c => x <~ n3_cross (i64 c) v u ;; n3_neg (i64 c) x) /\
  law (fun c => x <~ n3_cross (i64 c) u v ;; n3_dot (i64 c) u x) (fun _ => Done 0) /\
  law (fun c => x <~ n3_cross (i64 c) u v ;; n3_len_sq (i64 c) x)
      (fun c => a <~ n3_len_sq (i64 c) u ;; b <~ n3_len_sq (i64 c) v ;; d <~ n3_dot (i64 c) u v ;; p <~ e_mul (i64 c) a b ;; q <~ e_mul (i64 c) d d ;; e_sub (i64 c) p q).
Proof. split; [intros (? & ? & ?); destruct u as [a1 a2 a3]; cbn [nx ny nz] in *|]; repeat split_and; laws. Qed.

(** ** What fails *)
Lemma arith_true z w : arith true z = Done w -> w = z.
Proof. unfold arith. destruct (in_range z); congruence. Qed.
Lemma dot_true u v d : v3_dot (i64 true) u v = Done d -> d = vx u * vx v + vy u * vy v + vz u * vz v.
Proof.
  unfold v3_dot, lift2. cbn [e_add e_mul i64 obind].
  destruct (arith true (vx u * vx v)) eqn:A; try discriminate. cbn [obind]. destruct (arith true (vy u * vy v)) eqn:B; try discriminate. cbn [obind].
  destruct (arith true (_ + _)) eqn:C; try discriminate. cbn [obind]. destruct (arith true (vz u * vz v)) eqn:D; try discriminate. cbn [obind].
  intros E. apply arith_true in A, B, C, D, E. congruence.
Qed.
Lemma neg_true u w : v3_neg (i64 true) u = Done w -> w = V3 (- vx u) (- vy u) (- vz u).
Proof.
  unfold v3_neg, mk3. cbn [e_neg i64].
  destruct (arith true (- vx u)) eqn:A; try discriminate. destruct (arith true (- vy u)) eqn:B; try discriminate. destruct (arith true (- vz u)) eqn:C; try discriminate.
  cbn. intros E. apply arith_true in A, B, C. congruence.
Qed.
Lemma face_true u v w d : v3_face_forward (i64 true) u v = Done w -> v3_dot (i64 true) w v = Done d ->
  0 <= d /\ (w = u \/ w = V3 (- vx u) (- vy u) (- vz u)).
Proof.
  unfold v3_face_forward. destruct (v3_dot (i64 true) u v) as [e| |] eqn:A; cbn [obind]; try discriminate. cbn [e_lt e_from_int i64].
  destruct (e <? 0) eqn:L; intros H D.
  - apply neg_true in H. subst w. apply dot_true in A, D. cbn [vx vy vz] in D. apply Z.ltb_lt in L. split; [lia|auto].
  - injection H as <-. rewrite A in D. injection D as ->. apply Z.ltb_ge in L. auto.
Qed.
Lemma face_wraps : exists u v w d, vec_range u /\ vec_range v /\ v3_face_forward (i64 false) u v = Done w /\ v3_dot (i64 false) w v = Done d /\ d < 0.
Proof. exists (V3 int_min 0 0), (V3 1 0 0), (V3 int_min 0 0), int_min. repeat split; try (intros []; reflexivity). Qed.
Lemma cancel_wraps : exists u k s w, vec_range u /\ k <> 0 /\ v3_mul (i64 false) u k = Done s /\ v3_div (i64 false) s k = Done w /\ w <> u.
Proof. exists (V3 (2 ^ 62) 0 0), 4, (V3 0 0 0), (V3 0 0 0). repeat split; try (intros []; reflexivity); discriminate. Qed.
Lemma cancel_true u k s w : k <> 0 -> vec_range u -> v3_mul (i64 true) u k = Done s -> v3_div (i64 true) s k = Done w -> w = u.
Proof.
  intros K R. pose proof (R AX) as H0. pose proof (R AY) as H1. pose proof (R AZ) as H2. clear R. destruct u as [a b c]. cbn [vcoord vx vy vz] in *. unfold v3_mul, v3_div, mk3, lift2. cbn [obind vx vy vz].
  cbn [e_mul e_div i64].
  destruct (arith true (k * a)) eqn:A; try discriminate. destruct (arith true (k * b)) eqn:B; try discriminate. destruct (arith true (k * c)) eqn:C; try discriminate.
  cbn [obind]. intros E. injection E as <-. apply arith_true in A, B, C. subst. cbn [vx vy vz].
  apply Z.eqb_neq in K as K'. rewrite K'. rewrite !(Z.mul_comm k), !Z.quot_mul by exact K. 
  rewrite H0, H1, H2. cbn. congruence.
Qed.
Lemma zero_wraps : exists u, vec_range u /\ u <> V3 0 0 0 /\ v3_len_sq (i64 false) u = Done 0.
Proof. exists (V3 (2 ^ 32) 0 0). repeat split; try (intros []; reflexivity); discriminate. Qed.
Lemma zero_true u : v3_len_sq (i64 true) u = Done 0 -> u = V3 0 0 0.
Proof. intros H. apply (dot_true u u) in H. destruct u as [x y z]; cbn in H. assert (x = 0 /\ y = 0 /\ z = 0) as (-> & -> & ->) by nia. reflexivity. Qed.
