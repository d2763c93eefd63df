(** Proofs about C109, the part about reals: how one round of Gauss-Jordan elimination with full pivoting passes on errors. *)
From Coq Require Import ZArith Reals Lia Lra.
From Verif Require Import Base Elem GeoModel MatModel MatSpec MatThms InvThms FloatInv.
Local Open Scope R_scope.

Notation sumr := (sum4 Rplus).
Notation act ip c := (vget ip c =? 0)%N.
Lemma act_cases ip c : binary ip -> (act ip c = true /\ vget ip c = 0%N) \/ (act ip c = false /\ vget ip c = 1%N).
Proof. intros B. destruct (B c) as [H|H]; rewrite H; [now left|now right]. Qed.

(** Sums over the four columns, by kind of column. *)
Lemma count ip n F a b : binary ip -> total ip = n -> (forall c, F c <= if act ip c then a else b) ->
  sumr F <= IZR (4 - Z.of_N n) * a + IZR (Z.of_N n) * b.
Proof.
  intros B T H. unfold total in T. pose proof (H I0) as H0. pose proof (H I1) as H1. pose proof (H I2) as H2. pose proof (H I3) as H3. unfold sum4.
  destruct (B I0) as [X0|X0], (B I1) as [X1|X1], (B I2) as [X2|X2], (B I3) as [X3|X3]; rewrite X0, X1, X2, X3 in *; cbn in T; subst n;
    cbn [N.eqb Pos.eqb] in H0, H1, H2, H3;
    match goal with |- context [IZR (4 - Z.of_N ?n)] =>
      let k := eval vm_compute in (4 - Z.of_N n)%Z in let l := eval vm_compute in (Z.of_N n) in
      change (4 - Z.of_N n)%Z with k; change (Z.of_N n) with l end; lra.
Qed.
Lemma sum_abs F : Rabs (sumr F) <= sumr (fun c => Rabs (F c)).
Proof.
  unfold sum4. eapply Rle_trans; [apply Rabs_triang|]. apply Rplus_le_compat_r. eapply Rle_trans; [apply Rabs_triang|].
  apply Rplus_le_compat_r. apply Rabs_triang.
Qed.
Lemma sum_le F G : (forall c, F c <= G c) -> sumr F <= sumr G.
Proof. intros H. unfold sum4. pose proof (H I0). pose proof (H I1). pose proof (H I2). pose proof (H I3). lra. Qed.

(** The system of equations the working matrix stands for, and how far a pair of vectors is from solving it. *)
Definition tt ip (x y : ix -> R) c : R := if act ip c then x c else - y c.
Definition ss ip (x y : ix -> R) r : R := if act ip r then - y r else x r.
Definition res (w : ix -> ix -> R) ip x y r : R := sumr (fun c => w r c * tt ip x y c) + ss ip x y r.

Lemma total_set ip q n : vget ip q = 0%N -> total ip = n -> total (vset ip q 1%N) = (n + 1)%N.
Proof. intros Hq Ht. unfold total in Ht |- *. rewrite !vget_vset. destruct q; cbn [ix_eqb]; rewrite ?Hq in Ht; lia. Qed.
Lemma binary_set ip q : binary ip -> binary (vset ip q 1%N).
Proof. intros B k. rewrite vget_vset. destruct (ix_eqb k q); [now right|apply B]. Qed.

Section Step.
Variables (w : ix -> ix -> R) (ip : vec4 N) (p q : ix).
Hypothesis (Hb : binary ip) (Hp : vget ip p = 0%N) (Hq : vget ip q = 0%N).
Let v r c := w (sw p q r) c.
Let z k := (if ix_eqb k q then 1 else w p k) / w p q.
Let a j k := if ix_eqb k q then 0 else v j k.
(** What one round would give in exact arithmetic. *)
Definition exact_step j k : R := if ix_eqb j q then z k else a j k - z k * v j q.
Let ip' := vset ip q 1%N.
Lemma act_sw r : vget ip (sw p q r) = vget ip r.
Proof.
  unfold sw. destruct (ix_eqb r p) eqn:Q; [apply ix_eqb_eq in Q; subst; congruence|].
  destruct (ix_eqb r q) eqn:Q2; [apply ix_eqb_eq in Q2; subst; congruence|auto].
Qed.
Lemma used_sw r : vget ip r <> 0%N -> sw p q r = r.
Proof.
  intros Hi. unfold sw. destruct (ix_eqb r p) eqn:Q; [apply ix_eqb_eq in Q; subst; congruence|].
  destruct (ix_eqb r q) eqn:Q2; [apply ix_eqb_eq in Q2; subst; congruence|auto].
Qed.
Lemma tt_sw x y k : tt ip x (fun c => y (sw p q c)) k = tt ip x y k.
Proof. unfold tt. destruct (act ip k) eqn:Q; auto. rewrite used_sw; auto. now apply N.eqb_neq. Qed.
Lemma res_sw x y r : res v ip x (fun c => y (sw p q c)) r = res w ip x y (sw p q r).
Proof.
  unfold res, sum4, v. rewrite !tt_sw. f_equal. unfold ss. rewrite act_sw. destruct (act ip r) eqn:Q; auto.
  rewrite used_sw; auto. now apply N.eqb_neq.
Qed.
Lemma act_new c : act ip' c = if ix_eqb c q then false else act ip c.
Proof. unfold ip'. rewrite vget_vset. now destruct (ix_eqb c q). Qed.
Lemma res_pivot x y : w p q <> 0 ->
  res exact_step ip' x y q = res v ip x y q / w p q /\
  forall j, j <> q -> res exact_step ip' x y j = res v ip x y j - v j q / w p q * res v ip x y q.
Proof.
  intros NZ. assert (Vq : forall k, v q k = w p k) by (intros k; unfold v; now rewrite sw_r).
  assert (Tq : tt ip' x y q = ss ip x y q) by (unfold tt, ss; rewrite act_new, ix_eqb_refl, Hq; reflexivity).
  assert (Sq : ss ip' x y q = tt ip x y q) by (unfold tt, ss; rewrite act_new, ix_eqb_refl, Hq; reflexivity).
  assert (Tj : forall j, j <> q -> tt ip' x y j = tt ip x y j).
  { intros j N. apply ix_eqb_neq in N. unfold tt. now rewrite act_new, N. }
  assert (Sj : forall j, j <> q -> ss ip' x y j = ss ip x y j).
  { intros j N. apply ix_eqb_neq in N. unfold ss. now rewrite act_new, N. }
  split.
  - unfold res. rewrite Sq. unfold sum4, exact_step, z. rewrite ix_eqb_refl, !Vq. revert NZ Tq Tj.
    generalize (tt ip' x y), (tt ip x y), (ss ip x y). intros t' t s NZ Tq Tj.
    destruct q; cbn [ix_eqb] in *; rewrite ?Tq, ?(Tj I0), ?(Tj I1), ?(Tj I2), ?(Tj I3) by discriminate; field; exact NZ.
  - intros j N. unfold res. rewrite (Sj j N). pose proof N as N'. apply ix_eqb_neq in N'. unfold sum4, exact_step, z, a. rewrite N', !Vq. revert NZ Tq Tj.
    generalize (tt ip' x y), (tt ip x y), (ss ip x y). intros t' t s NZ Tq Tj. clear Sq Sj Vq.
    destruct q; cbn [ix_eqb] in *; rewrite ?Tq, ?(Tj I0), ?(Tj I1), ?(Tj I2), ?(Tj I3) by discriminate; field; exact NZ.
Qed.

(** ** Bounds before and after *)
Variables (w' : ix -> ix -> R) (u K : R) (n : N).
Hypothesis (Ht : total ip = n).
Hypothesis (Hu : 0 < u <= 1 / 16777216) (HK : 1 / 4 <= K).
Notation e := (1 / 1000000).
Hypothesis Eq : forall k, Rabs (w' q k - z k) <= u * (21 / 10 * Rabs (z k) + e).
Hypothesis Ej : forall j k, j <> q -> Rabs (w' j k - (a j k - z k * v j q)) <= u * (Rabs (a j k) + 42 / 10 * Rabs (z k * v j q) + e * (1 + Rabs (v j q))).
Variables (m ma mb c h : R).
Hypothesis (Pm : forall j k, vget ip j = 0%N -> vget ip k = 0%N -> Rabs (w j k) <= Rabs (w p q)) (Hm : Rabs (w p q) <= m).
Hypothesis (Ha : forall j k, vget ip j = 1%N -> vget ip k = 0%N -> Rabs (w j k) <= ma) (Ha0 : 0 <= ma).
Hypothesis (Hbb : forall j k, vget ip j = 0%N -> vget ip k = 1%N -> Rabs (w j k) <= mb) (Hb0 : 0 <= mb).
Hypothesis (Hc : forall j k, vget ip j = 1%N -> vget ip k = 1%N -> Rabs (w j k) <= c * K) (Hc0 : 0 <= c).
Hypothesis (Hh : 1 <= h * K * Rabs (w p q)) (Hh0 : 0 <= h).

Lemma piv_pos : 0 < Rabs (w p q).
Proof. destruct (Req_dec (w p q) 0) as [Z|Z]; [rewrite Z, Rabs_R0 in Hh; lra|now apply Rabs_pos_lt]. Qed.
Lemma piv_nz : w p q <> 0. Proof. intros Z. pose proof piv_pos as P. rewrite Z, Rabs_R0 in P. lra. Qed.
Lemma quot_le x b : Rabs x <= b * Rabs (w p q) -> Rabs (x / w p q) <= b.
Proof.
  intros H. pose proof piv_pos as P. unfold Rdiv. rewrite Rabs_mult, Rabs_inv. apply (Rmult_le_reg_r (Rabs (w p q))); [assumption|].
  rewrite Rmult_assoc, Rinv_l by lra. lra.
Qed.
Lemma inv_le : Rabs (1 / w p q) <= h * K.
Proof. apply quot_le. rewrite Rabs_R1. exact Hh. Qed.
Lemma z_act k : vget ip k = 0%N -> k <> q -> Rabs (z k) <= 1.
Proof. intros Hk N. unfold z. apply ix_eqb_neq in N. rewrite N. apply quot_le. rewrite Rmult_1_l. now apply Pm. Qed.
Lemma z_used k : vget ip k = 1%N -> Rabs (z k) <= mb * h * K.
Proof.
  intros Hk. unfold z. assert (N : k <> q) by (intros ->; congruence). apply ix_eqb_neq in N. rewrite N.
  apply quot_le. apply Rle_trans with (mb * 1); [rewrite Rmult_1_r; now apply Hbb|]. replace (mb * h * K * Rabs (w p q)) with (mb * (h * K * Rabs (w p q))) by ring.
  now apply Rmult_le_compat_l.
Qed.
Lemma z_q : Rabs (z q) <= h * K. Proof. unfold z. rewrite ix_eqb_refl. exact inv_le. Qed.
Lemma v_act j : vget ip j = 0%N -> Rabs (v j q) <= Rabs (w p q).
Proof. intros Hj. unfold v. apply Pm; [now rewrite act_sw|assumption]. Qed.
Lemma v_used j : vget ip j = 1%N -> Rabs (v j q) <= ma.
Proof. intros Hj. unfold v. rewrite used_sw by congruence. now apply Ha. Qed.
Lemma mul_le x y b d : Rabs x <= b -> Rabs y <= d -> Rabs (x * y) <= b * d.
Proof. intros. rewrite Rabs_mult. apply Rmult_le_compat; auto using Rabs_pos. Qed.
Lemma zv_ratio k j b : vget ip j = 0%N -> Rabs (if ix_eqb k q then 1 else w p k) <= b -> Rabs (z k * v j q) <= b.
Proof.
  intros Hj Hw. unfold z. replace ((if ix_eqb k q then 1 else w p k) / w p q * v j q) with ((if ix_eqb k q then 1 else w p k) * (v j q / w p q)) by (unfold Rdiv; ring).
  rewrite <- (Rmult_1_r b). apply mul_le; [assumption|]. apply quot_le. rewrite Rmult_1_l. now apply v_act.
Qed.
Lemma m_pos : 0 <= m. Proof. pose proof piv_pos. lra. Qed.

(** Sizes of the exact entries, by kind: [A] of the entry kept, [Z] of the product subtracted. *)
Lemma hK0 : 0 <= h * K. Proof. apply Rmult_le_pos; lra. Qed.
Definition kept jact kact knew : R := if knew : bool then 0 else if jact : bool then if kact : bool then m else mb else if kact then ma else c * K.
Definition taken jact kact knew : R :=
  if jact : bool then if knew : bool then 1 else if kact : bool then m else mb
  else if knew then h * K * ma else if kact then ma else mb * h * K * ma.
Lemma kept_le j k : Rabs (a j k) <= kept (act ip j) (act ip k) (ix_eqb k q).
Proof.
  unfold a, kept. destruct (ix_eqb k q); [rewrite Rabs_R0; lra|]. unfold v.
  destruct (act_cases ip j Hb) as [[-> Xj]|[-> Xj]], (act_cases ip k Hb) as [[-> Xk]|[-> Xk]].
  - eapply Rle_trans; [apply Pm; [now rewrite act_sw|assumption]|assumption].
  - apply Hbb; [now rewrite act_sw|assumption].
  - apply Ha; [now rewrite act_sw|assumption].
  - apply Hc; [now rewrite act_sw|assumption].
Qed.
Lemma taken_le j k : Rabs (z k * v j q) <= taken (act ip j) (act ip k) (ix_eqb k q).
Proof.
  unfold taken. destruct (act_cases ip j Hb) as [[-> Xj]|[-> Xj]].
  - apply zv_ratio; [assumption|]. destruct (ix_eqb k q) eqn:Q; [rewrite Rabs_R1; lra|].
    destruct (act_cases ip k Hb) as [[-> Xk]|[-> Xk]]; [eapply Rle_trans; [now apply Pm|assumption]|now apply Hbb].
  - destruct (ix_eqb k q) eqn:Q.
    + apply ix_eqb_eq in Q. subst k. apply mul_le; [apply z_q|now apply v_used].
    + destruct (act_cases ip k Hb) as [[-> Xk]|[-> Xk]].
      * rewrite <- (Rmult_1_l ma). apply mul_le; [apply z_act; [assumption|now apply ix_eqb_neq]|now apply v_used].
      * apply mul_le; [now apply z_used|now apply v_used].
Qed.
Definition vmax jact : R := if jact : bool then m else ma.
Lemma v_le j : Rabs (v j q) <= vmax (act ip j).
Proof.
  unfold vmax. destruct (act_cases ip j Hb) as [[-> Xj]|[-> Xj]]; [eapply Rle_trans; [now apply v_act|assumption]|now apply v_used].
Qed.
Definition zmax kact knew : R := if knew : bool then h * K else if kact : bool then 1 else mb * h * K.
Lemma z_le k : Rabs (z k) <= zmax (act ip k) (ix_eqb k q).
Proof.
  unfold zmax. destruct (ix_eqb k q) eqn:Q; [apply ix_eqb_eq in Q; subst; apply z_q|].
  destruct (act_cases ip k Hb) as [[-> Xk]|[-> Xk]]; [apply z_act; [assumption|now apply ix_eqb_neq]|now apply z_used].
Qed.

(** Entries after the round. *)
Lemma size_q k : Rabs (w' q k) <= zmax (act ip k) (ix_eqb k q) * (1 + e / 4) + e / 4.
Proof.
  replace (w' q k) with ((w' q k - z k) + z k) by ring. eapply Rle_trans; [apply Rabs_triang|].
  pose proof (Eq k) as H. pose proof (z_le k) as Z. pose proof (Rabs_pos (z k)). set (t := zmax _ _) in *. set (zk := Rabs (z k)) in *. nra.
Qed.
Lemma size_j j k : j <> q -> let A := kept (act ip j) (act ip k) (ix_eqb k q) in let Z := taken (act ip j) (act ip k) (ix_eqb k q) in
  Rabs (w' j k) <= A + Z + e * (A + Z + vmax (act ip j) + 1) / 2.
Proof.
  intros N A Z. replace (w' j k) with ((w' j k - (a j k - z k * v j q)) + (a j k - z k * v j q)) by ring. eapply Rle_trans; [apply Rabs_triang|].
  pose proof (Ej j k N) as H. pose proof (kept_le j k) as Hk. pose proof (taken_le j k) as Hz. pose proof (v_le j) as Hv. fold A in Hk. fold Z in Hz.
  assert (T : Rabs (a j k - z k * v j q) <= Rabs (a j k) + Rabs (z k * v j q)).
  { unfold Rminus. eapply Rle_trans; [apply Rabs_triang|]. rewrite Rabs_Ropp. lra. }
  pose proof (Rabs_pos (a j k)). pose proof (Rabs_pos (z k * v j q)). pose proof (Rabs_pos (v j q)).
  set (s1 := Rabs (a j k)) in *. set (s2 := Rabs (z k * v j q)) in *. set (s3 := Rabs (v j q)) in *. set (V := vmax _) in *.
  assert (u * (s1 + 42 / 10 * s2 + e * (1 + s3)) <= 1 / 16777216 * (A + 42 / 10 * Z + e * (1 + V))).
  { apply Rmult_le_compat; try lra. }
  lra.
Qed.

Variables (m' a' b' c' : R).
Hypothesis (Gm : 2 * m + e * (1 + m + m) <= m').
Hypothesis (Ga : 2 * ma + e * (1 + ma + ma) <= a') (Ga1 : 1 + e <= a').
Hypothesis (Gb : 2 * mb + e * (1 + m + mb) <= b') (Gb1 : 1 + e * (1 + m + 1) <= b').
Hypothesis (Gc : (c + mb * h * ma) * (1 + e) + e * (4 * (1 + ma)) <= c') (Gc1 : h * ma * (1 + e) + e * (4 * (1 + ma)) <= c')
  (Gc2 : mb * h * (1 + e) + 4 * e <= c') (Gc3 : h * (1 + e) + 4 * e <= c').
Lemma cK x g : 0 <= g -> x + 4 * g <= c' -> x * K + g <= c' * K.
Proof. intros G H. assert ((x + 4 * g) * K <= c' * K) by (apply Rmult_le_compat_r; lra). nra. Qed.
Lemma new_aa j k : vget ip' j = 0%N -> vget ip' k = 0%N -> Rabs (w' j k) <= m'.
Proof.
  pose proof m_pos as MP. intros Xj Xk. apply N.eqb_eq in Xj, Xk. rewrite act_new in Xj, Xk. destruct (ix_eqb j q) eqn:Qj; [discriminate|]. destruct (ix_eqb k q) eqn:Qk; [discriminate|].
  apply ix_eqb_neq in Qj. pose proof (size_j j k Qj) as S. rewrite Xj, Xk, Qk in S. cbn [kept taken vmax] in S. lra.
Qed.
Lemma new_pa j k : vget ip' j = 1%N -> vget ip' k = 0%N -> Rabs (w' j k) <= a'.
Proof.
  pose proof m_pos as MP. intros Xj Xk. apply N.eqb_eq in Xk. rewrite act_new in Xk. destruct (ix_eqb k q) eqn:Qk; [discriminate|].
  assert (Yj : act ip' j = false) by (now rewrite Xj). rewrite act_new in Yj. destruct (ix_eqb j q) eqn:Qj.
  - apply ix_eqb_eq in Qj. subst j. pose proof (size_q k) as S. rewrite Xk, Qk in S. cbn [zmax] in S. lra.
  - apply ix_eqb_neq in Qj. pose proof (size_j j k Qj) as S. rewrite Yj, Xk, Qk in S. cbn [kept taken vmax] in S. lra.
Qed.
Lemma new_ap j k : vget ip' j = 0%N -> vget ip' k = 1%N -> Rabs (w' j k) <= b'.
Proof.
  pose proof m_pos as MP. intros Xj Xk. apply N.eqb_eq in Xj. rewrite act_new in Xj. destruct (ix_eqb j q) eqn:Qj; [discriminate|].
  assert (Yk : act ip' k = false) by (now rewrite Xk). rewrite act_new in Yk. apply ix_eqb_neq in Qj. pose proof (size_j j k Qj) as S. rewrite Xj in S.
  destruct (ix_eqb k q) eqn:Qk; [cbn [kept taken vmax] in S|rewrite Yk in S; cbn [kept taken vmax] in S]; lra.
Qed.
Lemma new_pp j k : vget ip' j = 1%N -> vget ip' k = 1%N -> Rabs (w' j k) <= c' * K.
Proof.
  pose proof m_pos as MP. intros Xj Xk. assert (Yj : act ip' j = false) by (now rewrite Xj). assert (Yk : act ip' k = false) by (now rewrite Xk).
  rewrite act_new in Yj, Yk. pose proof hK0.
  assert (0 <= mb * h) by (now apply Rmult_le_pos). assert (0 <= h * ma) by (now apply Rmult_le_pos). assert (0 <= mb * h * ma) by (now apply Rmult_le_pos).
  destruct (ix_eqb j q) eqn:Qj.
  - apply ix_eqb_eq in Qj. subst j. pose proof (size_q k) as S. destruct (ix_eqb k q) eqn:Qk; [|rewrite Yk in S]; cbn [zmax] in S.
    + pose proof (cK (h * (1 + e / 4)) (e / 4)). lra.
    + pose proof (cK (mb * h * (1 + e / 4)) (e / 4)). lra.
  - apply ix_eqb_neq in Qj. pose proof (size_j j k Qj) as S. rewrite Yj in S. destruct (ix_eqb k q) eqn:Qk; [|rewrite Yk in S]; cbn [kept taken vmax] in S.
    + pose proof (cK (h * ma * (1 + e / 2)) (e / 2 * (1 + ma))). nra.
    + pose proof (cK ((c + mb * h * ma) * (1 + e / 2)) (e / 2 * (1 + ma))). nra.
Qed.

(** Residuals after the round. *)
Variables (x y : ix -> R) (X Y r s : R).
Hypothesis (Bx : forall i, Rabs (x i) <= X) (By : forall i, Rabs (y i) <= Y).
Hypothesis (Hr : forall i, vget ip i = 0%N -> Rabs (res w ip x y i) <= u * r * (X + Y)) (Hr0 : 0 <= r).
Hypothesis (Hs : forall i, vget ip i = 1%N -> Rabs (res w ip x y i) <= u * s * K * (X + Y)) (Hs0 : 0 <= s).
Let y1 i := y (sw p q i).
Lemma X0 : 0 <= X. Proof. eapply Rle_trans; [apply Rabs_pos|apply (Bx I0)]. Qed.
Lemma Y0 : 0 <= Y. Proof. eapply Rle_trans; [apply Rabs_pos|apply (By I0)]. Qed.
Lemma new_res i (g : ix -> R) (al be M : R) : (forall k, Rabs (w' i k - exact_step i k) <= u * g k) ->
  (forall k, vget ip k = 0%N -> k <> q -> g k <= al) -> (forall k, vget ip k = 1%N -> g k <= be) -> g q <= be ->
  IZR (3 - Z.of_N n) * al <= M -> IZR (Z.of_N n + 1) * be <= M ->
  Rabs (res w' ip' x y1 i) <= Rabs (res exact_step ip' x y1 i) + u * M * (X + Y).
Proof.
  intros Hg Hal Hbe Hgq M1 M2. pose proof X0. pose proof Y0.
  assert (B' : binary ip') by (now apply binary_set).
  assert (T' : total ip' = (n + 1)%N).
  { exact (total_set ip q n Hq Ht). }
  assert (D : res w' ip' x y1 i - res exact_step ip' x y1 i = sumr (fun k => (w' i k - exact_step i k) * tt ip' x y1 k)) by (unfold res, sum4; ring).
  replace (res w' ip' x y1 i) with (res exact_step ip' x y1 i + (res w' ip' x y1 i - res exact_step ip' x y1 i)) by ring.
  eapply Rle_trans; [apply Rabs_triang|]. apply Rplus_le_compat_l. rewrite D. eapply Rle_trans; [apply sum_abs|].
  eapply Rle_trans; [apply (count ip' (n + 1)%N _ (u * al * X) (u * be * Y) B' T')|].
  - intros k. cbn beta. rewrite Rabs_mult, act_new. pose proof (Hg k) as G. pose proof (Rabs_pos (w' i k - exact_step i k)) as P0.
    assert (Ty : Rabs (- y1 k) <= Y) by (rewrite Rabs_Ropp; apply By).
    destruct (ix_eqb k q) eqn:Q.
    + apply ix_eqb_eq in Q. subst k. unfold tt. rewrite act_new, ix_eqb_refl.
      apply Rmult_le_compat; [assumption|apply Rabs_pos| |assumption]. eapply Rle_trans; [exact G|]. apply Rmult_le_compat_l; [lra|assumption].
    + pose proof Q as Q'. apply ix_eqb_neq in Q'. unfold tt. rewrite act_new, Q. destruct (act_cases ip k Hb) as [[-> Xk]|[-> Xk]].
      * apply Rmult_le_compat; [assumption|apply Rabs_pos| |apply Bx]. eapply Rle_trans; [exact G|]. apply Rmult_le_compat_l; [lra|now apply Hal].
      * apply Rmult_le_compat; [assumption|apply Rabs_pos| |assumption]. eapply Rle_trans; [exact G|]. apply Rmult_le_compat_l; [lra|now apply Hbe].
  - replace (4 - Z.of_N (n + 1))%Z with (3 - Z.of_N n)%Z by lia. replace (Z.of_N (n + 1)) with (Z.of_N n + 1)%Z by lia.
    assert (IZR (3 - Z.of_N n) * al * (u * X) <= M * (u * X)) by (apply Rmult_le_compat_r; [nra|assumption]).
    assert (IZR (Z.of_N n + 1) * be * (u * Y) <= M * (u * Y)) by (apply Rmult_le_compat_r; [nra|assumption]). lra.
Qed.
Lemma res_v_act i : vget ip i = 0%N -> Rabs (res v ip x y1 i) <= u * r * (X + Y).
Proof. intros H. unfold y1. rewrite res_sw. apply Hr. now rewrite act_sw. Qed.
Lemma res_v_used i : vget ip i = 1%N -> Rabs (res v ip x y1 i) <= u * s * K * (X + Y).
Proof. intros H. unfold y1. rewrite res_sw. apply Hs. now rewrite act_sw. Qed.
Let N0 := X + Y.
Variables (r' s' M1 M2 M3 : R).
Hypothesis (Gr : 2 * r + M1 <= r') (Gr1 : IZR (3 - Z.of_N n) * (52 / 10 * m + e * (1 + m)) <= M1)
  (Gr2 : IZR (Z.of_N n + 1) * (52 / 10 * mb + e * (1 + m)) <= M1) (Gr3 : IZR (Z.of_N n + 1) * (42 / 10 + e * (1 + m)) <= M1).
Hypothesis (Gs : h * r + M2 <= s') (Gs1 : IZR (3 - Z.of_N n) * (4 * (21 / 10 + e)) <= M2)
  (Gs2 : IZR (Z.of_N n + 1) * (21 / 10 * (mb * h) + 4 * e) <= M2) (Gs3 : IZR (Z.of_N n + 1) * (21 / 10 * h + 4 * e) <= M2).
Hypothesis (Gt : s + ma * h * r + M3 <= s') (Gt1 : IZR (3 - Z.of_N n) * (4 * (52 / 10 * ma + e * (1 + ma))) <= M3)
  (Gt2 : IZR (Z.of_N n + 1) * (c + 42 / 10 * (mb * h * ma) + 4 * (e * (1 + ma))) <= M3)
  (Gt3 : IZR (Z.of_N n + 1) * (42 / 10 * (h * ma) + 4 * (e * (1 + ma))) <= M3).
Hypothesis Hn : (n < 4)%N.
Lemma n_pos : 0 <= IZR (Z.of_N n + 1). Proof. apply IZR_le. lia. Qed.
Lemma n_pos' : 0 <= IZR (3 - Z.of_N n). Proof. apply IZR_le. lia. Qed.
Lemma N0_pos : 0 <= N0. Proof. unfold N0. pose proof X0. pose proof Y0. lra. Qed.
Lemma final_res_act i : vget ip' i = 0%N -> Rabs (res w' ip' x y1 i) <= u * r' * N0.
Proof.
  intros Xi. apply N.eqb_eq in Xi. rewrite act_new in Xi. destruct (ix_eqb i q) eqn:Q; [discriminate|]. pose proof Q as Q'. apply ix_eqb_neq in Q'.
  apply N.eqb_eq in Xi. pose proof m_pos. pose proof N0_pos. pose proof n_pos. pose proof n_pos'.
  eapply Rle_trans; [apply (new_res i (fun k => Rabs (a i k) + 42 / 10 * Rabs (z k * v i q) + e * (1 + Rabs (v i q)))
     (52 / 10 * m + e * (1 + m)) (Rmax (52 / 10 * mb) (42 / 10) + e * (1 + m)) M1)|].
  - intros k. unfold exact_step. rewrite Q. now apply Ej.
  - intros k Xk Nk. pose proof (kept_le i k) as A1. pose proof (taken_le i k) as A2. pose proof (v_le i) as A3. rewrite Xi in A1, A2, A3. rewrite Xk in A1, A2.
    apply ix_eqb_neq in Nk. rewrite Nk in A1, A2. cbn [kept taken vmax N.eqb] in A1, A2, A3. lra.
  - intros k Xk. assert (Nk : k <> q) by (intros ->; congruence).
    pose proof (kept_le i k) as A1. pose proof (taken_le i k) as A2. pose proof (v_le i) as A3. rewrite Xi in A1, A2, A3. rewrite Xk in A1, A2.
    apply ix_eqb_neq in Nk. rewrite Nk in A1, A2. cbn [kept taken vmax N.eqb] in A1, A2, A3. pose proof (Rmax_l (52 / 10 * mb) (42 / 10)). lra.
  - pose proof (kept_le i q) as A1. pose proof (taken_le i q) as A2. pose proof (v_le i) as A3. rewrite Xi in A1, A2, A3. rewrite ix_eqb_refl in A1, A2.
    cbn [kept taken vmax N.eqb] in A1, A2, A3. pose proof (Rmax_r (52 / 10 * mb) (42 / 10)). lra.
  - exact Gr1.
  - unfold Rmax. destruct (Rle_dec _ _); assumption.
  - destruct (res_pivot x y1 piv_nz) as [_ Hj]. rewrite (Hj i Q').
    assert (T : Rabs (res v ip x y1 i - v i q / w p q * res v ip x y1 q) <= u * r * N0 + 1 * (u * r * N0)).
    { unfold Rminus. eapply Rle_trans; [apply Rabs_triang|]. rewrite Rabs_Ropp. apply Rplus_le_compat; [now apply res_v_act|].
      apply mul_le; [apply quot_le; rewrite Rmult_1_l; now apply v_act|now apply res_v_act]. }
    fold N0. assert ((2 * r + M1) * (u * N0) <= r' * (u * N0)) by (apply Rmult_le_compat_r; [nra|assumption]). nra.
Qed.
Lemma final_res_used i : vget ip' i = 1%N -> Rabs (res w' ip' x y1 i) <= u * s' * K * N0.
Proof.
  intros Xi. assert (Yi : act ip' i = false) by (now rewrite Xi). rewrite act_new in Yi. pose proof N0_pos. pose proof n_pos. pose proof n_pos'. pose proof hK0.
  assert (UN : 0 <= u * N0) by nra. assert (F : forall g M, IZR (3 - Z.of_N n) * (4 * g) <= M -> 0 <= g -> IZR (3 - Z.of_N n) * g <= M * K).
  { intros g M G G0. assert (IZR (3 - Z.of_N n) * (4 * g) * K <= M * K) by (apply Rmult_le_compat_r; lra).
    assert (IZR (3 - Z.of_N n) * g * 1 <= IZR (3 - Z.of_N n) * g * (4 * K)) by (apply Rmult_le_compat_l; [now apply Rmult_le_pos|lra]). lra. }
  assert (F' : forall x g M, IZR (Z.of_N n + 1) * (x + 4 * g) <= M -> 0 <= g -> IZR (Z.of_N n + 1) * (x * K + g) <= M * K).
  { intros x0 g M G G0. assert (IZR (Z.of_N n + 1) * (x0 + 4 * g) * K <= M * K) by (apply Rmult_le_compat_r; lra).
    assert (IZR (Z.of_N n + 1) * g * 1 <= IZR (Z.of_N n + 1) * g * (4 * K)) by (apply Rmult_le_compat_l; [now apply Rmult_le_pos|lra]). lra. }
  destruct (res_pivot x y1 piv_nz) as [Hqq Hj]. destruct (ix_eqb i q) eqn:Q.
  - apply ix_eqb_eq in Q. subst i.
    eapply Rle_trans; [apply (new_res q (fun k => 21 / 10 * Rabs (z k) + e) (21 / 10 + e) (Rmax (21 / 10 * (mb * h * K) + e) (21 / 10 * (h * K) + e)) (M2 * K))|].
    + intros k. unfold exact_step. rewrite ix_eqb_refl. apply Eq.
    + intros k Xk Nk. pose proof (z_act k Xk Nk). lra.
    + intros k Xk. pose proof (z_used k Xk). eapply Rle_trans; [|apply Rmax_l]. lra.
    + pose proof z_q. eapply Rle_trans; [|apply Rmax_r]. lra.
    + apply F; [exact Gs1|lra].
    + unfold Rmax. destruct (Rle_dec _ _).
      * replace (21 / 10 * (h * K) + e) with (21 / 10 * h * K + e) by ring. apply F'; [exact Gs3|lra].
      * replace (21 / 10 * (mb * h * K) + e) with (21 / 10 * (mb * h) * K + e) by ring. apply F'; [exact Gs2|lra].
    + rewrite Hqq. assert (T : Rabs (res v ip x y1 q / w p q) <= u * r * N0 * (h * K)).
      { replace (res v ip x y1 q / w p q) with (res v ip x y1 q * (1 / w p q)) by (unfold Rdiv; ring).
        apply mul_le; [now apply res_v_act|apply inv_le]. }
      fold N0. assert ((h * r + M2) * (u * N0 * K) <= s' * (u * N0 * K)) by (apply Rmult_le_compat_r; [nra|assumption]). lra.
  - pose proof Q as Q'. apply ix_eqb_neq in Q'. assert (Xi0 : vget ip i = 1%N) by (destruct (Hb i) as [E0|]; [rewrite E0 in Yi; discriminate|assumption]).
    eapply Rle_trans; [apply (new_res i (fun k => Rabs (a i k) + 42 / 10 * Rabs (z k * v i q) + e * (1 + Rabs (v i q)))
      (52 / 10 * ma + e * (1 + ma)) (Rmax ((c + 42 / 10 * (mb * h * ma)) * K + e * (1 + ma)) (42 / 10 * (h * ma) * K + e * (1 + ma))) (M3 * K))|].
    + intros k. unfold exact_step. rewrite Q. now apply Ej.
    + intros k Xk Nk. pose proof (kept_le i k) as A1. pose proof (taken_le i k) as A2. pose proof (v_le i) as A3. rewrite Yi in A1, A2, A3. rewrite Xk in A1, A2.
      apply ix_eqb_neq in Nk. rewrite Nk in A1, A2. cbn [kept taken vmax N.eqb] in A1, A2, A3. lra.
    + intros k Xk. assert (Nk : k <> q) by (intros ->; congruence).
      pose proof (kept_le i k) as A1. pose proof (taken_le i k) as A2. pose proof (v_le i) as A3. rewrite Yi in A1, A2, A3. rewrite Xk in A1, A2.
      apply ix_eqb_neq in Nk. rewrite Nk in A1, A2. cbn [kept taken vmax N.eqb] in A1, A2, A3. eapply Rle_trans; [|apply Rmax_l]. lra.
    + pose proof (kept_le i q) as A1. pose proof (taken_le i q) as A2. pose proof (v_le i) as A3. rewrite Yi in A1, A2, A3. rewrite ix_eqb_refl in A1, A2.
      cbn [kept taken vmax N.eqb] in A1, A2, A3. eapply Rle_trans; [|apply Rmax_r]. lra.
    + apply F; [exact Gt1|lra].
    + unfold Rmax. destruct (Rle_dec _ _); apply F'; try assumption; lra.
    + rewrite (Hj i Q'). assert (T : Rabs (res v ip x y1 i - v i q / w p q * res v ip x y1 q) <= u * s * K * N0 + ma * (h * K) * (u * r * N0)).
      { unfold Rminus. eapply Rle_trans; [apply Rabs_triang|]. rewrite Rabs_Ropp. apply Rplus_le_compat; [now apply res_v_used|].
        apply mul_le; [|now apply res_v_act]. replace (v i q / w p q) with (v i q * (1 / w p q)) by (unfold Rdiv; ring). apply mul_le; [now apply v_used|apply inv_le]. }
      fold N0. assert ((s + ma * h * r + M3) * (u * N0 * K) <= s' * (u * N0 * K)) by (apply Rmult_le_compat_r; [nra|assumption]). lra.
Qed.
End Step.

(** ** Rounds in sequence *)
Notation e6 := (1 / 1000000).
(** How the bounds may grow in one round. *)
Definition grows (n : N) (h m a b c r s m' a' b' c' r' s' M1 M2 M3 : R) : Prop :=
  let k := IZR (3 - Z.of_N n) in let l := IZR (Z.of_N n + 1) in
  ((0 <= m /\ 0 <= a /\ 0 <= b /\ 0 <= c /\ 0 <= r /\ 0 <= s /\ 0 <= h) /\ (n < 4)%N) /\
  (2 * m + e6 * (1 + m + m) <= m' /\ 2 * a + e6 * (1 + a + a) <= a' /\ 1 + e6 <= a' /\
   2 * b + e6 * (1 + m + b) <= b' /\ 1 + e6 * (1 + m + 1) <= b') /\
  ((c + b * h * a) * (1 + e6) + e6 * (4 * (1 + a)) <= c' /\ h * a * (1 + e6) + e6 * (4 * (1 + a)) <= c' /\
   b * h * (1 + e6) + 4 * e6 <= c' /\ h * (1 + e6) + 4 * e6 <= c') /\
  (2 * r + M1 <= r' /\ k * (52 / 10 * m + e6 * (1 + m)) <= M1 /\ l * (52 / 10 * b + e6 * (1 + m)) <= M1 /\ l * (42 / 10 + e6 * (1 + m)) <= M1) /\
  (h * r + M2 <= s' /\ k * (4 * (21 / 10 + e6)) <= M2 /\ l * (21 / 10 * (b * h) + 4 * e6) <= M2 /\ l * (21 / 10 * h + 4 * e6) <= M2) /\
  (s + a * h * r + M3 <= s' /\ k * (4 * (52 / 10 * a + e6 * (1 + a))) <= M3 /\ l * (c + 42 / 10 * (b * h * a) + 4 * (e6 * (1 + a))) <= M3 /\
   l * (42 / 10 * (h * a) + 4 * (e6 * (1 + a))) <= M3) /\
  (0 < 1 - r * 5 / 8192 /\ IZR (4 - Z.of_N n) <= h * (1 - r * 5 / 8192)).

Section Rounds.
Variables (u K : R) (A : ix -> ix -> R).
Hypothesis (Hu : 0 < u <= 1 / 16777216) (HK : 1 / 4 <= K).
Definition img (x : ix -> R) (i : ix) : R := sumr (fun c => A i c * x c).
Record goodw (n : N) (m a b c r s : R) (w : ix -> ix -> R) (ip : vec4 N) (pi : ix -> ix) : Prop := {
  gw_bin : binary ip;
  gw_tot : total ip = n;
  gw_inj : forall i j, pi i = pi j -> i = j;
  gw_aa : forall j k, vget ip j = 0%N -> vget ip k = 0%N -> Rabs (w j k) <= m;
  gw_pa : forall j k, vget ip j = 1%N -> vget ip k = 0%N -> Rabs (w j k) <= a;
  gw_ap : forall j k, vget ip j = 0%N -> vget ip k = 1%N -> Rabs (w j k) <= b;
  gw_pp : forall j k, vget ip j = 1%N -> vget ip k = 1%N -> Rabs (w j k) <= c * K;
  gw_res : forall x X Y, (forall i, Rabs (x i) <= X) -> (forall i, Rabs (img x i) <= Y) ->
    (forall i, vget ip i = 0%N -> Rabs (res w ip x (fun j => img x (pi j)) i) <= u * r * (X + Y)) /\
    (forall i, vget ip i = 1%N -> Rabs (res w ip x (fun j => img x (pi j)) i) <= u * s * K * (X + Y)) }.

(** The errors of the entries computed in one round. *)
Definition errs (w : ix -> ix -> R) p q (w' : ix -> ix -> R) : Prop :=
  (forall k, let z := (if ix_eqb k q then 1 else w p k) / w p q in Rabs (w' q k - z) <= u * (21 / 10 * Rabs z + e6)) /\
  (forall j k, j <> q -> let z := (if ix_eqb k q then 1 else w p k) / w p q in let a := if ix_eqb k q then 0 else w (sw p q j) k in
    let v := w (sw p q j) q in Rabs (w' j k - (a - z * v)) <= u * (Rabs a + 42 / 10 * Rabs (z * v) + e6 * (1 + Rabs v))).
Lemma good_next n h m a b c r s m' a' b' c' r' s' M1 M2 M3 w ip pi p q w' :
  grows n h m a b c r s m' a' b' c' r' s' M1 M2 M3 -> goodw n m a b c r s w ip pi ->
  vget ip p = 0%N -> vget ip q = 0%N -> (forall j k, vget ip j = 0%N -> vget ip k = 0%N -> Rabs (w j k) <= Rabs (w p q)) ->
  1 <= h * K * Rabs (w p q) -> errs w p q w' ->
  goodw (n + 1) m' a' b' c' r' s' w' (vset ip q 1%N) (fun i => pi (sw p q i)).
Proof.
  intros (((Z1 & Z2 & Z3 & Z4 & Z5 & Z6 & Z7) & Hn) & (G1 & G2 & G3 & G4 & G5) & (G6 & G7 & G8 & G9) & (G10 & G11 & G12 & G13)
    & (G14 & G15 & G16 & G17) & (G18 & G19 & G20 & G21) & _) [Hb Ht Hi Haa Hpa Hap Hpp Hres] Hp Hq Hm Hh [E1 E2].
  assert (Hpm : Rabs (w p q) <= m) by (now apply Haa).
  split.
  - now apply binary_set.
  - now apply total_set.
  - intros i j E. apply Hi in E. now apply sw_inj in E.
  - intros j k Hj Hk. eapply (new_aa w ip p q); eassumption.
  - intros j k Hj Hk. eapply (new_pa w ip p q); eassumption.
  - intros j k Hj Hk. eapply (new_ap w ip p q); eassumption.
  - intros j k Hj Hk. eapply (new_pp w ip p q); eassumption.
  - intros x X Y Bx By. destruct (Hres x X Y Bx By) as [R1 R2]. assert (By' : forall i, Rabs (img x (pi i)) <= Y) by (intros i; apply By). split; intros i Hi'.
    + eapply (final_res_act w ip p q) with (y := fun j => img x (pi j)); eassumption.
    + eapply (final_res_used w ip p q) with (y := fun j => img x (pi j)); eassumption.
Qed.

(** The pivot is not too small. *)
Variable C : ix -> ix -> R.
Hypothesis (HC : forall k i, img (fun c => C c k) i = if ix_eqb i k then 1 else 0) (HCK : forall i k, Rabs (C i k) <= K) (HKu : K * u <= 1 / 8192).
Lemma pivot_low n h m a b c r s m' a' b' c' r' s' M1 M2 M3 w ip pi P :
  grows n h m a b c r s m' a' b' c' r' s' M1 M2 M3 -> goodw n m a b c r s w ip pi -> (exists j, vget ip j = 0%N) ->
  (forall j k, vget ip j = 0%N -> vget ip k = 0%N -> Rabs (w j k) <= P) -> 1 <= h * K * P.
Proof.
  intros (((_ & _ & _ & _ & Z5 & _ & Z7) & Hn) & _ & _ & _ & _ & _ & (D1 & D2)) [Hb Ht Hi _ _ _ _ Hres] [j Hj] Hm.
  assert (P0 : 0 <= P) by (eapply Rle_trans; [apply Rabs_pos|exact (Hm j j Hj Hj)]).
  destruct (Hres (fun c => C c (pi j)) K 1) as [R1 _]; [intros i; apply HCK| |].
  { intros i. rewrite HC. destruct (ix_eqb i (pi j)); [rewrite Rabs_R1|rewrite Rabs_R0]; lra. }
  specialize (R1 j Hj). unfold res in R1. set (x := fun c0 => C c0 (pi j)) in *. set (y := fun j0 => img x (pi j0)) in *.
  assert (Yj : forall i, y i = if ix_eqb i j then 1 else 0).
  { intros i. unfold y, x. rewrite HC. destruct (ix_eqb i j) eqn:Q; [apply ix_eqb_eq in Q; subst; now rewrite ix_eqb_refl|].
    apply ix_eqb_neq in Q. replace (ix_eqb (pi i) (pi j)) with false; [reflexivity|]. symmetry. apply ix_eqb_neq. intros X. apply Q. now apply Hi. }
  assert (S : ss ip x y j = - 1) by (unfold ss; rewrite Hj, Yj, ix_eqb_refl; reflexivity). rewrite S in R1.
  assert (T : Rabs (sumr (fun c => w j c * tt ip x y c)) <= IZR (4 - Z.of_N n) * (P * K) + IZR (Z.of_N n) * 0).
  { eapply Rle_trans; [apply sum_abs|]. apply (count ip); auto. intros k. unfold tt. destruct (act_cases ip k Hb) as [[-> Xk]|[-> Xk]].
    - apply mul_le; [now apply Hm|apply HCK].
    - rewrite Yj. replace (ix_eqb k j) with false by (symmetry; apply ix_eqb_neq; intros ->; congruence). rewrite Ropp_0, Rmult_0_r, Rabs_R0. lra. }
  set (Q := sumr _) in *.
  assert (L : 1 <= IZR (4 - Z.of_N n) * (P * K) + u * r * (K + 1)).
  { pose proof (Rle_abs (- (Q + -1))) as L1. rewrite Rabs_Ropp in L1. pose proof (Rle_abs Q). lra. }
  assert (L2 : u * r * (K + 1) <= r * 5 / 8192).
  { assert (u * r * (K + 1) <= u * r * (5 * K)) by (apply Rmult_le_compat_l; [nra|lra]).
    assert (r * (5 * (K * u)) <= r * (5 * (1 / 8192))) by (apply Rmult_le_compat_l; lra). lra. }
  assert (PK : 0 <= P * K) by (apply Rmult_le_pos; lra).
  assert (L3 : IZR (4 - Z.of_N n) * (P * K) <= h * (1 - r * 5 / 8192) * (P * K)) by (now apply Rmult_le_compat_r).
  remember (1 - r * 5 / 8192) as d eqn:Ed. assert (Hd : 1 * d <= h * (P * K) * d) by lra. apply Rmult_le_reg_r in Hd; [|assumption]. lra.
Qed.
End Rounds.

(** The four rounds. *)
Ltac ground := unfold grows; cbn zeta;
  repeat match goal with
  | |- context [(?a - Z.of_N ?n)%Z] => let k := eval vm_compute in (a - Z.of_N n)%Z in change (a - Z.of_N n)%Z with k
  | |- context [(Z.of_N ?n + 1)%Z] => let k := eval vm_compute in (Z.of_N n + 1)%Z in change (Z.of_N n + 1)%Z with k
  end; repeat split; lra.
Lemma grows0 : grows 0 (4001 / 1000) 1 0 0 0 0 0
  (20001 / 10000) (10001 / 10000) (10001 / 10000) (401 / 100) (1561 / 100) (2521 / 100) (15601 / 1000) (25201 / 1000) (1 / 1000).
Proof. ground. Qed.
Lemma grows1 : grows 1 (3029 / 1000) (20001 / 10000) (10001 / 10000) (10001 / 10000) (401 / 100) (1561 / 100) (2521 / 100)
  (40003 / 10000) (20003 / 10000) (20003 / 10000) (704 / 100) (5203 / 100) (11411 / 100) (20802 / 1000) (16801 / 1000) (41605 / 1000).
Proof. ground. Qed.
Lemma grows2 : grows 2 (2066 / 1000) (40003 / 10000) (20003 / 10000) (20003 / 10000) (704 / 100) (5203 / 100) (11411 / 100)
  (80007 / 10000) (40007 / 10000) (40007 / 10000) (1531 / 100) (13527 / 100) (45441 / 100) (31205 / 1000) (26036 / 1000) (125278 / 1000).
Proof. ground. Qed.
Lemma grows3 : grows 3 (1090 / 1000) (80007 / 10000) (40007 / 10000) (40007 / 10000) (1531 / 100) (13527 / 100) (45441 / 100)
  (160015 / 10000) (80015 / 10000) (80015 / 10000) (3276 / 100) (35376 / 100) (139863 / 100) (83215 / 1000) (36631 / 1000) (354335 / 1000).
Proof. ground. Qed.
