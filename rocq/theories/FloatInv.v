(** Proofs about C86: Matrix4::inverse in floats on matrices with one entry in every row and column, and on translations. *)
From Coq Require Import ZArith Reals Lia Lra.
From Flocq Require Import Core.Core IEEE754.BinarySingleNaN.
From Verif Require Import Base Elem FloatInst GeoModel MatModel GeoSpec ArithSpec MatSpec OpsSpec OrderProofs MatThms InvThms FloatCore FloatThms OpsThms.
Local Open Scope mon_scope.
Local Open Scope R_scope.

Section I.
Context (f : fmt).
Notation E := (f_elem f).
Notation mag x := (Rabs (@B2R (fprec f) (femax f) x)).
Notation one := (f_of_int f 1).
Notation zero := (f_of_int f 0).

(** ** Choosing the pivot *)
Definition num (i : ix) : nat := match i with I0 => 0 | I1 => 1 | I2 => 2 | I3 => 3 end.
Definition ord (j k : ix) : nat := 4 * num j + num k.
Definition finm (W : Matrix4 (flt f)) : Prop := forall r c, is_finite (mget W r c) = true.
Definition best (W : Matrix4 (flt f)) ipiv (n : nat) (s : flt f * ix * ix) : Prop :=
  let '(big, p, q) := s in
  (s = (zero, I0, I0) /\ forall j k, (ord j k < n)%nat -> ~ cand ipiv j k) \/
  (big = Babs (mget W p q) /\ cand ipiv p q /\ (ord p q < n)%nat /\
   forall j k, (ord j k < n)%nat -> cand ipiv j k ->
     mag (mget W j k) <= mag (mget W p q) /\ ((ord p q < ord j k)%nat -> mag (mget W j k) < mag (mget W p q))).
Lemma ord_inj j k j' k' : ord j k = ord j' k' -> j = j' /\ k = k'.
Proof. destruct j, k, j', k'; cbn; intros; split; (reflexivity || discriminate). Qed.
Lemma leb_abs (x : flt f) (y : flt f) : is_finite x = true -> is_finite y = true -> 0 <= B2R x -> Bleb x (Babs y) = true <-> B2R x <= mag y.
Proof.
  intros Hx Hy H0. rewrite Bleb_correct by (rewrite ?is_finite_Babs; assumption). rewrite B2R_Babs.
  destruct (Rle_bool_spec (B2R x) (mag y)); split; intros; try discriminate; try reflexivity; try lra.
Qed.
Lemma best_step W ipiv j k s : finm W -> binary ipiv -> (vget ipiv j = 0)%N -> best W ipiv (ord j k) s ->
  exists s', inner E (@Panic) W ipiv j k s = Done s' /\ best W ipiv (S (ord j k)) s'.
Proof.
  intros Fm B Hj H. destruct s as [[big p] q]. unfold inner. destruct (B k) as [Hk|Hk]; rewrite Hk; cbn [N.eqb N.ltb N.compare].
  - cbn [e_abs f_elem obind e_le]. destruct (Bleb big (Babs (mget W j k))) eqn:Q.
    + exists (Babs (mget W j k), j, k). split; [reflexivity|]. right. split; [reflexivity|]. split; [now split|]. split; [lia|].
      intros j' k' Hn C. destruct (Nat.eq_dec (ord j' k') (ord j k)) as [Eo|No].
      { apply ord_inj in Eo as [-> ->]. split; [lra|lia]. }
      assert (Hn' : (ord j' k' < ord j k)%nat) by lia. split; [|lia].
      destruct H as [[_ H]|(-> & _ & _ & H)]; [now apply H in Hn'|]. destruct (H _ _ Hn' C) as [Hle _].
      apply leb_abs in Q; [|rewrite is_finite_Babs; apply Fm|apply Fm|rewrite B2R_Babs; apply Rabs_pos]. rewrite B2R_Babs in Q. lra.
    + exists (big, p, q). split; [reflexivity|]. destruct H as [[[= -> -> ->] H]|(-> & C & Ho & H)].
      { exfalso. assert (X : Bleb zero (Babs (mget W j k)) = true).
        { apply leb_abs; [exact (proj2 (zero_val f))|apply Fm|rewrite (proj1 (zero_val f)); lra|].
          rewrite (proj1 (zero_val f)). apply Rabs_pos. }
        rewrite (zero_is f) in X. rewrite X in Q. discriminate. }
      right. split; [reflexivity|]. split; [assumption|]. split; [lia|]. intros j' k' Hn C'.
      destruct (Nat.eq_dec (ord j' k') (ord j k)) as [Eo|No]; [|apply H; [lia|assumption]].
      apply ord_inj in Eo as [-> ->].
      assert (X : mag (mget W j k) < mag (mget W p q)).
      { apply Rnot_le_lt. intros X. rewrite (proj2 (leb_abs (Babs (mget W p q)) (mget W j k) ltac:(rewrite is_finite_Babs; apply Fm) (Fm _ _) ltac:(rewrite B2R_Babs; apply Rabs_pos))) in Q; [discriminate|]. now rewrite B2R_Babs. }
      split; [lra|auto].
  - exists (big, p, q). split; [reflexivity|]. destruct H as [[Hs H]|(-> & C & Ho & H)]; [left|right].
    + split; [assumption|]. intros j' k' Hn [C1 C2]. destruct (Nat.eq_dec (ord j' k') (ord j k)) as [Eo|No]; [|apply (H j' k'); [lia|now split]].
      apply ord_inj in Eo as [-> ->]. congruence.
    + split; [reflexivity|]. split; [assumption|]. split; [lia|]. intros j' k' Hn [C1 C2].
      destruct (Nat.eq_dec (ord j' k') (ord j k)) as [Eo|No]; [|apply H; [lia|now split]].
      apply ord_inj in Eo as [-> ->]. congruence.
Qed.
Lemma best_row W ipiv j s : finm W -> binary ipiv -> best W ipiv (4 * num j) s ->
  exists s', (if negb (vget ipiv j =? 1)%N then for4 s (fun k s => inner E (@Panic) W ipiv j k s) else !s) = Done s' /\
    best W ipiv (4 * num j + 4) s'.
Proof.
  intros Fm B H. destruct (B j) as [Hj|Hj]; rewrite Hj; cbn [N.eqb Pos.eqb negb].
  - replace (4 * num j)%nat with (ord j I0) in H by (unfold ord; cbn [num]; lia).
    destruct (best_step W ipiv j I0 s Fm B Hj H) as (s0 & E0 & H0).
    replace (S (ord j I0)) with (ord j I1) in H0 by (unfold ord; cbn [num]; lia).
    destruct (best_step W ipiv j I1 s0 Fm B Hj H0) as (s1 & E1 & H1).
    replace (S (ord j I1)) with (ord j I2) in H1 by (unfold ord; cbn [num]; lia).
    destruct (best_step W ipiv j I2 s1 Fm B Hj H1) as (s2 & E2 & H2).
    replace (S (ord j I2)) with (ord j I3) in H2 by (unfold ord; cbn [num]; lia).
    destruct (best_step W ipiv j I3 s2 Fm B Hj H2) as (s3 & E3 & H3).
    exists s3. split; [unfold for4; rewrite E0; cbn [obind]; rewrite E1; cbn [obind]; rewrite E2; cbn [obind]; exact E3|].
    replace (4 * num j + 4)%nat with (S (ord j I3)) by (unfold ord; cbn [num]; lia). exact H3.
  - exists s. split; [reflexivity|]. destruct s as [[big p] q].
    assert (X : forall j' k', (ord j' k' < 4 * num j + 4)%nat -> cand ipiv j' k' -> (ord j' k' < 4 * num j)%nat).
    { intros j' k' Hn [C _]. destruct (Nat.lt_ge_cases (ord j' k') (4 * num j)) as [|Hge]; [assumption|exfalso].
      assert (j' = j) as -> by (unfold ord in *; destruct j, j', k'; cbn [num] in *; (reflexivity || lia)). congruence. }
    destruct H as [[Hs H]|(-> & C & Ho & H)]; [left|right].
    + split; [assumption|]. intros j' k' Hn C. exact (H j' k' (X j' k' Hn C) C).
    + split; [reflexivity|]. split; [assumption|]. split; [lia|]. intros j' k' Hn C'. apply H; [now apply X|assumption].
Qed.
Lemma ord_16 j k : (ord j k < 16)%nat. Proof. destruct j, k; cbn; lia. Qed.
(** The last of the largest candidates, row by row. *)
Lemma choose_float W ipiv : finm W -> binary ipiv -> (exists c, vget ipiv c = 0%N) ->
  exists p q, choose_pivot E (@Panic) W ipiv = Done (Babs (mget W p q), p, q) /\ cand ipiv p q /\
    forall j k, cand ipiv j k -> mag (mget W j k) <= mag (mget W p q) /\ ((ord p q < ord j k)%nat -> mag (mget W j k) < mag (mget W p q)).
Proof.
  intros Fm B [c Hc]. assert (H : best W ipiv (4 * num I0) (zero, I0, I0)) by (left; split; [reflexivity|cbn [num]; lia]).
  destruct (best_row W ipiv I0 _ Fm B H) as (s0 & E0 & H0). change (4 * num I0 + 4)%nat with (4 * num I1)%nat in H0.
  destruct (best_row W ipiv I1 _ Fm B H0) as (s1 & E1 & H1). change (4 * num I1 + 4)%nat with (4 * num I2)%nat in H1.
  destruct (best_row W ipiv I2 _ Fm B H1) as (s2 & E2 & H2). change (4 * num I2 + 4)%nat with (4 * num I3)%nat in H2.
  destruct (best_row W ipiv I3 _ Fm B H2) as (s3 & E3 & H3). destruct s3 as [[big p] q].
  destruct H3 as [[_ H3]|(-> & C & _ & H3)]; [exfalso; apply (H3 c c); [apply ord_16|now split]|].
  exists p, q. split; [|split; [assumption|intros; apply H3; [apply ord_16|assumption]]].
  unfold choose_pivot. unfold for4 at 1. unfold inner in *. change (e_from_int E 0) with zero.
  rewrite E0. cbn [obind]. rewrite E1. cbn [obind]. rewrite E2. cbn [obind]. exact E3.
Qed.
(** ** The updates *)
Lemma scale_row_float W p : scale_row E W p =
  Done (mkm (fun i k => if ix_eqb i p then f_mult (if ix_eqb k p then one else mget W i k) (f_div one (mget W p p)) else mget W i k)).
Proof. destruct W as [[] [] [] []], p; reflexivity. Qed.
Lemma clear_column_float W p : clear_column E W p =
  Done (mkm (fun j k => if ix_eqb j p then mget W j k
                        else f_sub (if ix_eqb k p then zero else mget W j k) (f_mult (mget W p k) (mget W j p)))).
Proof. destruct W as [[] [] [] []], p; reflexivity. Qed.

(** ** One entry in every row and column *)
Definition zer (x : flt f) : Prop := exists s, x = B754_zero s.
Definition solid (x : flt f) : Prop := is_finite x = true /\ B2R x <> 0.
Lemma zer_fin x : zer x -> is_finite x = true. Proof. now intros [s ->]. Qed.
Lemma zer_mag x : zer x -> mag x = 0. Proof. intros [s ->]. apply Rabs_R0. Qed.
Lemma zer_mult x y : zer x -> is_finite y = true -> zer (f_mult x y).
Proof. intros [s ->] H. destruct y as [s'| | |s' m e b]; try discriminate; eexists; reflexivity. Qed.
Lemma zer_mult_r x y : is_finite x = true -> zer y -> zer (f_mult x y).
Proof. intros H [s ->]. destruct x as [s'| | |s' m e b]; try discriminate; eexists; reflexivity. Qed.
Lemma zer_sub x y : zer x -> zer y -> zer (f_sub x y).
Proof. intros [s ->] [s' ->]. destruct s, s'; eexists; reflexivity. Qed.
Lemma solid_sub x y : solid x -> zer y -> f_sub x y = x.
Proof. intros [Hf Hn] [s ->]. destruct x as [s'| | |s' m e b]; try discriminate; [now destruct Hn|reflexivity]. Qed.
Lemma zer_zero : zer zero. Proof. exists false. apply zero_is. Qed.

Section Mono.
Variables (d : ix -> flt f) (sg : ix -> ix).
Hypothesis Hsg : forall a b, sg a = sg b -> a = b.
Hypothesis Hd : forall r, solid (d r) /\ solid (f_div one (d r)).
Record inv_at (W : Matrix4 (flt f)) (ipiv : vec4 N) (pi : ix -> ix) : Prop := {
  ia_bin : binary ipiv;
  ia_inj : forall a b, pi a = pi b -> a = b;
  ia_done : forall r, vget ipiv r = 1%N -> sg (pi r) = r;
  ia_val : forall r, mget W r (sg (pi r)) = if (vget ipiv r =? 0)%N then d (pi r) else f_div one (d (pi r));
  ia_zero : forall r k, k <> sg (pi r) -> zer (mget W r k) }.
Lemma ix_dec (a b : ix) : {a = b} + {a <> b}. Proof. decide equality. Qed.
Lemma ia_solid W ipiv pi r : inv_at W ipiv pi -> solid (mget W r (sg (pi r))).
Proof. intros H. rewrite (ia_val _ _ _ H). destruct (_ =? _)%N; apply Hd. Qed.
Lemma ia_fin W ipiv pi : inv_at W ipiv pi -> finm W.
Proof.
  intros H r k. destruct (ix_dec k (sg (pi r))) as [->|N]; [apply (ia_solid _ _ _ _ H)|]. apply zer_fin. now apply (ia_zero _ _ _ H).
Qed.
Lemma vget_vset {T} (v : vec4 T) i a j : vget (vset v i a) j = if ix_eqb j i then a else vget v j.
Proof. destruct i, j; reflexivity. Qed.
Lemma sw_l p q : sw p q p = q. Proof. unfold sw. now rewrite ix_eqb_refl. Qed.
Lemma sw_r p q : sw p q q = p. Proof. destruct p, q; reflexivity. Qed.
Lemma sw_other p q r : r <> p -> r <> q -> sw p q r = r.
Proof. intros H1 H2. unfold sw. apply ix_eqb_neq in H1, H2. now rewrite H1, H2. Qed.
Lemma sw_inj p q a b : sw p q a = sw p q b -> a = b.
Proof. intros H. rewrite <- (sw_invol p q a), <- (sw_invol p q b). now f_equal. Qed.
Lemma mono_step i s pi : inv_at (is_minv s) (is_ipiv s) pi -> (exists c, vget (is_ipiv s) c = 0%N) ->
  exists s' p q, inverse_step E (@Panic) (@Panic) i s = Done s' /\
    is_ipiv s' = vset (is_ipiv s) q 1%N /\ vget (is_ipiv s) q = 0%N /\
    is_indxr s' = vset (is_indxr s) i p /\ is_indxc s' = vset (is_indxc s) i q /\
    inv_at (is_minv s') (is_ipiv s') (fun r => pi (sw p q r)).
Proof.
  intros H [c Hc]. set (W := is_minv s) in *. set (ip := is_ipiv s) in *.
  destruct (choose_float W ip (ia_fin _ _ _ H) (ia_bin _ _ _ H) (ex_intro _ c Hc)) as (p & q & Ec & [Cp Cq] & Hm).
  assert (Q : q = sg (pi p)).
  { destruct (ix_dec q (sg (pi p))) as [|N]; [assumption|exfalso].
    assert (C : cand ip c (sg (pi c))).
    { split; [assumption|]. destruct (ia_bin _ _ _ H (sg (pi c))) as [|X]; [assumption|exfalso].
      pose proof (ia_done _ _ _ H _ X) as Y. apply Hsg, (ia_inj _ _ _ H) in Y. rewrite Y in X. congruence. }
    destruct (Hm _ _ C) as [Hle _]. rewrite (zer_mag (mget W p q)) in Hle by (now apply (ia_zero _ _ _ H)).
    destruct (ia_solid _ _ _ c H) as [_ Hs]. apply Hs. destruct (Req_dec (B2R (mget W c (sg (pi c)))) 0) as [|Z]; [assumption|].
    apply Rabs_pos_lt in Z. lra. }
  assert (V : mget W p q = d (pi p)).
  { rewrite Q, (ia_val _ _ _ H), Cp. reflexivity. }
  unfold inverse_step. fold W ip. rewrite Ec. cbn [obind]. rewrite swap_rows_thm. cbn [obind].
  set (W1 := mkm (fun i k => mget W (sw p q i) k)).
  assert (V1 : mget W1 q q = d (pi p)) by (unfold W1; now rewrite mget_mkm, sw_r).
  assert (Z1 : e_eq E (mget W1 q q) (e_from_int E 0) = false).
  { rewrite V1. cbn [e_eq e_from_int f_elem]. destruct (Hd (pi p)) as [[Hf Hn] _].
    rewrite Beqb_correct; [|assumption|exact (proj2 (zero_val f))]. rewrite (proj1 (zero_val f)).
    now apply Req_bool_false. }
  rewrite Z1. rewrite scale_row_float. cbn [obind].
  match goal with |- context [clear_column E ?M q] => set (W2 := M) end. rewrite clear_column_float. cbn [obind].
  match goal with |- context [Done (IS ?M _ _ _)] => set (W3 := M) end.
  exists (IS W3 (vset ip q (vget ip q + 1)%N) (vset (is_indxr s) i p) (vset (is_indxc s) i q)), p, q.
  rewrite Cq. cbn [is_ipiv is_indxr is_indxc is_minv]. repeat (split; [reflexivity || exact Cq|]).
  destruct (Hd (pi p)) as [[Hf Hn] [Hf' Hn']].
  assert (W1v : forall r k, mget W1 r k = mget W (sw p q r) k) by (intros r k; unfold W1; now rewrite mget_mkm).
  assert (W2q : forall k, mget W2 q k = f_mult (if ix_eqb k q then one else mget W1 q k) (f_div one (d (pi p)))).
  { intros k. unfold W2. rewrite mget_mkm, ix_eqb_refl. now rewrite V1. }
  assert (W2r : forall r k, r <> q -> mget W2 r k = mget W1 r k).
  { intros r k N. unfold W2. rewrite mget_mkm. apply ix_eqb_neq in N. now rewrite N. }
  assert (W2qq : mget W2 q q = f_div one (d (pi p))).
  { rewrite W2q, ix_eqb_refl. now apply mult_1_l. }
  assert (W2qz : forall k, k <> q -> zer (mget W2 q k)).
  { intros k N. rewrite W2q. pose proof N as N'. apply ix_eqb_neq in N'. rewrite N'. apply zer_mult; [|assumption].
    rewrite W1v, sw_r. apply (ia_zero _ _ _ H). congruence. }
  assert (Hcol : forall r, r <> q -> sg (pi (sw p q r)) <> q).
  { intros r N X. rewrite Q in X at 2. apply Hsg, (ia_inj _ _ _ H) in X. apply N. apply (sw_inj p q). now rewrite sw_r. }
  assert (W1z : forall r, r <> q -> zer (mget W1 r q)).
  { intros r N. rewrite W1v. apply (ia_zero _ _ _ H). intros X. exact (Hcol r N (eq_sym X)). }
  assert (W3q : forall k, mget W3 q k = mget W2 q k).
  { intros k. unfold W3. now rewrite mget_mkm, ix_eqb_refl. }
  assert (W3r : forall r k, r <> q -> mget W3 r k = f_sub (if ix_eqb k q then zero else mget W1 r k) (f_mult (mget W2 q k) (mget W1 r q))).
  { intros r k N. unfold W3. rewrite mget_mkm. pose proof N as N'. apply ix_eqb_neq in N'. rewrite N'. now rewrite (W2r r k N), (W2r r q N). }
  assert (W2f : forall k, is_finite (mget W2 q k) = true).
  { intros k. destruct (ix_dec k q) as [->|N]; [now rewrite W2qq|]. now apply zer_fin, W2qz. }
  split.
  - intros x. rewrite vget_vset. destruct (ix_eqb x q); [now right|apply (ia_bin _ _ _ H)].
  - intros a b X. apply (ia_inj _ _ _ H) in X. now apply sw_inj in X.
  - intros r. rewrite vget_vset. destruct (ix_dec r q) as [->|N]; [intros _; now rewrite sw_r|].
    pose proof N as N'. apply ix_eqb_neq in N'. rewrite N'. intros X. rewrite sw_other; [now apply (ia_done _ _ _ H)|congruence|assumption].
  - intros r. rewrite vget_vset. destruct (ix_dec r q) as [->|N].
    + rewrite ix_eqb_refl, sw_r, W3q, <- Q. exact W2qq.
    + pose proof N as N'. apply ix_eqb_neq in N'. rewrite N', (W3r _ _ N).
      pose proof (Hcol r N) as Hk. apply ix_eqb_neq in Hk. rewrite Hk.
      assert (S1 : mget W1 r (sg (pi (sw p q r))) = if (vget ip r =? 0)%N then d (pi (sw p q r)) else f_div one (d (pi (sw p q r)))).
      { rewrite W1v, (ia_val _ _ _ H). destruct (ix_dec r p) as [->|Np]; [now rewrite sw_l, Cp, Cq|]. now rewrite (sw_other p q r Np N). }
      rewrite S1. apply solid_sub; [destruct (_ =? _)%N; apply Hd|]. apply zer_mult_r; [apply W2f|now apply W1z].
  - intros r k Hk. destruct (ix_dec r q) as [->|N].
    + rewrite sw_r, <- Q in Hk. rewrite W3q. now apply W2qz.
    + rewrite (W3r _ _ N). apply zer_sub; [|apply zer_mult_r; [apply W2f|now apply W1z]].
      destruct (ix_eqb k q); [apply zer_zero|]. rewrite W1v. now apply (ia_zero _ _ _ H).
Qed.
Lemma vget_const {T} (a : T) i : vget (vconst a) i = a. Proof. now destruct i. Qed.
Lemma mono_inverse A : (forall r, mget A r (sg r) = d r) -> (forall r k, k <> sg r -> zer (mget A r k)) ->
  exists B, m4_inverse E A = Done B /\
    forall r, mget B (sg r) r = f_div one (d r) /\ forall k, k <> r -> zer (mget B (sg r) k).
Proof.
  intros Hv Hz.
  assert (H0 : inv_at (is_minv (IS A (vconst 0%N) (vconst I0) (vconst I0))) (is_ipiv (IS A (vconst 0%N) (vconst I0) (vconst I0))) (fun r => r)).
  { cbn [is_minv is_ipiv]. split; auto.
    - intros c. left. apply vget_const.
    - intros r. rewrite vget_const. discriminate.
    - intros r. rewrite vget_const. apply Hv. }
  destruct (mono_step I0 _ _ H0 (ex_intro _ I0 eq_refl)) as (s1 & p0 & q0 & E1 & P1 & _ & R1 & C1 & H1).
  cbn [is_ipiv is_indxr is_indxc] in P1, R1, C1.
  assert (X1 : exists c, vget (is_ipiv s1) c = 0%N) by (rewrite P1; destruct q0; [exists I1|exists I0|exists I0|exists I0]; reflexivity).
  destruct (mono_step I1 _ _ H1 X1) as (s2 & p1 & q1 & E2 & P2 & N2 & R2 & C2 & H2).
  rewrite P1 in P2, N2. rewrite R1 in R2. rewrite C1 in C2.
  assert (X2 : exists c, vget (is_ipiv s2) c = 0%N).
  { rewrite P2. destruct q0, q1; try discriminate N2; ((now exists I0) || (now exists I1) || (now exists I2)). }
  destruct (mono_step I2 _ _ H2 X2) as (s3 & p2 & q2 & E3 & P3 & N3 & R3 & C3 & H3).
  rewrite P2 in P3, N3. rewrite R2 in R3. rewrite C2 in C3.
  assert (X3 : exists c, vget (is_ipiv s3) c = 0%N).
  { rewrite P3. destruct q0, q1; try discriminate N2; destruct q2; try discriminate N3; ((now exists I0) || (now exists I1) || (now exists I2) || (now exists I3)). }
  destruct (mono_step I3 _ _ H3 X3) as (s4 & p3 & q3 & E4 & P4 & N4 & R4 & C4 & H4).
  rewrite P3 in P4, N4. rewrite R3 in R4. rewrite C3 in C4.
  assert (X4 : forall c, vget (is_ipiv s4) c = 1%N).
  { rewrite P4. destruct q0, q1; try discriminate N2; destruct q2; try discriminate N3; destruct q3; try discriminate N4; intros []; reflexivity. }
  clear X1 X2 X3 P1 P2 P3 P4 N2 N3 N4 H0 H1 H2 H3 R1 R2 R3 C1 C2 C3.
  set (pi := fun r => sw p0 q0 (sw p1 q1 (sw p2 q2 (sw p3 q3 r)))) in *.
  exists (mkm (fun i k => mget (is_minv s4) i (sw p3 q3 (sw p2 q2 (sw p1 q1 (sw p0 q0 k)))))). split.
  - unfold m4_inverse, inverse_with. unfold for4 at 1. rewrite E1. cbn [obind]. rewrite E2. cbn [obind]. rewrite E3. cbn [obind].
    rewrite E4. cbn [obind]. unfold swap_columns, for4_rev. rewrite R4, C4. cbn [vget vset MatModel.w0 MatModel.w1 MatModel.w2 MatModel.w3].
    rewrite swap_cols_thm. cbn [obind]. rewrite swap_cols_thm. cbn [obind]. rewrite swap_cols_thm. cbn [obind]. rewrite swap_cols_thm.
    f_equal. apply mkm_ext. intros r c. now rewrite !mget_mkm.
  - assert (Inv : forall k, pi (sw p3 q3 (sw p2 q2 (sw p1 q1 (sw p0 q0 k)))) = k) by (intros k; unfold pi; now rewrite !sw_invol).
    set (ip := fun k => sw p3 q3 (sw p2 q2 (sw p1 q1 (sw p0 q0 k)))) in *.
    assert (Fix : forall i, sg (pi i) = i) by (intros i; apply (ia_done _ _ _ H4), X4).
    intros r. rewrite mget_mkm. fold (ip r).
    assert (Hr : ip r = sg r). { rewrite <- (Fix (ip r)). unfold ip. now rewrite Inv. }
    split.
    + rewrite Hr. assert (Y : pi (sg r) = r) by (rewrite <- Hr; unfold ip; apply Inv).
      pose proof (ia_val _ _ _ H4 (sg r)) as V. rewrite (X4 (sg r)) in V. change (fun r0 : ix => pi r0) with pi in V. fold (pi (sg r)) in V.
      rewrite Y in V. exact V.
    + intros k Hk. rewrite mget_mkm. apply (ia_zero _ _ _ H4). fold (pi (sg r)). fold (ip k).
      intros X. apply Hk. pose proof (Inv k) as Ik. fold (ip k) in Ik. rewrite Fix in X. rewrite X in Ik. rewrite <- Ik.
      rewrite <- Hr. unfold ip. apply Inv.
Qed.
End Mono.

(** ** Reciprocals *)
Lemma recip (a : flt f) : is_finite a = true -> B2R a <> 0 -> Rabs (nearest f (/ B2R a)) < bpow radix2 (femax f) ->
  solid a /\ solid (f_div one a) /\ B2R (f_div one a) = nearest f (/ B2R a).
Proof.
  intros Fa Na Ha. destruct (one_val f) as [O1 OF]. destruct (div_key f one a OF Fa Na) as (_ & K & Q).
  rewrite O1 in K, Q. replace (1 / B2R a) with (/ B2R a) in K, Q by (unfold Rdiv; ring).
  change (rnd f (/ B2R a)) with (nearest f (/ B2R a)) in K, Q. change (big f) with (bpow radix2 (femax f)) in Q.
  rewrite Rlt_bool_true in Q by exact Ha. rewrite key_finite, sat_in in K by assumption.
  split; [now split|]. split; [|exact K]. split; [exact Q|]. rewrite K.
  assert (L : bpow radix2 (- femax f) <= Rabs (nearest f (/ B2R a))).
  { unfold nearest. apply abs_round_ge_generic; [apply (fexp_correct (fprec f) (femax f) (fprec_gt_0 f))|apply valid_rnd_N| |].
    - apply generic_format_bpow. destruct f; vm_compute; discriminate.
    - rewrite Rabs_inv. rewrite bpow_opp. apply Rinv_le; [now apply Rabs_pos_lt|].
      apply Rlt_le. apply (B2R_big f a). }
  intros Z. rewrite Z, Rabs_R0 in L. pose proof (bpow_gt_0 radix2 (- femax f)). lra.
Qed.
Lemma zer_val (x : flt f) : is_finite x = true /\ B2R x = 0 <-> zer x.
Proof.
  split.
  - intros [Fx Hx]. destruct x as [s| | |s m e b]; try discriminate; [now exists s|]. exfalso. revert Hx.
    cbn [B2R]. intros Hx. apply eq_0_F2R in Hx. now destruct s.
  - intros [s ->]. now split.
Qed.
Lemma monomial (A : Matrix4 (flt f)) (sg : ix -> ix) : (forall a b, sg a = sg b -> a = b) ->
  (forall r, is_finite (mget A r (sg r)) = true /\ B2R (mget A r (sg r)) <> 0 /\ Rabs (nearest f (/ B2R (mget A r (sg r)))) < bpow radix2 (femax f)) ->
  (forall r k, k <> sg r -> is_finite (mget A r k) = true /\ B2R (mget A r k) = 0) ->
  exists B, m4_inverse E A = Done B /\ forall r,
    is_finite (mget B (sg r) r) = true /\ B2R (mget B (sg r) r) = nearest f (/ B2R (mget A r (sg r))) /\
    forall k, k <> r -> is_finite (mget B (sg r) k) = true /\ B2R (mget B (sg r) k) = 0.
Proof.
  intros Hs Hd Hz.
  destruct (mono_inverse (fun r => mget A r (sg r)) sg Hs) with (A := A) as (B & EB & HB).
  - intros r. destruct (Hd r) as (H1 & H2 & H3). destruct (recip _ H1 H2 H3) as (S1 & S2 & _). now split.
  - reflexivity.
  - intros r k Hk. apply zer_val. now apply Hz.
  - exists B. split; [exact EB|]. intros r. destruct (HB r) as [H1 H2]. rewrite H1.
    destruct (Hd r) as (F1 & F2 & F3). destruct (recip _ F1 F2 F3) as (_ & [S2 _] & S3). split; [exact S2|]. split; [exact S3|].
    intros k Hk. apply zer_val. now apply H2.
Qed.
(** Powers of two have exact reciprocals. *)
Lemma recip_pow2 (x : R) e : Rabs x = bpow radix2 e -> (- femax f < e < femax f)%Z ->
  nearest f (/ x) = / x /\ Rabs (/ x) < bpow radix2 (femax f).
Proof.
  intros Hx He. assert (Nx : x <> 0) by (intros ->; rewrite Rabs_R0 in Hx; pose proof (bpow_gt_0 radix2 e); lra).
  assert (Ha : Rabs (/ x) = bpow radix2 (- e)) by (now rewrite Rabs_inv, Hx, bpow_opp).
  split; [|rewrite Ha; apply bpow_lt; lia]. unfold nearest. apply round_generic; [apply valid_rnd_N|].
  apply generic_format_abs_inv. rewrite Ha. apply generic_format_bpow. unfold SpecFloat.fexp, SpecFloat.emin. destruct f; cbn [fprec femax] in *; lia.
Qed.
Definition valm (M : Matrix4 (flt f)) : Matrix4 R := mkm (fun r c => B2R (mget M r c)).
Lemma ix_inv (sg : ix -> ix) : (forall a b, sg a = sg b -> a = b) -> forall j, exists r, sg r = j.
Proof.
  intros Hs j.
  destruct (ix_dec (sg I0) j) as [|N0]; [now exists I0|]. destruct (ix_dec (sg I1) j) as [|N1]; [now exists I1|].
  destruct (ix_dec (sg I2) j) as [|N2]; [now exists I2|]. destruct (ix_dec (sg I3) j) as [|N3]; [now exists I3|].
  exfalso.
  assert (sg I0 <> sg I1) by (intros X; now apply Hs in X). assert (sg I0 <> sg I2) by (intros X; now apply Hs in X).
  assert (sg I0 <> sg I3) by (intros X; now apply Hs in X). assert (sg I1 <> sg I2) by (intros X; now apply Hs in X).
  assert (sg I1 <> sg I3) by (intros X; now apply Hs in X). assert (sg I2 <> sg I3) by (intros X; now apply Hs in X).
  destruct (sg I0), (sg I1), (sg I2), (sg I3), j; congruence.
Qed.
Lemma sum4_one (t : ix -> R) (i : ix) : (forall k, k <> i -> t k = 0) -> sum4 Rplus t = t i.
Proof.
  intros H. unfold sum4. destruct i; rewrite ?(H I0), ?(H I1), ?(H I2), ?(H I3) by discriminate; lra.
Qed.
Lemma pow2_exact (A : Matrix4 (flt f)) (sg : ix -> ix) (e : ix -> Z) : (forall a b, sg a = sg b -> a = b) ->
  (forall r, is_finite (mget A r (sg r)) = true /\ Rabs (B2R (mget A r (sg r))) = bpow radix2 (e r) /\ (- femax f < e r < femax f)%Z) ->
  (forall r k, k <> sg r -> is_finite (mget A r k) = true /\ B2R (mget A r k) = 0) ->
  exists B, m4_inverse E A = Done B /\ finm B /\ prodR (valm A) (valm B) = identR /\ prodR (valm B) (valm A) = identR.
Proof.
  intros Hs Hd Hz. assert (Nz : forall r, B2R (mget A r (sg r)) <> 0).
  { intros r Z. destruct (Hd r) as (_ & H & _). rewrite Z, Rabs_R0 in H. pose proof (bpow_gt_0 radix2 (e r)). lra. }
  destruct (monomial A sg Hs) as (B & EB & HB); [|exact Hz|].
  { intros r. destruct (Hd r) as (H1 & H2 & H3). destruct (recip_pow2 _ _ H2 H3) as [H4 H5]. rewrite H4. auto. }
  assert (V : forall r, B2R (mget B (sg r) r) = / B2R (mget A r (sg r))).
  { intros r. destruct (HB r) as (_ & -> & _). destruct (Hd r) as (H1 & H2 & H3). apply (recip_pow2 _ _ H2 H3). }
  exists B. split; [exact EB|]. split; [|split].
  - intros j c. destruct (ix_inv sg Hs j) as [r <-]. destruct (HB r) as (H1 & _ & H2). destruct (ix_dec c r) as [->|N]; [exact H1|now apply H2].
  - apply mkm_ext. intros r c. rewrite (sum4_one _ (sg r)).
    + unfold valm. rewrite !mget_mkm. destruct (ix_dec r c) as [<-|N].
      * rewrite ix_eqb_refl, V. now apply Rinv_r.
      * destruct (HB r) as (_ & _ & H). rewrite (proj2 (H c ltac:(congruence))). apply ix_eqb_neq in N. rewrite N. ring.
    + intros k Hk. unfold valm. rewrite !mget_mkm. rewrite (proj2 (Hz r k Hk)). ring.
  - apply mkm_ext. intros j c. destruct (ix_inv sg Hs j) as [r <-]. rewrite (sum4_one _ r).
    + unfold valm. rewrite !mget_mkm. destruct (ix_dec (sg r) c) as [<-|N].
      * rewrite ix_eqb_refl, V. now apply Rinv_l.
      * rewrite (proj2 (Hz r c ltac:(congruence))). apply ix_eqb_neq in N. rewrite N. ring.
    + intros k Hk. unfold valm. rewrite !mget_mkm. destruct (HB r) as (_ & _ & H). rewrite (proj2 (H k Hk)). ring.
Qed.

(** ** Translations *)
Section Trans.
Variable x : ix -> flt f.
Hypothesis Hx : forall r, is_finite (x r) = true /\ Rabs (B2R (x r)) <= 1.
(** The values before and after the last row has been the pivot. *)
Definition tval (done : bool) (r c : ix) : R :=
  if ix_eqb r c then 1 else if ix_eqb c I3 then (if done then - B2R (x r) else B2R (x r)) else 0.
Definition has (W : Matrix4 (flt f)) (b : bool) : Prop := forall r c, isv f (mget W r c) (tval b r c).
Lemma has_fin W b : has W b -> finm W. Proof. intros H r c. apply H. Qed.
Lemma tval_le b r c : Rabs (tval b r c) <= 1.
Proof.
  unfold tval. destruct (ix_eqb r c); [rewrite Rabs_R1; lra|]. destruct (ix_eqb c I3); [|rewrite Rabs_R0; lra].
  destruct b; rewrite ?Rabs_Ropp; apply Hx.
Qed.
Lemma pick W b ipiv p : has W b -> binary ipiv -> vget ipiv p = 0%N ->
  (forall j k, cand ipiv j k -> (ord j k <= ord p p)%nat) ->
  choose_pivot E (@Panic) W ipiv = Done (Babs (mget W p p), p, p).
Proof.
  intros H B Hp Hl. destruct (choose_float W ipiv (has_fin _ _ H) B (ex_intro _ p Hp)) as (p' & q' & Ec & C & Hm).
  rewrite Ec. destruct (Nat.eq_dec (ord p' q') (ord p p)) as [Eo|No]; [now apply ord_inj in Eo as [-> ->]|exfalso].
  pose proof (Hl _ _ C). destruct (Hm p p) as [_ Hlt]; [now split|]. specialize (Hlt ltac:(lia)).
  rewrite (proj2 (H p p)), (proj2 (H p' q')) in Hlt. pose proof (tval_le b p' q').
  assert (Y : tval b p p = 1) by (unfold tval; now rewrite ix_eqb_refl). rewrite Y, Rabs_R1 in Hlt. lra.
Qed.
Lemma isv_fmt a r : isv f a r -> fmt_real f r /\ Rabs r < big f.
Proof. intros [_ <-]. split; [apply fmt_B|apply B2R_big]. Qed.
Lemma isv_sub a b r s : isv f a r -> isv f b s -> fmt_real f (r - s) -> Rabs (r - s) < big f -> isv f (f_sub a b) (r - s).
Proof.
  intros [Fx <-] [Fy <-] H B. destruct (sub_key f a b Fx Fy) as (_ & K & Q). rewrite (rnd_id f _ H) in *.
  rewrite Rlt_bool_true in Q by exact B. split; auto. now rewrite <- key_finite, K, sat_in.
Qed.
Lemma isv_opp a r : isv f a r -> isv f (Bopp a) (- r).
Proof. intros [F1 <-]. split; [now rewrite is_finite_Bopp|apply B2R_Bopp]. Qed.
Lemma isv_x r : isv f (x r) (B2R (x r)). Proof. split; [apply Hx|reflexivity]. Qed.
Lemma isv_t b r c : exists a, isv f a (tval b r c).
Proof.
  unfold tval. destruct (ix_eqb r c); [exists one; apply isv_one|]. destruct (ix_eqb c I3); [|exists zero; apply isv_zero].
  destruct b; [exists (Bopp (x r)); apply isv_opp, isv_x|exists (x r); apply isv_x].
Qed.
Lemma isv_mult' a b r s t : isv f a r -> isv f b s -> (exists c, isv f c t) -> r * s = t -> isv f (f_mult a b) t.
Proof. intros H1 H2 [c H3] <-. apply isv_fmt in H3 as [H3 H4]. now apply isv_mult. Qed.
Lemma isv_sub' a b r s t : isv f a r -> isv f b s -> (exists c, isv f c t) -> r - s = t -> isv f (f_sub a b) t.
Proof. intros H1 H2 [c H3] <-. apply isv_fmt in H3 as [H3 H4]. now apply isv_sub. Qed.
Lemma isv_div1 a : isv f a 1 -> isv f (f_div one a) 1.
Proof.
  intros [Fa Va]. destruct (one_val f) as [O1 OF]. assert (Na : B2R a <> 0) by lra. destruct (div_key f one a OF Fa Na) as (_ & K & Q).
  rewrite O1, Va in K, Q. replace (1 / 1) with 1 in K, Q by field. rewrite (rnd_id f 1 (fmt_1 f)) in K, Q.
  assert (B1 : Rabs 1 < big f) by (destruct (isv_fmt _ _ (isv_one f)); assumption).
  rewrite Rlt_bool_true in Q by exact B1. split; [exact Q|]. now rewrite <- key_finite, K, sat_in.
Qed.
Lemma trans_step i s p b : has (is_minv s) b -> binary (is_ipiv s) -> vget (is_ipiv s) p = 0%N ->
  (forall j k, cand (is_ipiv s) j k -> (ord j k <= ord p p)%nat) -> b = negb (ix_eqb p I3) ->
  exists s', inverse_step E (@Panic) (@Panic) i s = Done s' /\ has (is_minv s') true /\
    is_ipiv s' = vset (is_ipiv s) p 1%N /\ is_indxr s' = vset (is_indxr s) i p /\ is_indxc s' = vset (is_indxc s) i p.
Proof.
  intros H B Hp Hl Hb. set (W := is_minv s) in *. set (ip := is_ipiv s) in *.
  unfold inverse_step. fold W ip. rewrite (pick W b ip p H B Hp Hl). cbn [obind]. rewrite swap_rows_thm. cbn [obind].
  assert (W1 : mkm (fun i k => mget W (sw p p i) k) = W).
  { apply mat_ext. intros r c. rewrite mget_mkm. unfold sw. destruct (ix_eqb r p) eqn:Q; [apply ix_eqb_eq in Q; now subst|reflexivity]. }
  rewrite W1.
  assert (T1 : tval b p p = 1) by (unfold tval; now rewrite ix_eqb_refl).
  assert (Vp : isv f (mget W p p) 1) by (rewrite <- T1; apply H).
  assert (Z1 : e_eq E (mget W p p) (e_from_int E 0) = false).
  { cbn [e_eq e_from_int f_elem]. destruct Vp as [Fp Vp]. rewrite Beqb_correct; [|assumption|exact (proj2 (zero_val f))].
    rewrite (proj1 (zero_val f)), Vp. apply Req_bool_false. lra. }
  rewrite Z1, scale_row_float. cbn [obind]. match goal with |- context [clear_column E ?M p] => set (W2 := M) end.
  rewrite clear_column_float. cbn [obind]. match goal with |- context [Done (IS ?M _ _ _)] => set (W3 := M) end.
  eexists. split; [reflexivity|]. cbn [is_ipiv is_indxr is_indxc is_minv]. rewrite Hp. split; [|repeat split].
  assert (V2 : forall r c, isv f (mget W2 r c) (tval b r c)).
  { intros r c. unfold W2. rewrite mget_mkm. destruct (ix_eqb r p) eqn:Q; [apply ix_eqb_eq in Q; subst r|apply H].
    destruct (ix_eqb c p) eqn:Q'.
    - apply ix_eqb_eq in Q'; subst c. rewrite T1. apply (isv_mult' _ _ 1 1); [apply isv_one|now apply isv_div1|exists one; apply isv_one|ring].
    - apply (isv_mult' _ _ (tval b p c) 1); [apply H|now apply isv_div1|apply isv_t|ring]. }
  clearbody W2. intros r c. unfold W3. rewrite mget_mkm. destruct (ix_eqb r p) eqn:Q.
  - apply ix_eqb_eq in Q. subst r. replace (tval true p c) with (tval b p c); [apply V2|].
    unfold tval. subst b. destruct p, c; reflexivity.
  - assert (M : isv f (f_mult (mget W2 p c) (mget W2 r p)) (tval b p c * tval b r p)).
    { apply (isv_mult' _ _ (tval b p c) (tval b r p)); [apply V2|apply V2| |reflexivity].
      unfold tval. subst b. destruct p, c, r; try discriminate Q; cbn [ix_eqb negb]; rewrite ?Rmult_0_l, ?Rmult_0_r, ?Rmult_1_l;
        ((exists zero; apply isv_zero) || (eexists; apply isv_x)). }
    apply (isv_sub' _ _ (if ix_eqb c p then 0 else tval b r c) (tval b p c * tval b r p)); [|exact M|apply isv_t|].
    + destruct (ix_eqb c p); [apply isv_zero|apply V2].
    + unfold tval. subst b. destruct p, c, r; try discriminate Q; cbn [ix_eqb negb]; ring.
Qed.
Lemma trans_inverse A : has A false -> exists B, m4_inverse E A = Done B /\ has B true.
Proof.
  intros H0. set (s0 := IS A (vconst 0%N) (vconst I0) (vconst I0)).
  destruct (trans_step I0 s0 I3 false) as (s1 & E1 & H1 & P1 & R1 & C1); try reflexivity; [exact H0|intros []; now left|intros [] [] _; cbn; lia|].
  cbn [is_ipiv is_indxr is_indxc s0] in P1, R1, C1.
  destruct (trans_step I1 s1 I2 true) as (s2 & E2 & H2 & P2 & R2 & C2); try reflexivity; [exact H1|rewrite P1; intros []; (now left) || (now right)|now rewrite P1| |].
  { rewrite P1. intros [] [] [X Y]; try discriminate X; try discriminate Y; cbn; lia. }
  rewrite P1 in P2. rewrite R1 in R2. rewrite C1 in C2.
  destruct (trans_step I2 s2 I1 true) as (s3 & E3 & H3 & P3 & R3 & C3); try reflexivity; [exact H2|rewrite P2; intros []; (now left) || (now right)|now rewrite P2| |].
  { rewrite P2. intros [] [] [X Y]; try discriminate X; try discriminate Y; cbn; lia. }
  rewrite P2 in P3. rewrite R2 in R3. rewrite C2 in C3.
  destruct (trans_step I3 s3 I0 true) as (s4 & E4 & H4 & P4 & R4 & C4); try reflexivity; [exact H3|rewrite P3; intros []; (now left) || (now right)|now rewrite P3| |].
  { rewrite P3. intros [] [] [X Y]; try discriminate X; try discriminate Y; cbn; lia. }
  rewrite P3 in P4. rewrite R3 in R4. rewrite C3 in C4.
  exists (is_minv s4). split; [|exact H4].
  unfold m4_inverse, inverse_with. fold s0. unfold for4 at 1. rewrite E1. cbn [obind]. rewrite E2. cbn [obind]. rewrite E3. cbn [obind].
  rewrite E4. cbn [obind]. unfold swap_columns, for4_rev. rewrite R4, C4. cbn [vget vset MatModel.w0 MatModel.w1 MatModel.w2 MatModel.w3].
  rewrite swap_cols_thm. cbn [obind]. rewrite swap_cols_thm. cbn [obind]. rewrite swap_cols_thm. cbn [obind]. rewrite swap_cols_thm.
  f_equal. apply mat_ext. intros r c. rewrite !mget_mkm. f_equal. unfold sw. destruct c; reflexivity.
Qed.
End Trans.
Lemma trans_small (d : Vector3 (flt f)) : (forall i, is_finite (vcoord i d) = true /\ Rabs (B2R (vcoord i d)) <= 1) ->
  exists t B, t_translate (f_float f) d = Done t /\ m4_inverse E (t_m t) = Done B /\ m4_eq E B (t_inv t) = true.
Proof.
  intros Hd. eexists. set (x := fun r => match r with I0 => vx d | I1 => vy d | I2 => vz d | I3 => zero end).
  assert (Hx : forall r, is_finite (x r) = true /\ Rabs (B2R (x r)) <= 1).
  { intros []; [exact (Hd AX)|exact (Hd AY)|exact (Hd AZ)|]. split; [exact (proj2 (zero_val f))|].
    cbn [x]. rewrite (proj1 (zero_val f)), Rabs_R0. lra. }
  destruct (trans_inverse x Hx (W4 (W4 one zero zero (vx d)) (W4 zero one zero (vy d)) (W4 zero zero one (vz d)) (W4 zero zero zero one))) as (B & EB & HB).
  { intros r c. unfold tval. destruct r, c; cbn [ix_eqb mget vget w0 w1 w2 w3]; first [apply isv_one|apply isv_zero|exact (isv_x x Hx I0)|exact (isv_x x Hx I1)|exact (isv_x x Hx I2)]. }
  exists B. split; [reflexivity|]. split; [exact EB|]. apply m4_eq_iff. intros r c. apply (isv_eqb f _ _ (tval x true r c)); [apply HB|].
  unfold tval. destruct r, c; cbn [ix_eqb mget vget w0 w1 w2 w3 t_inv]; first [apply isv_one|apply isv_zero|apply isv_opp; exact (isv_x x Hx I0)|apply isv_opp; exact (isv_x x Hx I1)|apply isv_opp; exact (isv_x x Hx I2)].
Qed.
(** The matrix of a scaling. *)
Lemma scale_inverse (x y z : flt f) : (forall a, a = x \/ a = y \/ a = z ->
    is_finite a = true /\ B2R a <> 0 /\ Rabs (nearest f (/ B2R a)) < bpow radix2 (femax f)) ->
  exists t B, t_scale (f_float f) x y z = Done t /\ m4_inverse E (t_m t) = Done B /\
    B2R (mget B I3 I2) = 0 /\ mget (t_inv t) I3 I2 = z /\
    forall r c, (r, c) <> (I3, I2) -> Beqb (mget B r c) (mget (t_inv t) r c) = true.
Proof.
  intros H. eexists. set (d := fun r => match r with I0 => x | I1 => y | I2 => z | I3 => one end).
  assert (Hd : forall r, solid (d r) /\ solid (f_div one (d r))).
  { assert (S : forall a, a = x \/ a = y \/ a = z -> solid a /\ solid (f_div one a)).
    { intros a Ha. destruct (H a Ha) as (H1 & H2 & H3). destruct (recip a H1 H2 H3) as (S1 & S2 & _). now split. }
    intros []; cbn [d]; auto. destruct (one_val f) as [O1 OF]. split; [split; [exact OF|lra]|].
    destruct (isv_div1 one (isv_one f)) as [F1 V1]. split; [exact F1|lra]. }
  destruct (mono_inverse d (fun r => r) (fun a b e => e) Hd
    (W4 (W4 x zero zero zero) (W4 zero y zero zero) (W4 zero zero z zero) (W4 zero zero zero one))) as (B & EB & HB).
  - intros []; reflexivity.
  - intros r k Hk. destruct r, k; try congruence; apply zer_zero.
  - exists B. split; [reflexivity|]. split; [exact EB|]. split; [|split; [reflexivity|]].
    + destruct (HB I3) as [_ H3]. destruct (H3 I2 ltac:(discriminate)) as [s ->]. reflexivity.
    + intros r c Hrc. destruct (HB r) as [Hr Hz]. destruct (ix_dec c r) as [->|N].
      * assert (F1 : is_finite (f_div one (d r)) = true) by apply (Hd r).
        assert (Eq : isv f (mget B r r) (B2R (f_div one (d r)))) by (rewrite Hr; now split).
        apply (isv_eqb f _ _ _ Eq). destruct r; cbn [mget vget w0 w1 w2 w3 t_inv d] in *; try (now split).
        destruct (isv_div1 one (isv_one f)) as [_ ->]. apply isv_one.
      * assert (Eq : isv f (mget B r c) 0) by (apply zer_val; now apply Hz). apply (isv_eqb f _ _ _ Eq).
        destruct r, c; try congruence; apply isv_zero.
Qed.
End I.
