(** The comparison-only properties for the element types of the code. *)
From Coq Require Import ZArith Reals Lia Lra.
From Flocq Require Import Core.Core IEEE754.BinarySingleNaN.
From Verif Require Import Base Elem GeoModel FloatInst GeoSpec OrderProofs.

Section Ty.
  Variable ty : ety.
  Notation E := (elem ty).
  Notation T := (car ty).
  Notation L := (elem_laws ty).
  Notation le := (tle ty).
  Notation leP := (fun a b => e_le (elem ty) a b = true).

  Lemma inb_iff (b : Bounds3 T) p : inb le b p <-> inb leP b p.
  Proof. unfold inb. split; intros H i; destruct (H i) as [H1 H2]; apply tle_iff in H1, H2; auto. Qed.
  Lemma nrm_iff (b : Bounds3 T) : normalised le b <-> normalised leP b.
  Proof. unfold normalised. split; intros H i; apply tle_iff, H. Qed.
  Lemma sub_iff (a b : Bounds3 T) : subbox le a b <-> subbox leP a b.
  Proof. unfold subbox. split; intros H p Hp; apply inb_iff, H, inb_iff, Hp. Qed.
  Lemma eqb_iff (a b : Bounds3 T) : eqbox le a b <-> eqbox leP a b.
  Proof. unfold eqbox. split; intros H p; [rewrite <- !inb_iff|rewrite !inb_iff]; apply H. Qed.
  Lemma valid_okp p : pt_valid ty p -> okp E p. Proof. intros H i. apply valid_nan, H. Qed.
  Lemma valid_okb b : box_valid ty b -> okb E b. Proof. intros [H1 H2]. split; now apply valid_okp. Qed.
  Lemma mn_valid a b : valid ty a -> valid ty b -> valid ty (mn E a b). Proof. destruct (mn_cases E a b) as [-> | ->]; auto. Qed.
  Lemma mx_valid a b : valid ty a -> valid ty b -> valid ty (mx E a b). Proof. destruct (mx_cases E a b) as [-> | ->]; auto. Qed.

  Lemma Forall_ok l : Forall (valid ty) l -> Forall (fun y => e_is_nan E y = false) l.
  Proof. apply Forall_impl. intros a. apply valid_nan. Qed.
  Lemma pmin_thm l : l <> [] -> Forall (valid ty) l -> exists m, pmin E l = Done m /\ In m l /\ Forall (le m) l.
  Proof.
    destruct l as [|x l]; intros N V; [congruence|]. inversion V as [|? ? Vx Vl]; subst.
    destruct (fold_min E L l x (valid_nan _ _ Vx) (Forall_ok _ Vl)) as (I1 & I2 & I3 & _).
    eexists. split; [reflexivity|]. split; [exact I1|]. constructor; [now apply tle_iff|].
    eapply Forall_impl; [|exact I3]. intros a. apply tle_iff.
  Qed.
  Lemma pmax_thm l : l <> [] -> Forall (valid ty) l -> exists m, pmax E l = Done m /\ In m l /\ Forall (fun x => le x m) l.
  Proof.
    destruct l as [|x l]; intros N V; [congruence|]. inversion V as [|? ? Vx Vl]; subst.
    destruct (fold_max E L l x (valid_nan _ _ Vx) (Forall_ok _ Vl)) as (I1 & I2 & I3 & _).
    eexists. split; [reflexivity|]. split; [exact I1|]. constructor; [now apply tle_iff|].
    eapply Forall_impl; [|exact I3]. intros a. apply tle_iff.
  Qed.

  Lemma new_valid p q b : b3_new E p q = Done b -> pt_valid ty p -> pt_valid ty q -> box_valid ty b.
  Proof.
    intros H Hp Hq. destruct (new_coord E p q) as (b' & E1 & K). rewrite E1 in H. injection H as ->.
    split; intros i; rwi K i; [apply mn_valid|apply mx_valid]; auto.
  Qed.
  Lemma new_thm p q : pt_valid ty p -> pt_valid ty q -> exists b, b3_new E p q = Done b /\ good_box ty b /\
    inb le b p /\ inb le b q /\ forall c, inb le c p -> inb le c q -> subbox le b c.
  Proof.
    intros Hp Hq. destruct (new_spec E L p q (valid_okp _ Hp) (valid_okp _ Hq)) as (b & E1 & _ & N & I1 & I2 & M & _).
    exists b. split; [exact E1|]. split; [split; [eapply new_valid; eauto | now apply nrm_iff]|].
    split; [now apply inb_iff|]. split; [now apply inb_iff|].
    intros c C1 C2. apply sub_iff, M; now apply inb_iff.
  Qed.
  Lemma new_comm_thm p q : pt_valid ty p -> pt_valid ty q ->
    exists b b', b3_new E p q = Done b /\ b3_new E q p = Done b' /\ eqbox le b b'.
  Proof.
    intros Hp Hq. destruct (new_comm E L p q (valid_okp _ Hp) (valid_okp _ Hq)) as (b & b' & E1 & E2 & K).
    exists b, b'. split; [exact E1|]. split; [exact E2|]. now apply eqb_iff.
  Qed.
  Lemma new_pt_thm p : pt_valid ty p -> exists b, b3_new_pt E p = Done b /\ good_box ty b /\
    forall q, inb le b q <-> forall i, same ty (coord i p) (coord i q).
  Proof.
    intros Hp. destruct (new_pt_spec E L p (valid_okp _ Hp)) as (b & E1 & _ & N & I & K).
    exists b. split; [exact E1|]. split; [split; [eapply new_valid; eauto | now apply nrm_iff]|].
    intros q. rewrite inb_iff, K. split.
    - intros [_ H] i. destruct (H i). split; now apply tle_iff.
    - intros H. split; [|intros i; destruct (H i); split; now apply tle_iff].
      intros i. destruct (H i) as [H1 _]. apply tle_iff in H1. now apply (ol_ok E L) in H1.
  Qed.

  Lemma union_valid s b u : b3_union E s b = Done u -> box_valid ty s -> box_valid ty b -> box_valid ty u.
  Proof.
    intros H [S1 S2] [B1 B2]. destruct (union_coord E s b) as (b' & E1 & K). rewrite E1 in H. injection H as ->.
    split; intros i; rwi K i; [apply mn_valid|apply mx_valid]; auto using mn_valid, mx_valid.
  Qed.
  Lemma union_thm a b : good_box ty a -> good_box ty b -> exists u, b3_union E a b = Done u /\ good_box ty u /\
    subbox le a u /\ subbox le b u /\ forall c, subbox le a c -> subbox le b c -> subbox le u c.
  Proof.
    intros [Va Na] [Vb Nb]. apply nrm_iff in Na, Nb.
    destruct (union_spec E L a b (valid_okb _ Va) Na (valid_okb _ Vb) Nb) as (u & E1 & _ & N & S1 & S2 & S3).
    exists u. split; [exact E1|]. split; [split; [eapply union_valid; eauto | now apply nrm_iff]|].
    split; [now apply sub_iff|]. split; [now apply sub_iff|].
    intros c C1 C2. apply sub_iff, S3; now apply sub_iff.
  Qed.
  Lemma union_comm_thm a b : good_box ty a -> good_box ty b ->
    exists u u', b3_union E a b = Done u /\ b3_union E b a = Done u' /\ eqbox le u u'.
  Proof.
    intros Ha Hb. destruct (union_thm a b Ha Hb) as (u & E1 & _ & S1 & S2 & S3).
    destruct (union_thm b a Hb Ha) as (v & E2 & _ & T1 & T2 & T3).
    exists u, v. split; [exact E1|]. split; [exact E2|]. intros p; split; [apply S3 | apply T3]; auto.
  Qed.
  Lemma union_assoc_thm a b c : good_box ty a -> good_box ty b -> good_box ty c ->
    exists ab bc l r, b3_union E a b = Done ab /\ b3_union E b c = Done bc /\
      b3_union E ab c = Done l /\ b3_union E a bc = Done r /\ eqbox le l r.
  Proof.
    intros Ha Hb Hc. destruct (union_thm a b Ha Hb) as (ab & E1 & G1 & S1 & S2 & S3).
    destruct (union_thm b c Hb Hc) as (bc & E2 & G2 & T1 & T2 & T3).
    destruct (union_thm ab c G1 Hc) as (l & E3 & G3 & L1 & L2 & L3).
    destruct (union_thm a bc Ha G2) as (r & E4 & G4 & R1 & R2 & R3).
    exists ab, bc, l, r. split; [exact E1|]. split; [exact E2|]. split; [exact E3|]. split; [exact E4|].
    assert (X : forall x y z : Bounds3 T, subbox le x y -> subbox le y z -> subbox le x z) by (unfold subbox; auto).
    intros p; split.
    - apply L3; [apply S3; auto|]; eapply X; eauto.
    - apply R3; [|apply T3; auto]; eapply X; eauto.
  Qed.
  Lemma union_idem_thm a : good_box ty a -> exists u, b3_union E a a = Done u /\ eqbox le u a.
  Proof.
    intros Ha. destruct (union_thm a a Ha Ha) as (u & E1 & _ & S1 & S2 & S3). exists u. split; [exact E1|].
    intros p; split; [apply S3; unfold subbox; auto | apply S1].
  Qed.
  Lemma union_pt_valid s p u : b3_union_pt E s p = Done u -> box_valid ty s -> pt_valid ty p -> box_valid ty u.
  Proof.
    intros H [S1 S2] B1. destruct (union_pt_coord E s p) as (b' & E1 & K). rewrite E1 in H. injection H as ->.
    split; intros i; rwi K i; [apply mn_valid|apply mx_valid]; auto using mn_valid, mx_valid.
  Qed.
  Lemma union_pt_thm a p : good_box ty a -> pt_valid ty p -> exists u, b3_union_pt E a p = Done u /\ good_box ty u /\
    subbox le a u /\ inb le u p /\ forall c, subbox le a c -> inb le c p -> subbox le u c.
  Proof.
    intros [Va Na] Hp. apply nrm_iff in Na.
    destruct (union_pt_spec E L a p (valid_okb _ Va) Na (valid_okp _ Hp)) as (u & E1 & _ & N & S1 & S2 & S3).
    exists u. split; [exact E1|]. split; [split; [eapply union_pt_valid; eauto | now apply nrm_iff]|].
    split; [now apply sub_iff|]. split; [now apply inb_iff|].
    intros c C1 C2. apply sub_iff, S3; [now apply sub_iff | now apply inb_iff].
  Qed.

  Lemma intersect_valid s b u : b3_intersect E s b = Done u -> box_valid ty s -> box_valid ty b -> box_valid ty u.
  Proof.
    intros H [S1 S2] [B1 B2]. destruct (intersect_coord E s b) as (b' & E1 & K). rewrite E1 in H. injection H as ->.
    split; intros i; rwi K i; [apply mn_valid|apply mx_valid]; auto using mn_valid, mx_valid.
  Qed.
  Lemma overlaps_thm a b : good_box ty a -> good_box ty b ->
    (b3_overlaps E a b = true <-> exists p, pt_valid ty p /\ inb le a p /\ inb le b p).
  Proof.
    intros [Va Na] [Vb Nb]. apply nrm_iff in Na, Nb. split.
    - intros Ov. destruct (intersect_spec E L a b (valid_okb _ Va) Na (valid_okb _ Vb) Nb Ov) as (u & E1 & [O1 O2] & N & H).
      pose proof (intersect_valid _ _ _ E1 Va Vb) as [V1 V2].
      exists (b_min u). split; [exact V1|]. rewrite !inb_iff. apply H. intros i. split; [apply (ol_refl E L), O1 | apply N].
    - intros (p & V & H1 & H2). apply (overlaps_spec E L a b (valid_okb _ Va) Na (valid_okb _ Vb) Nb).
      exists p. split; [now apply valid_okp|]. split; now apply inb_iff.
  Qed.
  Lemma intersect_thm a b : good_box ty a -> good_box ty b -> (exists p, inb le a p /\ inb le b p) ->
    exists u, b3_intersect E a b = Done u /\ good_box ty u /\ forall p, inb le u p <-> inb le a p /\ inb le b p.
  Proof.
    intros [Va Na] [Vb Nb] (p & P1 & P2). apply nrm_iff in Na, Nb.
    assert (Ov : b3_overlaps E a b = true).
    { apply (overlaps_spec E L a b (valid_okb _ Va) Na (valid_okb _ Vb) Nb). exists p.
      rewrite inb_iff in P1, P2. split; [|auto]. intros i. destruct (P1 i) as [K _]. now apply (ol_ok E L) in K. }
    destruct (intersect_spec E L a b (valid_okb _ Va) Na (valid_okb _ Vb) Nb Ov) as (u & E1 & _ & N & H).
    exists u. split; [exact E1|]. split; [split; [eapply intersect_valid; eauto | now apply nrm_iff]|].
    intros q. rewrite !inb_iff. apply H.
  Qed.
  (** Disjoint along an axis: the result covers the gap. *)
  Lemma intersect_gap_thm a b i : good_box ty a -> good_box ty b ->
    le (coord i (b_max a)) (coord i (b_min b)) -> ~ le (coord i (b_min b)) (coord i (b_max a)) ->
    exists u, b3_intersect E a b = Done u /\ good_box ty u /\
      coord i (b_min u) = coord i (b_max a) /\ coord i (b_max u) = coord i (b_min b).
  Proof.
    intros [Va Na] [Vb Nb] H1 H2. apply nrm_iff in Na, Nb. rewrite tle_iff in H1, H2.
    destruct (intersect_gap E L a b i (valid_okb _ Va) Na (valid_okb _ Vb) Nb) as (u & E1 & K1 & K2).
    { apply (lt_iff E L). tauto. }
    exists u. split; [exact E1|]. split; [|auto]. split; [eapply intersect_valid; eauto|].
    apply nrm_iff. destruct (intersect_coord E a b) as (u' & E2 & K). rewrite E1 in E2. injection E2 as <-.
    destruct (valid_okb _ Va) as [A1 A2], (valid_okb _ Vb) as [B1 B2].
    intros j. cbv beta. rwi K j. apply (mn_le_mx E L); auto using mn_ok, mx_ok.
  Qed.

  Lemma inside_thm b p : b3_inside E b p = true <-> inb le b p.
  Proof. rewrite inb_iff. apply inside_iff. Qed.
  Lemma exclusive_thm b p : b3_inside_exclusive E b p = true <->
    inb le b p /\ forall i, ~ same ty (coord i p) (coord i (b_max b)).
  Proof.
    rewrite inb_iff, (exclusive_iff E L). unfold same. split; intros [H1 H2]; (split; [exact H1|]); intros i;
      specialize (H2 i); rewrite !tle_iff in *; auto.
  Qed.

  Lemma corner_mod8 (b : Bounds3 T) i : b3_corner b i = b3_corner b (i mod 8)%N.
  Proof.
    unfold b3_corner. assert (X : forall k, (k < 8)%N -> N.land i k = N.land (i mod 8) k).
    { intros k Hk. change 8%N with (2 ^ 3)%N. rewrite <- N.land_ones, <- N.land_assoc. f_equal.
      destruct k as [|p]; auto. do 3 (destruct p as [p|p|]; try reflexivity; try lia). }
    now rewrite !X by lia.
  Qed.
  Lemma corner_axis (b : Bounds3 T) n i :
    coord i (b3_corner b n) = if N.testbit n (N.of_nat (axis_nat i)) then coord i (b_min b) else coord i (b_max b).
  Proof.
    assert (X : forall k, (0 <? N.land n (2 ^ k))%N = N.testbit n k).
    { intros k. destruct (N.testbit n k) eqn:Q.
      - apply N.ltb_lt. enough (N.land n (2 ^ k) <> 0%N) by lia. intros Z.
        assert (N.testbit (N.land n (2 ^ k)) k = true) as W by (rewrite N.land_spec, Q, N.pow2_bits_true; auto).
        rewrite Z in W. destruct k; discriminate.
      - enough (N.land n (2 ^ k) = 0)%N as -> by reflexivity. apply N.bits_inj_0. intros j.
        rewrite N.land_spec, N.pow2_bits_eqb. destruct (N.eqb_spec k j) as [<-|]; [now rewrite Q | apply andb_false_r]. }
    rewrite <- X. unfold b3_corner.
    destruct i; cbn [axis_nat coord px py pz]; [change (2 ^ N.of_nat 0)%N with 1%N|change (2 ^ N.of_nat 1)%N with 2%N|change (2 ^ N.of_nat 2)%N with 4%N];
      destruct (0 <? _)%N; reflexivity.
  Qed.
  Lemma corner_all (b : Bounds3 T) p : (forall i, coord i p = coord i (b_min b) \/ coord i p = coord i (b_max b)) ->
    exists n, (n < 8)%N /\ b3_corner b n = p.
  Proof.
    destruct p as [x y z]. intros H. pose proof (H AX) as Hx. pose proof (H AY) as Hy. pose proof (H AZ) as Hz. cbn in *.
    destruct Hx as [-> | ->], Hy as [-> | ->], Hz as [-> | ->];
      [exists 7%N|exists 3%N|exists 5%N|exists 1%N|exists 6%N|exists 2%N|exists 4%N|exists 0%N]; (split; [lia|reflexivity]).
  Qed.
  Lemma tle_refl a : valid ty a -> le a a.
  Proof. intros H. apply tle_iff, (ol_refl E L), valid_nan, H. Qed.
  Lemma tle_trans a b c : le a b -> le b c -> le a c.
  Proof. rewrite !tle_iff. apply (tr E L). Qed.
  Lemma corner_inside b n : good_box ty b -> b3_inside E b (b3_corner b n) = true.
  Proof.
    intros [[V1 V2] N]. apply inside_thm. intros i. rewrite corner_axis.
    destruct (N.testbit n _); split; auto using tle_refl; apply N.
  Qed.

  Lemma extremes : valid ty (e_max_value E) /\ valid ty (e_min_value E) /\
    forall a, valid ty a -> le a (e_max_value E) /\ le (e_min_value E) a.
  Proof.
    destruct ty as [f|chk]; cbn [valid elem e_max_value e_min_value f_elem i64 tle car].
    - split; [reflexivity|]. split; [reflexivity|]. intros a Ha. pose proof (B2R_big f a) as Ra. apply Rabs_lt_inv in Ra.
      split; apply leb_key; (split; [auto|]; split; [auto|]); pose proof (big_pos f);
        change (key f (f_inf f)) with (big f); change (key f (Bopp (f_inf f))) with (- big f)%R;
        destruct a as [|[]| |]; try discriminate; cbn [key] in *; lra.
    - split; [reflexivity|]. split; [reflexivity|]. intros a Ha. unfold in_range in Ha. lia.
  Qed.
  Lemma new_inf_thm : exists b, b3_new_inf E = Done b /\ good_box ty b /\ forall p, pt_valid ty p -> inb le b p.
  Proof.
    destruct extremes as (V1 & V2 & H).
    destruct (new_thm (P3 (e_max_value E) (e_max_value E) (e_max_value E)) (P3 (e_min_value E) (e_min_value E) (e_min_value E)))
      as (b & E1 & G & I1 & I2 & M); [intros []; auto|intros []; auto|].
    exists b. split; [exact E1|]. split; [exact G|]. intros p Hp i.
    destruct (I1 i) as [_ A], (I2 i) as [B _].
    assert (A' : le (e_max_value E) (coord i (b_max b))) by (destruct i; exact A).
    assert (B' : le (coord i (b_min b)) (e_min_value E)) by (destruct i; exact B).
    destruct (H _ (Hp i)) as [K1 K2]. split; eapply tle_trans; eauto.
  Qed.
  Lemma new_inf_union a : good_box ty a -> exists b u, b3_new_inf E = Done b /\ b3_union E a b = Done u /\
    forall p, pt_valid ty p -> inb le u p.
  Proof.
    intros Ha. destruct new_inf_thm as (b & E1 & G & K). destruct (union_thm a b Ha G) as (u & E2 & _ & _ & S & _).
    exists b, u. auto.
  Qed.
  Lemma new_inf_intersect a : good_box ty a -> exists b u, b3_new_inf E = Done b /\ b3_intersect E a b = Done u /\
    forall p, pt_valid ty p -> (inb le u p <-> inb le a p).
  Proof.
    intros Ha. destruct new_inf_thm as (b & E1 & G & K).
    assert (W : inb le a (b_min a)) by (destruct Ha as [[V _] N]; intros i; split; [apply tle_refl, V | apply N]).
    destruct (intersect_thm a b Ha G) as (u & E2 & _ & S).
    { exists (b_min a). split; auto. apply K, Ha. }
    exists b, u. split; [exact E1|]. split; [exact E2|]. intros p Hp. rewrite S. intuition.
  Qed.

  Lemma max_dimension_thm v : (forall i, valid ty (vcoord i v)) ->
    exists i, v3_max_dimension E v = axis_nat i /\ forall j,
      le (vcoord j v) (vcoord i v) /\ (axis_nat i < axis_nat j -> ~ le (vcoord i v) (vcoord j v)).
  Proof.
    intros V. destruct v as [a b c]. pose proof (V AX) as Va. pose proof (V AY) as Vb. pose proof (V AZ) as Vc. cbn [vcoord vx vy vz] in *.
    assert (R : forall x, valid ty x -> le x x) by apply tle_refl.
    destruct (dim3 E L a b c (valid_nan _ _ Va) (valid_nan _ _ Vb) (valid_nan _ _ Vc)) as [(H & H1 & H2)|[(H & H1 & H2)|(H & H1 & H2)]];
      unfold v3_max_dimension; cbn [vx vy vz] in *; rewrite H.
    - exists AX. split; [reflexivity|]. apply (lt_iff E L) in H1, H2. rewrite <- !tle_iff in *.
      intros []; cbn [vcoord vx vy vz axis_nat]; split; auto; try tauto; try (intros; lia).
    - exists AY. split; [reflexivity|]. apply (lt_iff E L) in H2. rewrite <- !tle_iff in *.
      intros []; cbn [vcoord vx vy vz axis_nat]; split; auto; try tauto; try (intros; lia).
    - exists AZ. split; [reflexivity|]. rewrite <- !tle_iff in *.
      intros []; cbn [vcoord vx vy vz axis_nat]; split; auto; try tauto; try (intros; lia).
  Qed.
  Lemma n3_max_dimension_eq (n : Normal3 T) : n3_max_dimension E n = v3_max_dimension E (V3 (nx n) (ny n) (nz n)).
  Proof. reflexivity. Qed.

  Lemma pair_thm a b : valid ty a -> valid ty b ->
    (exists m, pmin E [a; b] = Done m /\ (m = a \/ m = b) /\ le m a /\ le m b) /\
    (exists m, pmax E [a; b] = Done m /\ (m = a \/ m = b) /\ le a m /\ le b m).
  Proof.
    intros Ha Hb. apply valid_nan in Ha, Hb. split; eexists; (split; [reflexivity|]).
    - split; [apply (mn_cases E)|]. rewrite !tle_iff. split; [apply (mn_l E L)|apply (mn_r E L)]; auto.
    - split; [apply (mx_cases E)|]. rewrite !tle_iff. split; [apply (mx_l E L)|apply (mx_r E L)]; auto.
  Qed.
  Lemma mn_smaller a b : valid ty a -> valid ty b -> smaller ty (mn E a b) a b.
  Proof. intros Ha Hb. destruct (pair_thm a b Ha Hb) as [(m & H & K) _]. injection H as <-. exact K. Qed.
  Lemma mx_larger a b : valid ty a -> valid ty b -> larger ty (mx E a b) a b.
  Proof. intros Ha Hb. destruct (pair_thm a b Ha Hb) as [_ (m & H & K)]. injection H as <-. exact K. Qed.
  Lemma p3_min_thm p q : pt_valid ty p -> pt_valid ty q -> exists m, p3_min E p q = Done m /\
    forall i, smaller ty (coord i m) (coord i p) (coord i q).
  Proof. intros Hp Hq. eexists. split; [reflexivity|]. intros i. specialize (Hp i). specialize (Hq i). destruct i; apply mn_smaller; auto. Qed.
  Lemma p3_max_thm p q : pt_valid ty p -> pt_valid ty q -> exists m, p3_max E p q = Done m /\
    forall i, larger ty (coord i m) (coord i p) (coord i q).
  Proof. intros Hp Hq. eexists. split; [reflexivity|]. intros i. specialize (Hp i). specialize (Hq i). destruct i; apply mx_larger; auto. Qed.
  Lemma v3_min_thm p q : (forall i, valid ty (vcoord i p)) -> (forall i, valid ty (vcoord i q)) -> exists m, v3_min E p q = Done m /\
    forall i, smaller ty (vcoord i m) (vcoord i p) (vcoord i q).
  Proof. intros Hp Hq. eexists. split; [reflexivity|]. intros i. specialize (Hp i). specialize (Hq i). destruct i; apply mn_smaller; auto. Qed.
  Lemma v3_max_thm p q : (forall i, valid ty (vcoord i p)) -> (forall i, valid ty (vcoord i q)) -> exists m, v3_max E p q = Done m /\
    forall i, larger ty (vcoord i m) (vcoord i p) (vcoord i q).
  Proof. intros Hp Hq. eexists. split; [reflexivity|]. intros i. specialize (Hp i). specialize (Hq i). destruct i; apply mx_larger; auto. Qed.
  Lemma n3_min_thm p q : (forall i, valid ty (ncoord i p)) -> (forall i, valid ty (ncoord i q)) -> exists m, n3_min E p q = Done m /\
    forall i, smaller ty (ncoord i m) (ncoord i p) (ncoord i q).
  Proof. intros Hp Hq. eexists. split; [reflexivity|]. intros i. specialize (Hp i). specialize (Hq i). destruct i; apply mn_smaller; auto. Qed.
  Lemma n3_max_thm p q : (forall i, valid ty (ncoord i p)) -> (forall i, valid ty (ncoord i q)) -> exists m, n3_max E p q = Done m /\
    forall i, larger ty (ncoord i m) (ncoord i p) (ncoord i q).
  Proof. intros Hp Hq. eexists. split; [reflexivity|]. intros i. specialize (Hp i). specialize (Hq i). destruct i; apply mx_larger; auto. Qed.
  Lemma v3_components v : (forall i, valid ty (vcoord i v)) ->
    (exists m, v3_min_component E v = Done m /\ (exists i, m = vcoord i v) /\ forall i, le m (vcoord i v)) /\
    (exists m, v3_max_component E v = Done m /\ (exists i, m = vcoord i v) /\ forall i, le (vcoord i v) m).
  Proof.
    intros V. destruct v as [a b c]. assert (W : Forall (valid ty) [a; b; c]).
    { repeat constructor; [apply (V AX)|apply (V AY)|apply (V AZ)]. }
    split.
    - destruct (pmin_thm [a; b; c]) as (m & H & I & F); [discriminate|auto|]. exists m. split; [exact H|].
      inversion F as [|? ? F1 F']; subst. inversion F' as [|? ? F2 F'']; subst. inversion F'' as [|? ? F3 _]; subst.
      split; [destruct I as [<-|[<-|[<-|[]]]]; [exists AX|exists AY|exists AZ]; reflexivity | intros []; auto].
    - destruct (pmax_thm [a; b; c]) as (m & H & I & F); [discriminate|auto|]. exists m. split; [exact H|].
      inversion F as [|? ? F1 F']; subst. inversion F' as [|? ? F2 F'']; subst. inversion F'' as [|? ? F3 _]; subst.
      split; [destruct I as [<-|[<-|[<-|[]]]]; [exists AX|exists AY|exists AZ]; reflexivity | intros []; auto].
  Qed.
End Ty.

(** NaN and [pmin]/[pmax]. *)
Lemma pmin_nan f (l : list (flt f)) : pmin (f_elem f) (B754_nan :: l) = Done B754_nan.
Proof. unfold pmin. now rewrite (fold_min_nan (f_elem f) (f_laws f)). Qed.
Lemma pmax_nan f (l : list (flt f)) : pmax (f_elem f) (B754_nan :: l) = Done B754_nan.
Proof. unfold pmax. now rewrite (fold_max_nan (f_elem f) (f_laws f)). Qed.
Lemma pmin_skip f x (l : list (flt f)) : pmin (f_elem f) (x :: l) = pmin (f_elem f) (x :: filter (fun y => negb (is_nan y)) l).
Proof. unfold pmin. now rewrite (fold_min_skip (f_elem f) (f_laws f)). Qed.
Lemma pmax_skip f x (l : list (flt f)) : pmax (f_elem f) (x :: l) = pmax (f_elem f) (x :: filter (fun y => negb (is_nan y)) l).
Proof. unfold pmax. now rewrite (fold_max_skip (f_elem f) (f_laws f)). Qed.

(** [maximum_extent] is [max_dimension] of the diagonal, whatever the values (NaN included). *)
Lemma extent_dimension ty b : b3_maximum_extent (elem ty) b =
  obind (b3_diagonal (elem ty) b) (fun d => Done (v3_max_dimension (elem ty) d)).
Proof.
  unfold b3_maximum_extent. destruct (b3_diagonal (elem ty) b) as [[a c d]| |]; auto. cbn [obind].
  unfold v3_max_dimension. cbn [vx vy vz].
  set (E := elem ty). pose proof (elem_laws ty) as L. fold E in L.
  destruct (e_lt E c a) eqn:Q1; cbn [andb]; auto. destruct (e_lt E d a) eqn:Q2; auto.
  destruct (e_lt E d c) eqn:Q3; auto. exfalso.
  apply (lt_iff E L) in Q1, Q3. destruct Q1 as [A B], Q3 as [C D].
  pose proof (ol_trans E L _ _ _ C A) as X. assert (e_lt E d a = true); [|congruence].
  apply (lt_iff E L). split; auto. intros [_ Y]. apply B. split; auto. exact (ol_trans E L _ _ _ Y C).
Qed.
Lemma longest_axis ty b (d : axis -> car ty) :
  (forall i, e_sub (elem ty) (coord i (b_max b)) (coord i (b_min b)) = Done (d i)) -> (forall i, valid ty (d i)) ->
  exists i, b3_maximum_extent (elem ty) b = Done (axis_nat i) /\ forall j,
    tle ty (d j) (d i) /\ (axis_nat i < axis_nat j -> ~ tle ty (d i) (d j)).
Proof.
  intros H V. assert (D : b3_diagonal (elem ty) b = Done (V3 (d AX) (d AY) (d AZ))).
  { unfold b3_diagonal, p3_sub, mk3, obind. pose proof (H AX) as HX. pose proof (H AY) as HY. pose proof (H AZ) as HZ.
    cbn [coord] in HX, HY, HZ. unfold lift2, obind. now rewrite HX, HY, HZ. }
  rewrite extent_dimension, D. cbn [obind].
  destruct (max_dimension_thm ty (V3 (d AX) (d AY) (d AZ))) as (i & E & Hi); [intros []; apply V|].
  exists i. rewrite E. split; [reflexivity|]. intros j. specialize (Hi j). now destruct i, j.
Qed.
