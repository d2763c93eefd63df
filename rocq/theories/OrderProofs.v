(** Facts about code that only compares elements. *)
From Coq Require Import ZArith Reals Lia Lra.
From Flocq Require Import Core.Core IEEE754.BinarySingleNaN.
From Verif Require Import Base Elem GeoModel FloatInst GeoSpec.

(** The order laws the proofs use: a total preorder on the values that are not NaN, NaN comparing false. *)
Record order_laws {T} (E : Elem T) : Prop := {
  ol_refl : forall a, e_is_nan E a = false -> e_le E a a = true;
  ol_trans : forall a b c, e_le E a b = true -> e_le E b c = true -> e_le E a c = true;
  ol_total : forall a b, e_is_nan E a = false -> e_is_nan E b = false -> e_le E a b = false -> e_le E b a = true;
  ol_ok : forall a b, e_le E a b = true -> e_is_nan E a = false /\ e_is_nan E b = false;
  ol_lt : forall a b, e_lt E a b = negb (e_is_nan E a) && negb (e_is_nan E b) && negb (e_le E b a);
  ol_eq : forall a b, e_eq E a b = e_le E a b && e_le E b a
}.

Lemma i64_laws chk : order_laws (i64 chk).
Proof.
  constructor; cbn; intros; rewrite ?Z.leb_le, ?Z.leb_gt in *; try lia; auto.
Qed.

Section Flt.
  Variable f : fmt.
  Notation B := (flt f).
  Lemma cmp_swap (a b : B) : Bcompare b a = match Bcompare a b with Some c => Some (CompOpp c) | None => None end.
  Proof. apply Bcompare_swap. Qed.
  Lemma leb_cmp (a b : B) : Bleb a b = match Bcompare a b with Some Lt | Some Eq => true | _ => false end.
  Proof. unfold Bleb, SpecFloat.SFleb, Bcompare. destruct (SpecFloat.SFcompare _ _) as [[]|]; auto. Qed.
  Lemma ltb_cmp (a b : B) : Bltb a b = match Bcompare a b with Some Lt => true | _ => false end.
  Proof. unfold Bltb, SpecFloat.SFltb, Bcompare. destruct (SpecFloat.SFcompare _ _) as [[]|]; auto. Qed.
  Lemma eqb_cmp (a b : B) : Beqb a b = match Bcompare a b with Some Eq => true | _ => false end.
  Proof. unfold Beqb, SpecFloat.SFeqb, Bcompare. destruct (SpecFloat.SFcompare _ _) as [[]|]; auto. Qed.
  Lemma cmp_none (a b : B) : Bcompare a b = None <-> is_nan a = true \/ is_nan b = true.
  Proof.
    destruct a as [s|s| |s m e H], b as [s'|s'| |s' m' e' H']; try destruct s; try destruct s'; cbn;
      (split; [intro Q; try discriminate Q; auto | intros [Q|Q]; try discriminate Q; auto]).
    all: cbn in *; try destruct (e ?= e')%Z; try destruct (CompOpp _); try discriminate; auto.
  Qed.
  Lemma cmp_finite (a b : B) : is_finite a = true -> is_finite b = true -> Bcompare a b = Some (Rcompare (B2R a) (B2R b)).
  Proof. apply Bcompare_correct. Qed.

  (** Non-NaN floats ordered by a key in the reals: infinities lie outside all finite values. *)
  Definition big : R := bpow radix2 (femax f).
  Definition key (a : B) : R := match a with B754_infinity true => (- big)%R | B754_infinity false => big | _ => B2R a end.
  Lemma B2R_big (a : B) : (Rabs (B2R a) < big)%R.
  Proof. apply abs_B2R_lt_emax; apply fprec_gt_0. Qed.
  Lemma key_finite a : is_finite a = true -> key a = B2R a.
  Proof. destruct a as [| [] | |]; auto; discriminate. Qed.
  Lemma big_pos : (0 < big)%R. Proof. apply bpow_gt_0. Qed.
  Lemma cmp_key (a b : B) : is_nan a = false -> is_nan b = false -> Bcompare a b = Some (Rcompare (key a) (key b)).
  Proof.
    intros Ha Hb. pose proof (B2R_big a) as Ra. pose proof (B2R_big b) as Rb. pose proof big_pos as Pb.
    apply Rabs_lt_inv in Ra. apply Rabs_lt_inv in Rb.
    destruct (is_finite a) eqn:Fa, (is_finite b) eqn:Fb.
    - rewrite cmp_finite, !key_finite by auto. reflexivity.
    - rewrite (key_finite a) by auto. destruct b as [|s| |]; try discriminate. 
      destruct a as [sa|sa| |sa m e He]; try discriminate; destruct s; cbn [key] in *; cbn [Bcompare B2SF SpecFloat.SFcompare]; f_equal; symmetry;
        first [apply Rcompare_Gt; lra | apply Rcompare_Lt; lra].
    - rewrite (key_finite b) by auto. destruct a as [|s| |]; try discriminate. 
      destruct b as [sb|sb| |sb m e He]; try discriminate; destruct s; cbn [key] in *; cbn [Bcompare B2SF SpecFloat.SFcompare]; f_equal; symmetry;
        first [apply Rcompare_Gt; lra | apply Rcompare_Lt; lra].
    - destruct a as [|s| |]; try discriminate. destruct b as [|s'| |]; try discriminate.
      destruct s, s'; cbn [key]; cbn [Bcompare B2SF SpecFloat.SFcompare]; f_equal; symmetry;
        first [apply Rcompare_Eq; lra | apply Rcompare_Gt; lra | apply Rcompare_Lt; lra].
  Qed.
  Lemma leb_key (a b : B) : Bleb a b = true <-> is_nan a = false /\ is_nan b = false /\ (key a <= key b)%R.
  Proof.
    rewrite leb_cmp. destruct (is_nan a) eqn:Ha; [|destruct (is_nan b) eqn:Hb].
    - rewrite (proj2 (cmp_none a b)) by auto. split; [discriminate|intros (Q & _); discriminate].
    - rewrite (proj2 (cmp_none a b)) by auto. split; [discriminate|intros (_ & Q & _); discriminate].
    - rewrite cmp_key by auto. destruct (Rcompare_spec (key a) (key b)); split; intros; try discriminate; repeat split; try lra; auto.
  Qed.
  Lemma ltb_key (a b : B) : Bltb a b = true <-> is_nan a = false /\ is_nan b = false /\ (key a < key b)%R.
  Proof.
    rewrite ltb_cmp. destruct (is_nan a) eqn:Ha; [|destruct (is_nan b) eqn:Hb].
    - rewrite (proj2 (cmp_none a b)) by auto. split; [discriminate|intros (Q & _); discriminate].
    - rewrite (proj2 (cmp_none a b)) by auto. split; [discriminate|intros (_ & Q & _); discriminate].
    - rewrite cmp_key by auto. destruct (Rcompare_spec (key a) (key b)); split; intros; try discriminate; repeat split; try lra; auto.
  Qed.
  Lemma f_laws : order_laws (f_elem f).
  Proof.
    constructor; cbn [f_elem e_le e_lt e_eq e_is_nan].
    - intros a Ha. apply leb_key. repeat split; auto. lra.
    - intros a b c H1 H2. apply leb_key in H1, H2. apply leb_key. repeat split; try tauto. lra.
    - intros a b Ha Hb H. apply leb_key. repeat split; auto.
      destruct (Rle_or_lt (key b) (key a)) as [Q|Q]; auto. exfalso.
      rewrite (proj2 (leb_key a b)) in H; [discriminate|repeat split; auto; lra].
    - intros a b H. apply leb_key in H. tauto.
    - intros a b. rewrite ltb_cmp, leb_cmp, (cmp_swap a b).
      destruct (Bcompare a b) as [[]|] eqn:C; cbn; rewrite ?andb_false_r; auto.
      + destruct (is_nan a) eqn:Ha; [rewrite (proj2 (cmp_none a b)) in C by auto; discriminate|].
        destruct (is_nan b) eqn:Hb; [rewrite (proj2 (cmp_none a b)) in C by auto; discriminate|]. reflexivity.
      + apply cmp_none in C. destruct C as [-> | ->]; cbn; rewrite ?andb_false_r; auto.
    - intros a b. rewrite eqb_cmp, !leb_cmp, (cmp_swap a b). destruct (Bcompare a b) as [[]|]; auto.
  Qed.
End Flt.

Lemma elem_laws ty : order_laws (elem ty).
Proof. destruct ty; [apply f_laws | apply i64_laws]. Qed.
Lemma tle_iff ty a b : tle ty a b <-> e_le (elem ty) a b = true.
Proof. destruct ty; cbn; [tauto|]. rewrite Z.leb_le. tauto. Qed.
Lemma valid_nan ty a : valid ty a -> e_is_nan (elem ty) a = false.
Proof. destruct ty; cbn; auto. Qed.

Ltac rwi H i := let Q1 := fresh in let Q2 := fresh in destruct (H i) as [Q1 Q2]; rewrite ?Q1, ?Q2.

(** ** Generic part *)
Section Generic.
  Context {T : Type} (E : Elem T) (L : order_laws E).
  Notation ok a := (e_is_nan E a = false).
  Notation le a b := (e_le E a b = true).
  Notation leP := (fun a b => e_le E a b = true).
  Definition mn (a b : T) : T := if e_lt E b a then b else a.
  Definition mx (a b : T) : T := if e_lt E a b then b else a.

  Lemma lt_ok a b : ok a -> ok b -> e_lt E a b = negb (e_le E b a).
  Proof. intros Ha Hb. rewrite (ol_lt E L), Ha, Hb. reflexivity. Qed.
  Lemma lt_le a b : e_lt E a b = true -> le a b.
  Proof.
    rewrite (ol_lt E L). intros H. apply andb_prop in H as [H H3]. apply andb_prop in H as [H1 H2].
    apply negb_true_iff in H1, H2, H3. exact (ol_total E L _ _ H2 H1 H3).
  Qed.
  Lemma lt_nle a b : e_lt E a b = true -> e_le E b a = false.
  Proof. rewrite (ol_lt E L). intros H. apply andb_prop in H as [_ H]. now apply negb_true_iff. Qed.
  Lemma nlt_le a b : ok a -> ok b -> e_lt E a b = false -> le b a.
  Proof. intros Ha Hb. rewrite lt_ok by auto. apply negb_false_iff. Qed.
  Lemma mn_ok a b : ok a -> ok b -> ok (mn a b). Proof. unfold mn. destruct (e_lt E b a); auto. Qed.
  Lemma mx_ok a b : ok a -> ok b -> ok (mx a b). Proof. unfold mx. destruct (e_lt E a b); auto. Qed.
  Lemma mn_l a b : ok a -> ok b -> le (mn a b) a.
  Proof. intros Ha Hb. unfold mn. destruct (e_lt E b a) eqn:Q; [now apply lt_le | now apply (ol_refl E L)]. Qed.
  Lemma mn_r a b : ok a -> ok b -> le (mn a b) b.
  Proof. intros Ha Hb. unfold mn. destruct (e_lt E b a) eqn:Q; [now apply (ol_refl E L) | now apply nlt_le]. Qed.
  Lemma mx_l a b : ok a -> ok b -> le a (mx a b).
  Proof. intros Ha Hb. unfold mx. destruct (e_lt E a b) eqn:Q; [now apply lt_le | now apply (ol_refl E L)]. Qed.
  Lemma mx_r a b : ok a -> ok b -> le b (mx a b).
  Proof. intros Ha Hb. unfold mx. destruct (e_lt E a b) eqn:Q; [now apply (ol_refl E L) | now apply nlt_le]. Qed.
  Lemma mn_glb c a b : le c a -> le c b -> le c (mn a b). Proof. unfold mn. destruct (e_lt E b a); auto. Qed.
  Lemma mx_lub c a b : le a c -> le b c -> le (mx a b) c. Proof. unfold mx. destruct (e_lt E a b); auto. Qed.
  Lemma tr a b c : le a b -> le b c -> le a c. Proof. apply (ol_trans E L). Qed.
  Lemma mn_le_mx a b : ok a -> ok b -> le (mn a b) (mx a b).
  Proof. intros. apply tr with a; [now apply mn_l | now apply mx_l]. Qed.
  Lemma le_mn c a b : ok a -> ok b -> le c (mn a b) <-> le c a /\ le c b.
  Proof. intros Ha Hb. split; [intros H; split; eapply tr; eauto using mn_l, mn_r | intros []; now apply mn_glb]. Qed.
  Lemma mx_le c a b : ok a -> ok b -> le (mx a b) c <-> le a c /\ le b c.
  Proof. intros Ha Hb. split; [intros H; split; (eapply tr; [|exact H]); [apply mx_l|apply mx_r]; auto | intros []; now apply mx_lub]. Qed.
  Lemma mn_cases a b : mn a b = a \/ mn a b = b. Proof. unfold mn. destruct (e_lt E b a); auto. Qed.
  Lemma mx_cases a b : mx a b = a \/ mx a b = b. Proof. unfold mx. destruct (e_lt E a b); auto. Qed.
  (** In the right order already: [mn] and [mx] keep the first and second argument. *)
  Lemma mn_of_le a b : le a b -> mn a b = a.
  Proof. intros H. unfold mn. destruct (e_lt E b a) eqn:Q; auto. apply lt_nle in Q. congruence. Qed.
  Lemma mx_of_le a b : le a b -> le (mx a b) b /\ le b (mx a b).
  Proof.
    intros H. destruct (ol_ok E L _ _ H) as [Ha Hb]. split; [|now apply mx_r].
    apply mx_lub; auto. now apply (ol_refl E L).
  Qed.

  (** *** pmin, pmax *)
  Lemma fold_min l : forall x, ok x -> Forall (fun y => ok y) l ->
    let m := fold_left (fun m e => if e_lt E e m then e else m) l x in
    In m (x :: l) /\ le m x /\ Forall (fun y => le m y) l /\ ok m.
  Proof.
    induction l as [|y l IH]; intros x Hx Hl; cbn [fold_left].
    - cbn. repeat split; auto. now apply (ol_refl E L).
    - inversion Hl as [|? ? Hy Hl']; subst.
      destruct (IH (mn x y) (mn_ok x y Hx Hy) Hl') as (I1 & I2 & I3 & I4). unfold mn in *. cbv zeta in *.
      set (m := fold_left _ l _) in *. repeat split; auto.
      + destruct I1 as [I1|I1]; [|cbn; auto]. rewrite <- I1. destruct (e_lt E y x); cbn; auto.
      + eapply tr; eauto. apply mn_l; auto.
      + constructor; auto. eapply tr; eauto. apply mn_r; auto.
  Qed.
  Lemma fold_max l : forall x, ok x -> Forall (fun y => ok y) l ->
    let m := fold_left (fun m e => if e_lt E m e then e else m) l x in
    In m (x :: l) /\ le x m /\ Forall (fun y => le y m) l /\ ok m.
  Proof.
    induction l as [|y l IH]; intros x Hx Hl; cbn [fold_left].
    - cbn. repeat split; auto. now apply (ol_refl E L).
    - inversion Hl as [|? ? Hy Hl']; subst.
      destruct (IH (mx x y) (mx_ok x y Hx Hy) Hl') as (I1 & I2 & I3 & I4). unfold mx in *. cbv zeta in *.
      set (m := fold_left _ l _) in *. repeat split; auto.
      + destruct I1 as [I1|I1]; [|cbn; auto]. rewrite <- I1. destruct (e_lt E x y); cbn; auto.
      + eapply tr; eauto. apply mx_l; auto.
      + constructor; auto. eapply tr; eauto. apply mx_r; auto.
  Qed.
  Lemma lt_nan_l a b : e_is_nan E a = true -> e_lt E a b = false.
  Proof. intros H. rewrite (ol_lt E L), H. reflexivity. Qed.
  Lemma lt_nan_r a b : e_is_nan E b = true -> e_lt E a b = false.
  Proof. intros H. rewrite (ol_lt E L), H, andb_false_r. reflexivity. Qed.
  Lemma fold_min_nan l x : e_is_nan E x = true -> fold_left (fun m e => if e_lt E e m then e else m) l x = x.
  Proof. intros H. induction l; cbn; auto. now rewrite lt_nan_r. Qed.
  Lemma fold_max_nan l x : e_is_nan E x = true -> fold_left (fun m e => if e_lt E m e then e else m) l x = x.
  Proof. intros H. induction l; cbn; auto. now rewrite lt_nan_l. Qed.
  Lemma fold_min_skip l : forall x, fold_left (fun m e => if e_lt E e m then e else m) l x =
    fold_left (fun m e => if e_lt E e m then e else m) (filter (fun y => negb (e_is_nan E y)) l) x.
  Proof. induction l as [|y l IH]; intros x; cbn; auto. destruct (e_is_nan E y) eqn:Q; cbn; [rewrite lt_nan_l by auto|]; auto. Qed.
  Lemma fold_max_skip l : forall x, fold_left (fun m e => if e_lt E m e then e else m) l x =
    fold_left (fun m e => if e_lt E m e then e else m) (filter (fun y => negb (e_is_nan E y)) l) x.
  Proof. induction l as [|y l IH]; intros x; cbn; auto. destruct (e_is_nan E y) eqn:Q; cbn; [rewrite lt_nan_r by auto|]; auto. Qed.

  (** *** Boxes: what the operations return, coordinate by coordinate *)
  Definition okp (p : Point3 T) := forall i, ok (coord i p).
  Definition okb (b : Bounds3 T) := okp (b_min b) /\ okp (b_max b).
  Notation inB := (inb leP).
  Notation nrm := (normalised leP).
  Lemma new_coord p q : exists b, b3_new E p q = Done b /\ forall i,
    coord i (b_min b) = mn (coord i p) (coord i q) /\ coord i (b_max b) = mx (coord i p) (coord i q).
  Proof. eexists. split; [reflexivity|]. intros []; cbn; auto. Qed.
  Lemma union_coord s b : exists u, b3_union E s b = Done u /\ forall i,
    let lo := mn (coord i (b_min s)) (coord i (b_min b)) in let hi := mx (coord i (b_max s)) (coord i (b_max b)) in
    coord i (b_min u) = mn lo hi /\ coord i (b_max u) = mx lo hi.
  Proof. eexists. split; [reflexivity|]. intros []; cbn; auto. Qed.
  Lemma union_pt_coord s p : exists u, b3_union_pt E s p = Done u /\ forall i,
    let lo := mn (coord i (b_min s)) (coord i p) in let hi := mx (coord i (b_max s)) (coord i p) in
    coord i (b_min u) = mn lo hi /\ coord i (b_max u) = mx lo hi.
  Proof. eexists. split; [reflexivity|]. intros []; cbn; auto. Qed.
  Lemma intersect_coord s b : exists u, b3_intersect E s b = Done u /\ forall i,
    let lo := mx (coord i (b_min s)) (coord i (b_min b)) in let hi := mn (coord i (b_max s)) (coord i (b_max b)) in
    coord i (b_min u) = mn lo hi /\ coord i (b_max u) = mx lo hi.
  Proof. eexists. split; [reflexivity|]. intros []; cbn; auto. Qed.

  Lemma inside_iff b p : b3_inside E b p = true <-> inB b p.
  Proof.
    unfold b3_inside, inb. rewrite !andb_true_iff. split.
    - intros H []; cbn; tauto.
    - intros H. pose proof (H AX). pose proof (H AY). pose proof (H AZ). cbn in *. tauto.
  Qed.

  Lemma new_spec p q : okp p -> okp q -> exists b, b3_new E p q = Done b /\ okb b /\ nrm b /\ inB b p /\ inB b q /\
    (forall c, inB c p -> inB c q -> subbox leP b c) /\
    (forall i, (coord i (b_min b) = coord i p \/ coord i (b_min b) = coord i q) /\
               (coord i (b_max b) = coord i p \/ coord i (b_max b) = coord i q)).
  Proof.
    intros Hp Hq. destruct (new_coord p q) as (b & E1 & H). exists b. split; [exact E1|].
    split; [split; intros i; rwi H i; [apply mn_ok|apply mx_ok]; auto|].
    split; [intros i; rwi H i; now apply mn_le_mx|].
    split; [intros i; rwi H i; split; [apply mn_l|apply mx_l]; auto|].
    split; [intros i; rwi H i; split; [apply mn_r|apply mx_r]; auto|].
    split; [|intros i; rwi H i; split; [apply mn_cases|apply mx_cases]].
    intros c C1 C2 r Hr i. specialize (Hr i). specialize (C1 i). specialize (C2 i). destruct (H i) as [Q1 Q2].
    rewrite Q1, Q2 in Hr. destruct Hr as [R1 R2]. split.
    - eapply tr; [|exact R1]. apply mn_glb; tauto.
    - eapply tr; [exact R2|]. apply mx_lub; tauto.
  Qed.
  Lemma new_comm p q : okp p -> okp q -> exists b b', b3_new E p q = Done b /\ b3_new E q p = Done b' /\ eqbox leP b b'.
  Proof.
    intros Hp Hq. destruct (new_spec p q Hp Hq) as (b & E1 & _ & _ & I1 & I2 & M & _).
    destruct (new_spec q p Hq Hp) as (b' & E2 & _ & _ & J1 & J2 & M' & _).
    exists b, b'. split; [exact E1|split; [exact E2|]]. intros r; split; [apply M | apply M']; auto.
  Qed.

  Lemma union_spec s b : okb s -> nrm s -> okb b -> nrm b -> exists u, b3_union E s b = Done u /\ okb u /\ nrm u /\
    subbox leP s u /\ subbox leP b u /\ (forall c, subbox leP s c -> subbox leP b c -> subbox leP u c).
  Proof.
    intros [Hs1 Hs2] Ns [Hb1 Hb2] Nb. destruct (union_coord s b) as (u & E1 & H). cbv zeta in H. exists u. split; [exact E1|].
    assert (K : forall i, coord i (b_min u) = mn (coord i (b_min s)) (coord i (b_min b)) /\
      le (mx (coord i (b_max s)) (coord i (b_max b))) (coord i (b_max u)) /\
      le (coord i (b_max u)) (mx (coord i (b_max s)) (coord i (b_max b)))).
    { intros i. destruct (H i) as [Q1 Q2].
      assert (le (mn (coord i (b_min s)) (coord i (b_min b))) (mx (coord i (b_max s)) (coord i (b_max b)))).
      { apply tr with (coord i (b_min s)); [now apply mn_l|]. apply tr with (coord i (b_max s)); [apply Ns|now apply mx_l]. }
      rewrite Q1, Q2. split; [now apply mn_of_le|]. split; apply mx_of_le; auto. }
    split; [split; intros i; rwi H i; [apply mn_ok|apply mx_ok]; auto using mn_ok, mx_ok|].
    split; [intros i; rwi H i; apply mn_le_mx; auto using mn_ok, mx_ok|].
    split; [|split].
    - intros p Hp i. destruct (K i) as (Q1 & Q2 & Q3), (Hp i) as [R1 R2]. rewrite Q1. split.
      + eapply tr; [|exact R1]. now apply mn_l.
      + eapply tr; [exact R2|]. eapply tr; [|exact Q2]. now apply mx_l.
    - intros p Hp i. destruct (K i) as (Q1 & Q2 & Q3), (Hp i) as [R1 R2]. rewrite Q1. split.
      + eapply tr; [|exact R1]. now apply mn_r.
      + eapply tr; [exact R2|]. eapply tr; [|exact Q2]. now apply mx_r.
    - intros c C1 C2 p Hp i. destruct (K i) as (Q1 & Q2 & Q3), (Hp i) as [R1 R2]. rewrite Q1 in R1.
      assert (S1 : inB c (b_min s)) by (apply C1; intros j; split; [apply (ol_refl E L), Hs1 | apply Ns]).
      assert (S2 : inB c (b_max s)) by (apply C1; intros j; split; [apply Ns | apply (ol_refl E L), Hs2]).
      assert (S3 : inB c (b_min b)) by (apply C2; intros j; split; [apply (ol_refl E L), Hb1 | apply Nb]).
      assert (S4 : inB c (b_max b)) by (apply C2; intros j; split; [apply Nb | apply (ol_refl E L), Hb2]).
      specialize (S1 i); specialize (S2 i); specialize (S3 i); specialize (S4 i). split.
      + eapply tr; [|exact R1]. apply mn_glb; tauto.
      + eapply tr; [exact R2|]. eapply tr; [exact Q3|]. apply mx_lub; tauto.
  Qed.

  Lemma new_pt_spec p : okp p -> exists b, b3_new_pt E p = Done b /\ okb b /\ nrm b /\ inB b p /\
    forall q, inB b q <-> okp q /\ forall i, le (coord i p) (coord i q) /\ le (coord i q) (coord i p).
  Proof.
    intros Hp. destruct (new_coord p p) as (b & E1 & H). exists b. split; [exact E1|].
    assert (K : b = B3 p p).
    { destruct b as [[a1 a2 a3] [c1 c2 c3]], p as [x y z]. unfold mn, mx in H.
      pose proof (H AX). pose proof (H AY). pose proof (H AZ). cbn in *.
      destruct (e_lt E x x), (e_lt E y y), (e_lt E z z); repeat f_equal; tauto. }
    subst b. split; [split; auto|]. split; [intros i; apply (ol_refl E L), Hp|].
    split; [intros i; split; apply (ol_refl E L), Hp|].
    intros q. split; [|intros [_ K] i; exact (K i)].
    intros K. split; [intros i; exact (proj1 (ol_ok E L _ _ (proj2 (K i))))|exact K].
  Qed.
  (** [union_pt] is [union] with the box of the point. *)
  Lemma union_pt_spec s p : okb s -> nrm s -> okp p -> exists u, b3_union_pt E s p = Done u /\ okb u /\ nrm u /\
    subbox leP s u /\ inB u p /\ (forall c, subbox leP s c -> inB c p -> subbox leP u c).
  Proof.
    intros Hs Ns Hp. destruct (union_spec s (B3 p p) Hs Ns) as (u & E1 & O & N & S1 & S2 & S3).
    - split; auto.
    - intros i. apply (ol_refl E L), Hp.
    - exists u. split; [exact E1|]. repeat (split; [assumption|]). split.
      + apply S2. intros i. split; apply (ol_refl E L), Hp.
      + intros c C1 C2. apply S3; auto. intros q Hq i. destruct (Hq i) as [Q1 Q2], (C2 i) as [R1 R2]. cbn in *.
        split; eapply tr; eauto.
  Qed.

  Lemma overlaps_iff a b : b3_overlaps E a b = true <->
    forall i, le (coord i (b_min b)) (coord i (b_max a)) /\ le (coord i (b_min a)) (coord i (b_max b)).
  Proof.
    unfold b3_overlaps. rewrite !andb_true_iff. split.
    - intros H []; cbn; tauto.
    - intros H. pose proof (H AX). pose proof (H AY). pose proof (H AZ). cbn in *. tauto.
  Qed.
  Lemma intersect_spec a b : okb a -> nrm a -> okb b -> nrm b -> b3_overlaps E a b = true ->
    exists u, b3_intersect E a b = Done u /\ okb u /\ nrm u /\ forall p, inB u p <-> inB a p /\ inB b p.
  Proof.
    intros [Ha1 Ha2] Na [Hb1 Hb2] Nb Ov. rewrite overlaps_iff in Ov.
    destruct (intersect_coord a b) as (u & E1 & H). cbv zeta in H. exists u. split; [exact E1|].
    assert (K : forall i, coord i (b_min u) = mx (coord i (b_min a)) (coord i (b_min b)) /\
      le (mn (coord i (b_max a)) (coord i (b_max b))) (coord i (b_max u)) /\
      le (coord i (b_max u)) (mn (coord i (b_max a)) (coord i (b_max b)))).
    { intros i. destruct (H i) as [Q1 Q2].
      assert (le (mx (coord i (b_min a)) (coord i (b_min b))) (mn (coord i (b_max a)) (coord i (b_max b)))).
      { destruct (Ov i). apply mx_lub; apply mn_glb; auto. }
      rewrite Q1, Q2. split; [now apply mn_of_le|]. split; apply mx_of_le; auto. }
    split; [split; intros i; rwi H i; [apply mn_ok|apply mx_ok]; auto using mn_ok, mx_ok|].
    split; [intros i; rwi H i; apply mn_le_mx; auto using mn_ok, mx_ok|].
    intros p. split.
    - intros Hp. split; intros i; destruct (K i) as (Q1 & Q2 & Q3), (Hp i) as [R1 R2]; rewrite Q1 in R1;
        apply mx_le in R1; auto; (split; [tauto|]); eapply tr; [exact R2| |exact R2|];
        (eapply tr; [exact Q3|]); [apply mn_l | apply mn_r]; auto.
    - intros [Hp1 Hp2] i. destruct (K i) as (Q1 & Q2 & Q3), (Hp1 i) as [R1 R2], (Hp2 i) as [R3 R4]. rewrite Q1. split.
      + now apply mx_lub.
      + eapply tr; [|exact Q2]. now apply mn_glb.
  Qed.
  (** On an axis where [a] ends before [b] begins, the result runs from the end of [a] to the beginning of [b]. *)
  Lemma intersect_gap a b i : okb a -> nrm a -> okb b -> nrm b -> e_lt E (coord i (b_max a)) (coord i (b_min b)) = true ->
    exists u, b3_intersect E a b = Done u /\ coord i (b_min u) = coord i (b_max a) /\ coord i (b_max u) = coord i (b_min b).
  Proof.
    intros [Ha1 Ha2] Na [Hb1 Hb2] Nb Lt. destruct (intersect_coord a b) as (u & E1 & H). exists u. split; [exact E1|].
    rwi H i. pose proof (lt_le _ _ Lt) as Le.
    pose proof (Na i) as N1. pose proof (Nb i) as N2. cbn beta in N1, N2.
    assert (Q1 : mx (coord i (b_min a)) (coord i (b_min b)) = coord i (b_min b)).
    { unfold mx. destruct (e_lt E (coord i (b_min a)) (coord i (b_min b))) eqn:Q; auto.
      apply nlt_le in Q; [|apply Ha1|apply Hb1]. exfalso. apply lt_nle in Lt.
      assert (le (coord i (b_min b)) (coord i (b_max a))) by (eapply tr; eauto). congruence. }
    assert (Q2 : mn (coord i (b_max a)) (coord i (b_max b)) = coord i (b_max a)).
    { apply mn_of_le. eapply tr; eauto. }
    rewrite Q1, Q2. unfold mn, mx. rewrite Lt. destruct (e_lt E (coord i (b_min b)) (coord i (b_max a))) eqn:Q; auto.
    apply lt_le in Q. apply lt_nle in Lt. congruence.
  Qed.
  Lemma overlaps_spec a b : okb a -> nrm a -> okb b -> nrm b ->
    (b3_overlaps E a b = true <-> exists p, okp p /\ inB a p /\ inB b p).
  Proof.
    intros Ha Na Hb Nb. split.
    - intros Ov. destruct (intersect_spec a b Ha Na Hb Nb Ov) as (u & _ & [O1 O2] & N & H).
      exists (b_min u). split; [exact O1|]. apply H. intros i. split; [apply (ol_refl E L), O1 | apply N].
    - intros (p & _ & H1 & H2). apply overlaps_iff. intros i. destruct (H1 i), (H2 i). split; eapply tr; eauto.
  Qed.
  Lemma overlaps_sym a b : b3_overlaps E a b = b3_overlaps E b a.
  Proof.
    apply eq_true_iff_eq. rewrite !overlaps_iff. split; intros H i; destruct (H i); auto.
  Qed.

  Lemma lt_iff a b : e_lt E a b = true <-> le a b /\ ~ (le a b /\ le b a).
  Proof.
    split.
    - intros H. split; [now apply lt_le|]. intros [_ Q]. apply lt_nle in H. congruence.
    - intros [H N]. destruct (ol_ok E L _ _ H) as [Ha Hb]. rewrite lt_ok by auto.
      destruct (e_le E b a) eqn:Q; cbn; [exfalso|]; auto.
  Qed.
  Lemma exclusive_iff b p : b3_inside_exclusive E b p = true <->
    inB b p /\ forall i, ~ (le (coord i p) (coord i (b_max b)) /\ le (coord i (b_max b)) (coord i p)).
  Proof.
    unfold b3_inside_exclusive, inb. rewrite !andb_true_iff, !lt_iff. split.
    - intros H. split; intros []; cbn; tauto.
    - intros [H N]. pose proof (H AX). pose proof (H AY). pose proof (H AZ).
      pose proof (N AX). pose proof (N AY). pose proof (N AZ). cbn in *. tauto.
  Qed.
  Lemma inside_nan b p : b3_inside E b p = true -> okp p /\ okb b.
  Proof.
    rewrite inside_iff. intros H. split; [|split]; intros i; destruct (H i) as [H1 H2];
      apply (ol_ok E L) in H1; apply (ol_ok E L) in H2; tauto.
  Qed.

  Lemma dim3 a b c : ok a -> ok b -> ok c ->
    let n := if e_lt E b a then (if e_lt E c a then 0 else 2) else if e_lt E c b then 1 else 2 in
    n = 0 /\ e_lt E b a = true /\ e_lt E c a = true \/
    n = 1 /\ le a b /\ e_lt E c b = true \/
    n = 2 /\ le a c /\ le b c.
  Proof.
    intros Ha Hb Hc. cbv zeta. destruct (e_lt E b a) eqn:Q1; [destruct (e_lt E c a) eqn:Q2|destruct (e_lt E c b) eqn:Q2].
    - auto.
    - right; right. apply nlt_le in Q2; auto. split; [auto|split; [auto|]]. apply tr with a; auto. now apply lt_le.
    - right; left. apply nlt_le in Q1; auto.
    - right; right. apply nlt_le in Q1; auto. apply nlt_le in Q2; auto. split; [auto|split; [|auto]]. now apply tr with b.
  Qed.
End Generic.
