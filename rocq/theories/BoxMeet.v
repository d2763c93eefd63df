(** Proofs about C139: the algebra of union and intersect, and boxes that meet pairwise. *)
From Coq Require Import ZArith Reals List Lia Lra.
From Flocq Require Import Core.Core IEEE754.BinarySingleNaN.
From Verif Require Import Base Elem GeoModel FloatInst GeoSpec MeetSpec OrderProofs BoxThms.
Import ListNotations.
Local Open Scope mon_scope.

Ltac trn := match goal with H : tle ?t ?x ?y, K : tle ?t ?y ?z |- tle ?t ?x ?z => exact (tle_trans t x y z H K) end.

Section Ty.
  Variable ty : ety.
  Notation E := (elem ty).
  Notation T := (car ty).
  Notation le := (tle ty).

  Lemma mn_below a b p : valid ty a -> valid ty b -> (le (mn E a b) p <-> le a p \/ le b p).
  Proof.
    intros Ha Hb. destruct (mn_smaller ty a b Ha Hb) as (C & H1 & H2). split.
    - destruct C as [-> | ->]; auto.
    - intros [H|H]; [apply (tle_trans ty _ a)|apply (tle_trans ty _ b)]; assumption.
  Qed.
  Lemma mn_above a b p : valid ty a -> valid ty b -> (le p (mn E a b) <-> le p a /\ le p b).
  Proof.
    intros Ha Hb. destruct (mn_smaller ty a b Ha Hb) as (C & H1 & H2). split.
    - intros H. split; apply (tle_trans ty _ _ _ H H1) || apply (tle_trans ty _ _ _ H H2) || apply (tle_trans ty _ _ _ H1 H) || apply (tle_trans ty _ _ _ H2 H).
    - intros [K1 K2]. destruct C as [-> | ->]; auto.
  Qed.
  Lemma mx_below a b p : valid ty a -> valid ty b -> (le (mx E a b) p <-> le a p /\ le b p).
  Proof.
    intros Ha Hb. destruct (mx_larger ty a b Ha Hb) as (C & H1 & H2). split.
    - intros H. split; apply (tle_trans ty _ _ _ H H1) || apply (tle_trans ty _ _ _ H H2) || apply (tle_trans ty _ _ _ H1 H) || apply (tle_trans ty _ _ _ H2 H).
    - intros [K1 K2]. destruct C as [-> | ->]; auto.
  Qed.
  Lemma mx_above a b p : valid ty a -> valid ty b -> (le p (mx E a b) <-> le p a \/ le p b).
  Proof.
    intros Ha Hb. destruct (mx_larger ty a b Ha Hb) as (C & H1 & H2). split.
    - destruct C as [-> | ->]; auto.
    - intros [H|H]; [apply (tle_trans ty _ a)|apply (tle_trans ty _ b)]; assumption.
  Qed.
  Notation lo b i := (coord i (b_min b)).
  Notation hi b i := (coord i (b_max b)).
  (** What intersect returns, whether the boxes meet or not. *)
  Lemma intersect_any a b : good_box ty a -> good_box ty b -> exists u, b3_intersect E a b = Done u /\ good_box ty u /\
    forall i p, (le (lo u i) p <-> (le (lo a i) p /\ le (lo b i) p) \/ le (hi a i) p \/ le (hi b i) p) /\
                (le p (hi u i) <-> (le p (hi a i) /\ le p (hi b i)) \/ le p (lo a i) \/ le p (lo b i)).
  Proof.
    intros [[A1 A2] Na] [[B1 B2] Nb]. destruct (intersect_coord E a b) as (u & E1 & K). exists u. split; [exact E1|].
    assert (X : forall i p, (le (lo u i) p <-> (le (lo a i) p /\ le (lo b i) p) \/ le (hi a i) p \/ le (hi b i) p) /\
                (le p (hi u i) <-> (le p (hi a i) /\ le p (hi b i)) \/ le p (lo a i) \/ le p (lo b i))).
    { intros i p. destruct (K i) as [K1 K2]. rewrite K1, K2.
      rewrite mn_below, mx_above, mx_below, mx_above, mn_below, mn_above by auto using mn_valid, mx_valid. tauto. }
    split; [|exact X]. split; [eapply intersect_valid; [exact E1|split; assumption|split; assumption]|].
    intros i. destruct (X i (hi u i)) as [X1 _]. apply X1.
    assert (V : le (hi u i) (hi u i)). { destruct (K i) as [_ K2]. rewrite K2. apply tle_refl. auto using mn_valid, mx_valid. }
    destruct (K i) as [_ K2]. rewrite K2.
    destruct (mx_larger ty (mx E (lo a i) (lo b i)) (mn E (hi a i) (hi b i))) as (_ & M1 & M2); auto using mn_valid, mx_valid.
    left. destruct (mx_larger ty (lo a i) (lo b i) (A1 i) (B1 i)) as (_ & M3 & M4). split; trn.
  Qed.
  Definition touch (a b : Bounds3 T) : Prop := forall i, le (lo a i) (hi b i) /\ le (lo b i) (hi a i).
  Lemma touch_iff a b : good_box ty a -> good_box ty b -> (b3_overlaps E a b = true <-> touch a b).
  Proof.
    intros Ga Gb. rewrite (overlaps_thm ty a b Ga Gb). split.
    - intros (p & _ & H1 & H2) i. destruct (H1 i), (H2 i). split; trn.
    - intros H. destruct Ga as [[A1 A2] Na], Gb as [[B1 B2] Nb].
      assert (P : forall i, valid ty (mx E (lo a i) (lo b i)) /\ le (lo a i) (mx E (lo a i) (lo b i)) /\ le (lo b i) (mx E (lo a i) (lo b i)) /\
        le (mx E (lo a i) (lo b i)) (hi a i) /\ le (mx E (lo a i) (lo b i)) (hi b i)).
      { intros i. destruct (mx_larger ty (lo a i) (lo b i) (A1 i) (B1 i)) as (_ & M1 & M2). rewrite !mx_below by auto. destruct (H i).
        split; [auto using mx_valid|]. split; [assumption|]. split; [assumption|]. specialize (Na i). specialize (Nb i). tauto. }
      exists (P3 (mx E (lo a AX) (lo b AX)) (mx E (lo a AY) (lo b AY)) (mx E (lo a AZ) (lo b AZ))).
      split; [|split]; intros i; specialize (P i); destruct i; cbn [coord px py pz] in *; tauto.
  Qed.
  Lemma meet_coord a b : good_box ty a -> good_box ty b -> b3_overlaps E a b = true -> exists u, b3_intersect E a b = Done u /\ good_box ty u /\
    forall i p, (le (lo u i) p <-> le (lo a i) p /\ le (lo b i) p) /\ (le p (hi u i) <-> le p (hi a i) /\ le p (hi b i)).
  Proof.
    intros Ga Gb Ov. apply touch_iff in Ov; [|assumption|assumption]. destruct (intersect_any a b Ga Gb) as (u & E1 & G & X). exists u. split; [exact E1|]. split; [exact G|].
    intros i p. destruct (X i p) as [X1 X2]. destruct Ga as [_ Na], Gb as [_ Nb]. specialize (Na i). specialize (Nb i). destruct (Ov i) as [O1 O2].
    rewrite X1, X2. split; split; try tauto.
    - intros [H|[H|H]]; [assumption| |]; split; trn.
    - intros [H|[H|H]]; [assumption| |]; split; trn.
  Qed.
  Lemma join_coord a b : good_box ty a -> good_box ty b -> exists u, b3_union E a b = Done u /\ good_box ty u /\
    forall i p, (le (lo u i) p <-> le (lo a i) p \/ le (lo b i) p) /\ (le p (hi u i) <-> le p (hi a i) \/ le p (hi b i)).
  Proof.
    intros Ga Gb. destruct (union_thm ty a b Ga Gb) as (u & E1 & G & _). exists u. split; [exact E1|]. split; [exact G|].
    destruct (union_coord E a b) as (u' & E2 & K). rewrite E1 in E2. assert (u' = u) as -> by congruence.
    destruct Ga as [[A1 A2] Na], Gb as [[B1 B2] Nb]. intros i p. destruct (K i) as [K1 K2]. rewrite K1, K2. specialize (Na i). specialize (Nb i).
    rewrite mn_below, mx_above, mn_below, mx_above, mx_below, mn_above by auto using mn_valid, mx_valid.
    split; split; try tauto.
    - intros [H|[H _]]; [assumption|]. left. trn.
    - intros [[H _]|H]; [|assumption]. left. trn.
  Qed.
  (** ** The laws *)
  Theorem meet_comm a b : good_box ty a -> good_box ty b ->
    exists u v, b3_intersect E a b = Done u /\ b3_intersect E b a = Done v /\ eqbox le u v.
  Proof.
    intros Ga Gb. destruct (intersect_any a b Ga Gb) as (u & U1 & _ & U). destruct (intersect_any b a Gb Ga) as (v & V1 & _ & V).
    exists u, v. split; [exact U1|]. split; [exact V1|]. intros p. split; intros H i; specialize (H i); destruct (U i (coord i p)), (V i (coord i p)); tauto.
  Qed.
  Lemma self_overlaps a : good_box ty a -> b3_overlaps E a a = true.
  Proof. intros G. apply touch_iff; [assumption|assumption|]. intros i. split; apply G. Qed.
  Theorem meet_idem a : good_box ty a -> exists u, b3_intersect E a a = Done u /\ eqbox le u a.
  Proof.
    intros G. destruct (meet_coord a a G G (self_overlaps a G)) as (u & U1 & _ & U). exists u. split; [exact U1|].
    intros p. split; intros H i; specialize (H i); destruct (U i (coord i p)); tauto.
  Qed.
  Theorem meet_assoc a b c : good_box ty a -> good_box ty b -> good_box ty c ->
    b3_overlaps E a b = true -> b3_overlaps E b c = true -> b3_overlaps E a c = true ->
    exists ab bc l r, b3_intersect E a b = Done ab /\ b3_intersect E b c = Done bc /\
      b3_intersect E ab c = Done l /\ b3_intersect E a bc = Done r /\ eqbox le l r.
  Proof.
    intros Ga Gb Gc O1 O2 O3. destruct (meet_coord a b Ga Gb O1) as (ab & U1 & G1 & U). destruct (meet_coord b c Gb Gc O2) as (bc & V1 & G2 & V).
    apply touch_iff in O1; [|assumption|assumption]. apply touch_iff in O2; [|assumption|assumption]. apply touch_iff in O3; [|assumption|assumption].
    assert (O4 : b3_overlaps E ab c = true).
    { apply touch_iff; [assumption|assumption|]. intros i. destruct (U i (hi c i)) as [X _], (U i (lo c i)) as [_ Y]. destruct (O1 i), (O2 i), (O3 i). tauto. }
    assert (O5 : b3_overlaps E a bc = true).
    { apply touch_iff; [assumption|assumption|]. intros i. destruct (V i (hi a i)) as [X _], (V i (lo a i)) as [_ Y]. destruct (O1 i), (O2 i), (O3 i). tauto. }
    destruct (meet_coord ab c G1 Gc O4) as (l & L1 & _ & L). destruct (meet_coord a bc Ga G2 O5) as (r & R1 & _ & R).
    exists ab, bc, l, r. split; [exact U1|]. split; [exact V1|]. split; [exact L1|]. split; [exact R1|]. intros p.
    split; intros H i; specialize (H i); destruct (U i (coord i p)), (V i (coord i p)), (L i (coord i p)), (R i (coord i p)); tauto.
  Qed.
  Theorem absorb_meet a b : good_box ty a -> good_box ty b -> b3_overlaps E a b = true ->
    exists m u, b3_intersect E a b = Done m /\ b3_union E a m = Done u /\ eqbox le u a.
  Proof.
    intros Ga Gb O. destruct (meet_coord a b Ga Gb O) as (m & M1 & Gm & M). destruct (join_coord a m Ga Gm) as (u & U1 & _ & U).
    exists m, u. split; [exact M1|]. split; [exact U1|]. intros p. split; intros H i; specialize (H i); destruct (M i (coord i p)), (U i (coord i p)); tauto.
  Qed.
  Theorem absorb_join a b : good_box ty a -> good_box ty b -> exists u m, b3_union E a b = Done u /\ b3_intersect E a u = Done m /\ eqbox le m a.
  Proof.
    intros Ga Gb. destruct (join_coord a b Ga Gb) as (u & U1 & Gu & U).
    assert (O : b3_overlaps E a u = true).
    { apply touch_iff; [assumption|assumption|]. intros i. destruct (U i (lo a i)) as [_ X], (U i (hi a i)) as [Y _]. destruct Ga as [_ Na]. specialize (Na i). tauto. }
    destruct (meet_coord a u Ga Gu O) as (m & M1 & _ & M).
    exists u, m. split; [exact U1|]. split; [exact M1|]. intros p. split; intros H i; specialize (H i); destruct (M i (coord i p)), (U i (coord i p)); tauto.
  Qed.
  Theorem meet_join a b c : good_box ty a -> good_box ty b -> good_box ty c -> b3_overlaps E a b = true -> b3_overlaps E a c = true ->
    exists bc l ab ac r, b3_union E b c = Done bc /\ b3_intersect E a bc = Done l /\
      b3_intersect E a b = Done ab /\ b3_intersect E a c = Done ac /\ b3_union E ab ac = Done r /\ eqbox le l r.
  Proof.
    intros Ga Gb Gc O1 O2. destruct (join_coord b c Gb Gc) as (bc & U1 & Gu & U).
    destruct (meet_coord a b Ga Gb O1) as (ab & V1 & G1 & V). destruct (meet_coord a c Ga Gc O2) as (ac & W1 & G2 & W).
    apply touch_iff in O1; [|assumption|assumption].
    assert (O : b3_overlaps E a bc = true).
    { apply touch_iff; [assumption|assumption|]. intros i. destruct (U i (lo a i)) as [_ X], (U i (hi a i)) as [Y _]. destruct (O1 i). tauto. }
    destruct (meet_coord a bc Ga Gu O) as (l & L1 & _ & L). destruct (join_coord ab ac G1 G2) as (r & R1 & _ & R).
    exists bc, l, ab, ac, r. split; [exact U1|]. split; [exact L1|]. split; [exact V1|]. split; [exact W1|]. split; [exact R1|]. intros p.
    split; intros H i; specialize (H i); destruct (U i (coord i p)), (V i (coord i p)), (W i (coord i p)), (L i (coord i p)), (R i (coord i p)); tauto.
  Qed.
  Theorem join_meet a b c : good_box ty a -> good_box ty b -> good_box ty c -> b3_overlaps E b c = true ->
    exists bc l ab ac r, b3_intersect E b c = Done bc /\ b3_union E a bc = Done l /\
      b3_union E a b = Done ab /\ b3_union E a c = Done ac /\ b3_intersect E ab ac = Done r /\ eqbox le l r.
  Proof.
    intros Ga Gb Gc O1. destruct (meet_coord b c Gb Gc O1) as (bc & U1 & Gu & U).
    destruct (join_coord a b Ga Gb) as (ab & V1 & G1 & V). destruct (join_coord a c Ga Gc) as (ac & W1 & G2 & W).
    assert (O : b3_overlaps E ab ac = true).
    { apply touch_iff; [assumption|assumption|]. destruct Ga as [_ Na]. intros i. specialize (Na i).
      destruct (V i (hi ac i)) as [X1 _], (V i (lo ac i)) as [_ X2], (W i (lo a i)) as [_ X3], (W i (hi a i)) as [X4 _]. tauto. }
    destruct (meet_coord ab ac G1 G2 O) as (r & R1 & _ & R). destruct (join_coord a bc Ga Gu) as (l & L1 & _ & L).
    exists bc, l, ab, ac, r. split; [exact U1|]. split; [exact L1|]. split; [exact V1|]. split; [exact W1|]. split; [exact R1|]. intros p.
    split; intros H i; specialize (H i); destruct (U i (coord i p)), (V i (coord i p)), (W i (coord i p)), (L i (coord i p)), (R i (coord i p)); tauto.
  Qed.
  (** ** Boxes that meet pairwise *)
  Theorem helly l : l <> [] -> Forall (good_box ty) l -> (forall a b, In a l -> In b l -> b3_overlaps E a b = true) ->
    exists p, pt_valid ty p /\ Forall (fun b => inb le b p) l.
  Proof.
    intros N G O. rewrite Forall_forall in G.
    assert (X : forall i, exists m, valid ty m /\ forall b, In b l -> le (lo b i) m /\ le m (hi b i)).
    { intros i. destruct (pmax_thm ty (map (fun b => lo b i) l)) as (m & _ & I & M).
      - destruct l; [contradiction|discriminate].
      - apply Forall_forall. intros x Hx. apply in_map_iff in Hx as (b & <- & Hb). apply (G b Hb).
      - apply in_map_iff in I as (a & <- & Ha). exists (lo a i). split; [apply (G a Ha)|]. intros b Hb. rewrite Forall_forall in M. split.
        + apply M, in_map_iff. exists b. auto.
        + apply (proj1 (touch_iff a b (G a Ha) (G b Hb)) (O a b Ha Hb) i). }
    destruct (X AX) as (x & Vx & Hx), (X AY) as (y & Vy & Hy), (X AZ) as (z & Vz & Hz). exists (P3 x y z).
    split; [intros []; assumption|]. apply Forall_forall. intros b Hb []; [apply Hx|apply Hy|apply Hz]; exact Hb.
  Qed.
  Lemma meet_all_from l a : good_box ty a -> Forall (good_box ty) l -> (exists p, inb le a p /\ Forall (fun b => inb le b p) l) ->
    exists u, meet_all E a l = Done u /\ good_box ty u /\ forall p, inb le u p <-> inb le a p /\ Forall (fun b => inb le b p) l.
  Proof.
    unfold meet_all. revert a. induction l as [|b l IH]; intros a Ga Gl (p & Pa & Pl); cbn [fold_left].
    - exists a. split; [reflexivity|]. split; [assumption|]. intros q. split; [auto|tauto].
    - inversion Gl as [|x y Gb Gl']; subst. inversion Pl as [|x y Pb Pl']; subst.
      destruct (intersect_thm ty a b Ga Gb) as (m & M1 & Gm & M); [exists p; auto|]. cbn [obind]. rewrite M1.
      destruct (IH m Gm Gl') as (u & U1 & Gu & U); [exists p; split; [now apply M|assumption]|].
      exists u. split; [exact U1|]. split; [exact Gu|]. intros q. rewrite U, M. split.
      + intros [[H1 H2] H3]. auto.
      + intros [H1 H2]. inversion H2; subst. auto.
  Qed.
  Theorem meet_all_thm a l : good_box ty a -> Forall (good_box ty) l -> (forall x y, In x (a :: l) -> In y (a :: l) -> b3_overlaps E x y = true) ->
    exists u, meet_all E a l = Done u /\ good_box ty u /\ forall p, inb le u p <-> inb le a p /\ Forall (fun b => inb le b p) l.
  Proof.
    intros Ga Gl O. apply meet_all_from; [assumption|assumption|].
    destruct (helly (a :: l) ltac:(discriminate) ltac:(now constructor) O) as (p & _ & P). inversion P; subst. eauto.
  Qed.
End Ty.
(** ** Boxes that do not meet *)
Theorem assoc_refuted : exists a b c ab bc l r, good_box (TInt true) a /\ good_box (TInt true) b /\ good_box (TInt true) c /\
  b3_intersect (i64 true) a b = Done ab /\ b3_intersect (i64 true) b c = Done bc /\
  b3_intersect (i64 true) ab c = Done l /\ b3_intersect (i64 true) a bc = Done r /\ ~ eqbox (tle (TInt true)) l r.
Proof.
  exists (bx 0 0 0 1 1 1)%Z, (bx 3 3 3 4 4 4)%Z, (bx 6 6 6 7 7 7)%Z, (bx 1 1 1 3 3 3)%Z, (bx 4 4 4 6 6 6)%Z, (bx 3 3 3 6 6 6)%Z, (bx 1 1 1 4 4 4)%Z.
  split; [split; [split|]; intros []; vm_compute; (reflexivity || discriminate)|]. split; [split; [split|]; intros []; vm_compute; (reflexivity || discriminate)|].
  split; [split; [split|]; intros []; vm_compute; (reflexivity || discriminate)|]. do 4 (split; [reflexivity|]).
  intros H. destruct (proj1 (H (P3 6 6 6)%Z)) with (i := AX) as [_ K]; [intros []; cbn; lia|]. cbn in K. lia.
Qed.
Theorem absorb_refuted : exists a b m u, good_box (TInt true) a /\ good_box (TInt true) b /\
  b3_intersect (i64 true) a b = Done m /\ b3_union (i64 true) a m = Done u /\ ~ eqbox (tle (TInt true)) u a.
Proof.
  exists (bx 0 0 0 1 1 1)%Z, (bx 3 3 3 4 4 4)%Z, (bx 1 1 1 3 3 3)%Z, (bx 0 0 0 3 3 3)%Z.
  split; [split; [split|]; intros []; vm_compute; (reflexivity || discriminate)|]. split; [split; [split|]; intros []; vm_compute; (reflexivity || discriminate)|].
  do 2 (split; [reflexivity|]).
  intros H. destruct (proj1 (H (P3 3 3 3)%Z)) with (i := AX) as [_ K]; [intros []; cbn; lia|]. cbn in K. lia.
Qed.
Lemma meet_example : let a := (bx 0 0 0 4 4 4)%Z in let b := (bx 2 (-1) 1 6 3 9)%Z in let c := (bx 3 2 (-5) 9 9 2)%Z in
  Forall (good_box (TInt true)) [a; b; c] /\ (forall x y, In x [a; b; c] -> In y [a; b; c] -> b3_overlaps (i64 true) x y = true) /\
  meet_all (i64 true) a [b; c] = Done (bx 3 2 1 4 3 2)%Z.
Proof.
  cbv zeta. split; [repeat constructor; intros []; vm_compute; (reflexivity || discriminate)|]. split; [|reflexivity].
  intros x y [<-|[<-|[<-|[]]]] [<-|[<-|[<-|[]]]]; reflexivity.
Qed.
