(** Boxes with NaN coordinates, and boxes around many points. *)
From Coq Require Import ZArith Bool Permutation.
From Flocq Require Import IEEE754.BinarySingleNaN.
From Verif Require Import Base Elem GeoModel FloatInst GeoSpec OrderProofs BoxThms ManySpec.

Section F.
  Context (f : fmt).
  Notation E := (f_elem f).
  Notation L := (elem_laws (TFloat f)).
  Lemma mn_low (a b : flt f) : low f a b (mn E a b).
  Proof.
    unfold low. destruct (is_nan a) eqn:A; [|destruct (is_nan b) eqn:B]; cbn [orb].
    - unfold mn. now rewrite (lt_nan_r E L) by exact A.
    - unfold mn. now rewrite (lt_nan_l E L) by exact B.
    - split; [apply mn_cases|]. split; apply tle_iff; [apply (mn_l E L)|apply (mn_r E L)]; assumption.
  Qed.
  Lemma mx_high (a b : flt f) : high f a b (mx E a b).
  Proof.
    unfold high. destruct (is_nan a) eqn:A; [|destruct (is_nan b) eqn:B]; cbn [orb].
    - unfold mx. now rewrite (lt_nan_l E L) by exact A.
    - unfold mx. now rewrite (lt_nan_r E L) by exact B.
    - split; [apply mx_cases|]. split; apply tle_iff; [apply (mx_l E L)|apply (mx_r E L)]; assumption.
  Qed.
  Lemma new_nan p q : exists b, b3_new E p q = Done b /\ forall i,
    low f (coord i p) (coord i q) (coord i (b_min b)) /\ high f (coord i p) (coord i q) (coord i (b_max b)).
  Proof. destruct (new_coord E p q) as (b & Eb & K). exists b. split; [exact Eb|]. intros i. rwi K i. split; [apply mn_low|apply mx_high]. Qed.
  Lemma union_pt_nan s p : exists u, b3_union_pt E s p = Done u /\ forall i, exists lo hi,
    low f (coord i (b_min s)) (coord i p) lo /\ high f (coord i (b_max s)) (coord i p) hi /\
    low f lo hi (coord i (b_min u)) /\ high f lo hi (coord i (b_max u)).
  Proof.
    destruct (union_pt_coord E s p) as (u & Eu & K). exists u. split; [exact Eu|]. intros i. do 2 eexists.
    split; [apply mn_low|]. split; [apply mx_high|]. rwi K i. split; [apply mn_low|apply mx_high].
  Qed.
  Lemma union_nan s b : exists u, b3_union E s b = Done u /\ forall i, exists lo hi,
    low f (coord i (b_min s)) (coord i (b_min b)) lo /\ high f (coord i (b_max s)) (coord i (b_max b)) hi /\
    low f lo hi (coord i (b_min u)) /\ high f lo hi (coord i (b_max u)).
  Proof.
    destruct (union_coord E s b) as (u & Eu & K). exists u. split; [exact Eu|]. intros i. do 2 eexists.
    split; [apply mn_low|]. split; [apply mx_high|]. rwi K i. split; [apply mn_low|apply mx_high].
  Qed.
  Lemma intersect_nan s b : exists u, b3_intersect E s b = Done u /\ forall i, exists lo hi,
    high f (coord i (b_min s)) (coord i (b_min b)) lo /\ low f (coord i (b_max s)) (coord i (b_max b)) hi /\
    low f lo hi (coord i (b_min u)) /\ high f lo hi (coord i (b_max u)).
  Proof.
    destruct (intersect_coord E s b) as (u & Eu & K). exists u. split; [exact Eu|]. intros i. do 2 eexists.
    split; [apply mx_high|]. split; [apply mn_low|]. rwi K i. split; [apply mn_low|apply mx_high].
  Qed.
  (** What follows: NaN in an added point, or in an added box, does not count; NaN in the box itself stays. *)
  Lemma le_same_mx (a b : flt f) : Bleb a b = true -> same (TFloat f) (mx E a b) b.
  Proof. intros H. destruct (mx_of_le E L a b) as [X Y]; [now apply (tle_iff (TFloat f))|]. split; now apply tle_iff. Qed.
  Lemma le_mn (a b : flt f) : Bleb a b = true -> mn E a b = a.
  Proof. intros H. apply (mn_of_le E L). now apply (tle_iff (TFloat f)). Qed.
  Lemma mn_nan_r (a b : flt f) : is_nan b = true -> mn E a b = a. Proof. intros B. unfold mn. now rewrite (lt_nan_l E L) by exact B. Qed.
  Lemma mx_nan_r (a b : flt f) : is_nan b = true -> mx E a b = a. Proof. intros B. unfold mx. now rewrite (lt_nan_r E L) by exact B. Qed.
  Lemma mn_nan_l (a b : flt f) : is_nan a = true -> mn E a b = a. Proof. intros B. unfold mn. now rewrite (lt_nan_r E L) by exact B. Qed.
  Lemma mx_nan_l (a b : flt f) : is_nan a = true -> mx E a b = a. Proof. intros B. unfold mx. now rewrite (lt_nan_l E L) by exact B. Qed.
  Lemma union_pt_ignores s p u i : b3_union_pt E s p = Done u -> Bleb (coord i (b_min s)) (coord i (b_max s)) = true -> is_nan (coord i p) = true ->
    coord i (b_min u) = coord i (b_min s) /\ same (TFloat f) (coord i (b_max u)) (coord i (b_max s)).
  Proof.
    intros Eu N P. destruct (union_pt_coord E s p) as (u' & Eu' & K). rewrite Eu in Eu'. injection Eu' as <-.
    rwi K i. rewrite (mn_nan_r _ (coord i p)), (mx_nan_r _ (coord i p)) by exact P. split; [now apply le_mn|now apply le_same_mx].
  Qed.
  Lemma union_ignores s b u i : b3_union E s b = Done u -> Bleb (coord i (b_min s)) (coord i (b_max s)) = true ->
    is_nan (coord i (b_min b)) = true -> is_nan (coord i (b_max b)) = true ->
    coord i (b_min u) = coord i (b_min s) /\ same (TFloat f) (coord i (b_max u)) (coord i (b_max s)).
  Proof.
    intros Eu N P Q. destruct (union_coord E s b) as (u' & Eu' & K). rewrite Eu in Eu'. injection Eu' as <-.
    rwi K i. rewrite (mn_nan_r _ (coord i (b_min b))), (mx_nan_r _ (coord i (b_max b))) by assumption. split; [now apply le_mn|now apply le_same_mx].
  Qed.
  Lemma union_keeps s b u i : b3_union E s b = Done u -> is_nan (coord i (b_min s)) = true ->
    is_nan (coord i (b_min u)) = true /\ is_nan (coord i (b_max u)) = true.
  Proof.
    intros Eu N. destruct (union_coord E s b) as (u' & Eu' & K). rewrite Eu in Eu'. injection Eu' as <-.
    rwi K i. rewrite (mn_nan_l (coord i (b_min s))) by exact N. rewrite (mn_nan_l (coord i (b_min s))), (mx_nan_l (coord i (b_min s))) by exact N. now split.
  Qed.
  Lemma union_pt_keeps s p u i : b3_union_pt E s p = Done u -> is_nan (coord i (b_min s)) = true ->
    is_nan (coord i (b_min u)) = true /\ is_nan (coord i (b_max u)) = true.
  Proof.
    intros Eu N. destruct (union_pt_coord E s p) as (u' & Eu' & K). rewrite Eu in Eu'. injection Eu' as <-.
    rwi K i. rewrite (mn_nan_l (coord i (b_min s))) by exact N. rewrite (mn_nan_l (coord i (b_min s))), (mx_nan_l (coord i (b_min s))) by exact N. now split.
  Qed.
  Lemma bleb_nan (a b : flt f) : Bleb a b = true -> is_nan a = false /\ is_nan b = false.
  Proof. intros H. apply (ol_ok E L a b). exact H. Qed.
  Lemma overlaps_no_nan a b : b3_overlaps E a b = true -> box_valid (TFloat f) a /\ box_valid (TFloat f) b.
  Proof.
    unfold b3_overlaps. cbn [e_le f_elem]. intros H. apply andb_prop in H as [H Z1]. apply andb_prop in H as [X Y].
    apply andb_prop in X as [X1 X2]. apply andb_prop in Y as [Y1 Y2]. apply andb_prop in Z1 as [Z1 Z2].
    apply bleb_nan in X1, X2, Y1, Y2, Z1, Z2. split; split; intros []; cbn; tauto.
  Qed.
  Lemma inside_no_nan b p : b3_inside E b p = true -> box_valid (TFloat f) b /\ pt_valid (TFloat f) p.
  Proof.
    intros H. apply (inside_thm (TFloat f)) in H. split; [split|]; intros i; destruct (H i) as [H1 H2]; apply bleb_nan in H1, H2; cbn; tauto.
  Qed.

  (** ** Many points *)
  Lemma mn_smaller a b : is_nan a = false -> is_nan b = false -> smaller (TFloat f) (mn E a b) a b.
  Proof. intros A B. pose proof (mn_low a b) as Q. unfold low in Q. now rewrite A, B in Q. Qed.
  Lemma mx_larger a b : is_nan a = false -> is_nan b = false -> larger (TFloat f) (mx E a b) a b.
  Proof. intros A B. pose proof (mx_high a b) as Q. unfold high in Q. now rewrite A, B in Q. Qed.
  Lemma bleb_trans (a b c : flt f) : Bleb a b = true -> Bleb b c = true -> Bleb a c = true.
  Proof. exact (ol_trans E L a b c). Qed.
  Lemma bleb_refl (a : flt f) : is_nan a = false -> Bleb a a = true.
  Proof. exact (ol_refl E L a). Qed.
  Lemma least_grow l m x : least f l m -> least f (l ++ [x]) (mn E m x).
  Proof.
    intros (I & N & M). destruct (is_nan x) eqn:X.
    - rewrite mn_nan_r by exact X. split; [apply in_or_app; now left|]. split; [exact N|]. intros y Y Ny.
      apply in_app_or in Y as [Y|[<-|[]]]; [now apply M|congruence].
    - destruct (mn_smaller m x N X) as (C & C1 & C2). split; [apply in_or_app; destruct C as [-> | ->]; [now left|right; now left]|].
      split; [destruct C as [-> | ->]; assumption|]. intros y Y Ny. apply in_app_or in Y as [Y|[<-|[]]]; [|exact C2].
      apply bleb_trans with m; [exact C1|now apply M].
  Qed.
  Lemma greatest_grow l m x : greatest f l m -> greatest f (l ++ [x]) (mx E m x).
  Proof.
    intros (I & N & M). destruct (is_nan x) eqn:X.
    - rewrite mx_nan_r by exact X. split; [apply in_or_app; now left|]. split; [exact N|]. intros y Y Ny.
      apply in_app_or in Y as [Y|[<-|[]]]; [now apply M|congruence].
    - destruct (mx_larger m x N X) as (C & C1 & C2). split; [apply in_or_app; destruct C as [-> | ->]; [now left|right; now left]|].
      split; [destruct C as [-> | ->]; assumption|]. intros y Y Ny. apply in_app_or in Y as [Y|[<-|[]]]; [|exact C2].
      apply bleb_trans with m; [now apply M|exact C1].
  Qed.
  Lemma least_greatest l m n : least f l m -> greatest f l n -> Bleb m n = true.
  Proof. intros (I & N & M) (I' & N' & M'). now apply M. Qed.
  (** [mn] and [mx] of bounds in order change nothing but maybe the sign of a zero. *)
  Lemma greatest_re l m n : least f l m -> greatest f l n -> greatest f l (mx E m n).
  Proof.
    intros H H'. pose proof (least_greatest _ _ _ H H') as O. destruct (le_same_mx m n O) as [A B]. cbn in A, B.
    destruct H as (I & N & M), H' as (I' & N' & M'). destruct (mx_cases E m n) as [Q|Q]; rewrite Q in *; [|now split].
    split; [exact I|]. split; [exact N|]. intros y Y Ny. apply bleb_trans with n; [now apply M'|exact B].
  Qed.
  Definition axis_ok (i : axis) (l : list (Point3 (flt f))) (b : Bounds3 (flt f)) : Prop :=
    least f (map (coord i) l) (coord i (b_min b)) /\ greatest f (map (coord i) l) (coord i (b_max b)).
  Lemma fold_step l : forall (p0 : Point3 (flt f)) l0 (b0 : Bounds3 (flt f)), (forall i, is_nan (coord i p0) = false -> axis_ok i l0 b0) ->
    (forall i, is_nan (coord i p0) = true -> is_nan (coord i (b_min b0)) = true /\ is_nan (coord i (b_max b0)) = true) ->
    exists b, fold_left (fun acc q => match acc with Done b => b3_union_pt E b q | e => e end) l (Done b0) = Done b /\
    (forall i, is_nan (coord i p0) = false -> axis_ok i (l0 ++ l) b) /\
    (forall i, is_nan (coord i p0) = true -> is_nan (coord i (b_min b)) = true /\ is_nan (coord i (b_max b)) = true).
  Proof.
    induction l as [|q l IH]; intros p0 l0 b0 H1 H2; cbn [fold_left].
    - exists b0. rewrite app_nil_r. now split.
    - destruct (union_pt_coord E b0 q) as (u & Eu & K). rewrite Eu. destruct (IH p0 (l0 ++ [q]) u) as (b & Eb & R1 & R2).
      + intros i N. destruct (H1 i N) as [A B]. unfold axis_ok. rewrite map_app. cbn [map].
        pose proof (least_grow _ _ (coord i q) A) as A'. pose proof (greatest_grow _ _ (coord i q) B) as B'.
        destruct (K i) as [-> ->]. rewrite le_mn by now apply (least_greatest _ _ _ A' B').
        split; [exact A'|now apply greatest_re].
      + intros i N. destruct (H2 i N) as [A _]. now apply (union_pt_keeps _ _ _ i Eu).
      + exists b. rewrite <- app_assoc in R1. now split.
  Qed.
  Lemma points_nan p ps : exists b, box_of_points E p ps = Done b /\ forall i,
    if is_nan (coord i p) then is_nan (coord i (b_min b)) = true /\ is_nan (coord i (b_max b)) = true
    else least f (map (coord i) (p :: ps)) (coord i (b_min b)) /\ greatest f (map (coord i) (p :: ps)) (coord i (b_max b)).
  Proof.
    unfold box_of_points, b3_new_pt. destruct (new_coord E p p) as (b0 & E0 & K). rewrite E0.
    assert (S1 : forall a, mn E a a = a) by (intros a; destruct (mn_cases E a a) as [-> | ->]; reflexivity).
    assert (S2 : forall a, mx E a a = a) by (intros a; destruct (mx_cases E a a) as [-> | ->]; reflexivity).
    destruct (fold_step ps p [p] b0) as (b & Eb & R1 & R2).
    - intros i N. destruct (K i) as [K1 K2]. rewrite S1 in K1. rewrite S2 in K2. unfold axis_ok. rewrite K1, K2. cbn [map].
      split; (split; [now left|]; split; [exact N|]; intros x [<-|[]] _; now apply bleb_refl).
    - intros i N. destruct (K i) as [-> ->]. rewrite S1, S2. now split.
    - exists b. split; [exact Eb|]. intros i. destruct (is_nan (coord i p)) eqn:N; [now apply R2|now apply R1].
  Qed.
End F.

Section Ty.
  Variable ty : ety.
  Notation E := (elem ty).
  Lemma sub_trans (a b c : Bounds3 (car ty)) : subbox (tle ty) a b -> subbox (tle ty) b c -> subbox (tle ty) a c.
  Proof. unfold subbox. auto. Qed.
  Lemma fold_points l : forall b0, good_box ty b0 -> (forall p, In p l -> pt_valid ty p) ->
    exists b, fold_left (fun acc q => match acc with Done b => b3_union_pt E b q | e => e end) l (Done b0) = Done b /\ good_box ty b /\
    subbox (tle ty) b0 b /\ (forall p, In p l -> inb (tle ty) b p) /\
    forall c, subbox (tle ty) b0 c -> (forall p, In p l -> inb (tle ty) c p) -> subbox (tle ty) b c.
  Proof.
    induction l as [|q l IH]; intros b0 G V; cbn [fold_left].
    - exists b0. split; [reflexivity|]. split; [exact G|]. split; [now intros x|]. split; [intros p []|auto].
    - destruct (union_pt_thm ty b0 q G (V q (or_introl eq_refl))) as (u & Eu & Gu & S1 & S2 & S3). rewrite Eu.
      destruct (IH u Gu (fun p H => V p (or_intror H))) as (b & Eb & Gb & R1 & R2 & R3).
      exists b. split; [exact Eb|]. split; [exact Gb|]. split; [now apply sub_trans with u|].
      split; [intros p [<-|H]; [now apply R1|now apply R2]|].
      intros c C1 C2. apply R3; [apply S3; [exact C1|apply C2; now left]|intros p H; apply C2; now right].
  Qed.
  Lemma points_smallest p ps : (forall q, In q (p :: ps) -> pt_valid ty q) ->
    exists b, box_of_points E p ps = Done b /\ good_box ty b /\ (forall q, In q (p :: ps) -> inb (tle ty) b q) /\
    forall c, (forall q, In q (p :: ps) -> inb (tle ty) c q) -> subbox (tle ty) b c.
  Proof.
    intros V. unfold box_of_points, b3_new_pt. destruct (new_thm ty p p (V p (or_introl eq_refl)) (V p (or_introl eq_refl))) as (b0 & E0 & G & I0 & _ & M).
    rewrite E0. destruct (fold_points ps b0 G (fun q H => V q (or_intror H))) as (b & Eb & Gb & R1 & R2 & R3).
    exists b. split; [exact Eb|]. split; [exact Gb|]. split; [intros q [<-|H]; [now apply R1|now apply R2]|].
    intros c C. apply R3; [|intros q H; apply C; now right]. apply M; apply C; now left.
  Qed.
  Lemma points_order p ps q qs : Permutation (p :: ps) (q :: qs) -> (forall x, In x (p :: ps) -> pt_valid ty x) ->
    exists b b', box_of_points E p ps = Done b /\ box_of_points E q qs = Done b' /\ eqbox (tle ty) b b'.
  Proof.
    intros P V. assert (W : forall x, In x (p :: ps) <-> In x (q :: qs)).
    { intros x. split; apply Permutation_in; [exact P|now symmetry]. }
    destruct (points_smallest p ps V) as (b & Eb & _ & I1 & M1).
    destruct (points_smallest q qs (fun x H => V x (proj2 (W x) H))) as (b' & Eb' & _ & I2 & M2).
    exists b, b'. split; [exact Eb|]. split; [exact Eb'|]. intros x. split; [apply M1; intros y Y; now apply I2, W|apply M2; intros y Y; now apply I1, W].
  Qed.
  Lemma boxes_smallest l : forall b0, good_box ty b0 -> (forall b, In b l -> good_box ty b) ->
    exists u, box_of_boxes E b0 l = Done u /\ good_box ty u /\ (forall b, In b (b0 :: l) -> subbox (tle ty) b u) /\
    forall c, (forall b, In b (b0 :: l) -> subbox (tle ty) b c) -> subbox (tle ty) u c.
  Proof.
    unfold box_of_boxes. induction l as [|q l IH]; intros b0 G V; cbn [fold_left].
    - exists b0. split; [reflexivity|]. split; [exact G|]. split; [intros b [<-|[]] x; auto|intros c C; apply C; now left].
    - destruct (union_thm ty b0 q G (V q (or_introl eq_refl))) as (u & Eu & Gu & S1 & S2 & S3). rewrite Eu.
      destruct (IH u Gu (fun p H => V p (or_intror H))) as (b & Eb & Gb & R1 & R2).
      exists b. split; [exact Eb|]. split; [exact Gb|]. split.
      + intros x [<-|[<-|H]]; [apply sub_trans with u; [exact S1|]|apply sub_trans with u; [exact S2|]|]; apply R1; [now left|now left|now right].
      + intros c C. apply R2. intros x [<-|H]; [|apply C; right; now right]. apply S3; apply C; [now left|right; now left].
  Qed.
  (** The box around a list of points is the union of the boxes around its parts. *)
  Lemma points_split p ps q qs : (forall x, In x (p :: ps ++ q :: qs) -> pt_valid ty x) ->
    exists a b u w, box_of_points E p ps = Done a /\ box_of_points E q qs = Done b /\ b3_union E a b = Done u /\
    box_of_points E p (ps ++ q :: qs) = Done w /\ eqbox (tle ty) u w.
  Proof.
    intros V. assert (V1 : forall x, In x (p :: ps) -> pt_valid ty x).
    { intros x [<-|H]; apply V; [now left|right; apply in_or_app; now left]. }
    assert (V2 : forall x, In x (q :: qs) -> pt_valid ty x) by (intros x H; apply V; right; apply in_or_app; now right).
    destruct (points_smallest p ps V1) as (a & Ea & Ga & A1 & A2). destruct (points_smallest q qs V2) as (b & Eb & Gb & B1 & B2).
    destruct (points_smallest p (ps ++ q :: qs) V) as (w & Ew & Gw & W1 & W2). destruct (union_thm ty a b Ga Gb) as (u & Eu & Gu & U1 & U2 & U3).
    exists a, b, u, w. do 4 (split; [assumption|]). intros x. split.
    - apply U3; [apply A2|apply B2]; intros y Y; apply W1.
      + destruct Y as [<-|Y]; [now left|right; apply in_or_app; now left].
      + right. apply in_or_app. now right.
    - apply W2. intros y [<-|Y]; [apply U1, A1; now left|]. apply in_app_or in Y as [Y|Y]; [apply U1, A1; now right|now apply U2, B1].
  Qed.
End Ty.

(** The order of the two points matters if one has a NaN. *)
Lemma new_nan_order f : exists (p q : Point3 (flt f)) b b', b3_new (f_elem f) p q = Done b /\ b3_new (f_elem f) q p = Done b' /\
  inb (tle (TFloat f)) b p /\ (forall x, ~ inb (tle (TFloat f)) b' x).
Proof.
  set (z := f_of_int f 0). exists (P3 z z z), (P3 B754_nan z z). do 2 eexists. split; [reflexivity|]. split; [reflexivity|]. split.
  - intros []; split; destruct f; reflexivity.
  - intros x H. destruct (H AX) as [H1 _]. destruct f; discriminate H1.
Qed.
Lemma union_nan_order f : exists (a b : Bounds3 (flt f)) u u', good_box (TFloat f) a /\ b3_union (f_elem f) a b = Done u /\ b3_union (f_elem f) b a = Done u' /\
  eqbox (tle (TFloat f)) u a /\ (forall x, ~ inb (tle (TFloat f)) u' x).
Proof.
  set (z := f_of_int f 0). exists (B3 (P3 z z z) (P3 z z z)), (B3 (P3 B754_nan z z) (P3 B754_nan z z)). do 2 eexists.
  split; [split; [split; intros []; destruct f; reflexivity|intros []; destruct f; reflexivity]|].
  split; [reflexivity|]. split; [reflexivity|]. split.
  - intros x. destruct f; split; intros H i; destruct i; (destruct (H AX), (H AY), (H AZ)); now split.
  - intros x H. destruct (H AX) as [H1 _]. destruct f; discriminate H1.
Qed.
