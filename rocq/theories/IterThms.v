(** Proofs about iterating over a two-dimensional box. *)
From Coq Require Import ZArith Lia FinFun.
From Verif Require Import Base Elem GeoModel IterSpec IntThms.
Local Open Scope Z_scope.

Lemma zrange_nil a b : b < a -> zrange a b = [].
Proof. intros H. unfold zrange. now replace (Z.to_nat (b - a + 1)) with 0%nat by lia. Qed.
Lemma zrange_cons a b : a <= b -> zrange a b = a :: zrange (a + 1) b.
Proof.
  intros H. unfold zrange. replace (Z.to_nat (b - a + 1)) with (S (Z.to_nat (b - (a + 1) + 1))) by lia.
  cbn [seq map]. rewrite <- seq_shift, map_map. f_equal; [lia|]. apply map_ext. intros i. lia.
Qed.
Lemma zrange_in a b x : In x (zrange a b) <-> a <= x <= b.
Proof.
  unfold zrange. rewrite in_map_iff. split.
  - intros (i & <- & Hi). apply in_seq in Hi. lia.
  - intros H. exists (Z.to_nat (x - a)). split; [lia|]. apply in_seq. lia.
Qed.
Lemma zrange_nodup a b : NoDup (zrange a b).
Proof. unfold zrange. apply Injective_map_NoDup; [intros i j; lia | apply seq_NoDup]. Qed.

Lemma collects_row chk (m : Point2 Z) y tail n : forall x, Z.to_nat (p2x m - x) = n ->
  in_range x = true -> in_range (p2x m) = true ->
  collects (i64 chk) (BI m (Z.max x (p2x m)) y) tail -> collects (i64 chk) (BI m x y) (row (x + 1) (p2x m) y ++ tail).
Proof.
  induction n as [|n IH]; intros x Hn Hx Hm Ht.
  - unfold row. rewrite zrange_nil by lia. cbn [map app]. now replace (Z.max x (p2x m)) with x in Ht by lia.
  - unfold row. rewrite zrange_cons by lia. cbn [map app].
    assert (R : in_range (x + 1) = true) by (unfold in_range in *; lia).
    eapply col_point with (it' := BI m (x + 1) y).
    + unfold b2_next. cbn [it_max it_x it_y e_le e_add e_from_int i64].
      destruct (p2x m <=? x) eqn:Q; [lia|]. cbn [andb]. rewrite (arith_in _ _ R). reflexivity.
    + apply (IH (x + 1)); auto; try lia. now replace (Z.max (x + 1) (p2x m)) with (Z.max x (p2x m)) by lia.
Qed.
Lemma collects_rows chk (m : Point2 Z) n : forall x y, Z.to_nat (p2y m - y) = n ->
  in_range (p2x m) = true -> in_range y = true -> in_range (p2y m) = true -> p2x m <= x ->
  collects (i64 chk) (BI m x y) (flat_map (row 0 (Z.max 0 (p2x m))) (zrange (y + 1) (p2y m))).
Proof.
  induction n as [|n IH]; intros x y Hn Hm Hy Hmy Hx.
  - rewrite zrange_nil by lia. cbn [flat_map]. eapply col_end.
    unfold b2_next. cbn [it_max it_x it_y e_le i64]. destruct (p2x m <=? x) eqn:Q; [|lia]. destruct (p2y m <=? y) eqn:Q2; [|lia]. reflexivity.
  - rewrite zrange_cons by lia. cbn [flat_map].
    assert (R : in_range (y + 1) = true) by (unfold in_range in *; lia).
    assert (Z0 : in_range 0 = true) by reflexivity.
    replace (row 0 (Z.max 0 (p2x m)) (y + 1)) with (P2 0 (y + 1) :: row (0 + 1) (p2x m) (y + 1)).
    2:{ unfold row. rewrite (zrange_cons 0) by lia. cbn [map]. f_equal. f_equal.
        destruct (Z.le_gt_cases 0 (p2x m)); [now rewrite Z.max_r by lia|]. now rewrite !zrange_nil by lia. }
    cbn [app]. eapply col_point with (it' := BI m 0 (y + 1)).
    + unfold b2_next. cbn [it_max it_x it_y e_le e_add e_from_int i64].
      destruct (p2x m <=? x) eqn:Q; [|lia]. destruct (p2y m <=? y) eqn:Q2; [lia|]. cbn [andb]. rewrite (arith_in _ _ R). reflexivity.
    + eapply collects_row; eauto. apply IH; auto; lia.
Qed.
Lemma iter_visited chk b : pt2_range (b2_min b) -> pt2_range (b2_max b) -> collects (i64 chk) (b2_into_iter b) (visited b).
Proof.
  intros [H1 H2] [H3 H4]. unfold visited, b2_into_iter. eapply collects_row; eauto. eapply collects_rows; eauto. lia.
Qed.
Lemma collects_det {T} (E : Elem T) it l : collects E it l -> forall l', collects E it l' -> l = l'.
Proof.
  induction 1 as [it it' H|it it' p l H HC IH]; intros l' H'; inversion H' as [? ? K|? ? ? ? K KC]; subst; rewrite H in K; try discriminate; auto.
  injection K as -> ->. f_equal. auto.
Qed.
Lemma next_none_stays {T} (E : Elem T) it it' : b2_next E it = Done (None, it') -> it' = it.
Proof.
  unfold b2_next. destruct (_ && _). { now injection 1. }
  destruct (e_le E _ _); [destruct (e_add E _ _)|destruct (e_add E _ _)]; cbn; discriminate.
Qed.

Lemma row_in a b y p : In p (row a b y) <-> a <= p2x p <= b /\ p2y p = y.
Proof.
  unfold row. rewrite in_map_iff. split.
  - intros (x & <- & Hx). apply zrange_in in Hx. cbn. auto.
  - intros [H <-]. exists (p2x p). rewrite zrange_in. destruct p; auto.
Qed.
Lemma row_nodup a b y : NoDup (row a b y).
Proof. unfold row. apply Injective_map_NoDup; [intros i j; congruence | apply zrange_nodup]. Qed.
Lemma NoDup_app' {A} (l m : list A) : NoDup l -> NoDup m -> (forall x, In x l -> ~ In x m) -> NoDup (l ++ m).
Proof.
  induction l as [|a l IH]; cbn; auto. intros H Hm Hd. inversion H; subst. constructor.
  - rewrite in_app_iff. intros [K|K]; [auto|exact (Hd a (or_introl eq_refl) K)].
  - apply IH; auto.
Qed.
Lemma rows_nodup a b l : NoDup l -> NoDup (flat_map (row a b) l).
Proof.
  induction l as [|y l IH]; cbn; [constructor|]. intros H. inversion H; subst. apply NoDup_app'; auto using row_nodup.
  intros p Hp K. apply in_flat_map in K as (y' & Hy & Hp'). apply row_in in Hp, Hp'. destruct Hp, Hp'. congruence.
Qed.
Lemma visited_in b p : In p (visited b) <->
  (p2x (b2_min b) < p2x p <= p2x (b2_max b) /\ p2y p = p2y (b2_min b)) \/
  (0 <= p2x p <= Z.max 0 (p2x (b2_max b)) /\ p2y (b2_min b) < p2y p <= p2y (b2_max b)).
Proof.
  unfold visited. rewrite in_app_iff, row_in, in_flat_map. split.
  - intros [[? ?]|(y & Hy & Hp)]; [left; lia|right]. apply zrange_in in Hy. apply row_in in Hp. lia.
  - intros [?|[? ?]]; [left; lia|right]. exists (p2y p). rewrite zrange_in, row_in. lia.
Qed.
Lemma visited_nodup b : NoDup (visited b).
Proof.
  unfold visited. apply NoDup_app'; [apply row_nodup|apply rows_nodup, zrange_nodup|].
  intros p Hp K. apply in_flat_map in K as (y & Hy & Hp'). apply row_in in Hp, Hp'. apply zrange_in in Hy. lia.
Qed.
Lemma visited_zero b : p2x (b2_min b) = 0 -> 0 <= p2x (b2_max b) -> p2y (b2_min b) <= p2y (b2_max b) ->
  forall p, In p (visited b) <-> inb2 b p /\ p <> b2_min b.
Proof.
  intros H0 H1 H2 p. rewrite visited_in. unfold inb2. destruct p as [x y], b as [[x0 y0] [x1 y1]]. cbn in *. subst x0.
  rewrite Z.max_r by lia. split.
  - intros [?|?]; (split; [lia|]); intros E; injection E; lia.
  - intros [? N]. destruct (Z.eq_dec y y0) as [->|]; [left|right; lia]. split; auto.
    destruct (Z.eq_dec x 0) as [->|]; [contradiction|lia].
Qed.
