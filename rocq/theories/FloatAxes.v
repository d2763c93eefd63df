(** Renaming the axes. *)
From Coq Require Import Lra ZArith Bool Lia.
From Flocq Require Import IEEE754.BinarySingleNaN.
From Verif Require Import Base Elem GeoModel MatModel FloatInst GeoSpec ArithSpec OpsSpec MirSpec BoxThms IntThms FloatCore MatThms AxesSpec.
Local Open Scope mon_scope.

Lemma cycle_renaming : renaming cycle.
Proof. intros [] []; cbn; congruence. Qed.
Lemma swap_renaming : renaming swap_xy.
Proof. intros [] []; cbn; congruence. Qed.

(** ** Computations *)
Definition nofuel {A} (x : out A) : Prop := x <> OutOfFuel.
Lemma alike_bind {A B} (R : A -> A -> Prop) (S : B -> B -> Prop) m n k k' : alike R m n -> (forall a b, R a b -> alike S (k a) (k' b)) ->
  alike S (obind m k) (obind n k').
Proof. intros [(a & b & -> & -> & H)|[-> ->]] Hk; cbn; [auto|now right]. Qed.
Lemma alike_done {A} (R : A -> A -> Prop) a b : R a b -> alike R (Done a) (Done b).
Proof. intros H. left. eauto. Qed.
Lemma alike_refl {A} (x : out A) : nofuel x -> alike eq x x.
Proof. intros H. destruct x as [a| |]; [left; eauto|right; auto|destruct (H eq_refl)]. Qed.
Lemma alike_eq {A} (x y : out A) : nofuel x -> x = y -> alike eq x y.
Proof. intros H <-. now apply alike_refl. Qed.

Lemma ren_cases (s : axis -> axis) : renaming s ->
  (s AX, s AY, s AZ) = (AX, AY, AZ) \/ (s AX, s AY, s AZ) = (AX, AZ, AY) \/ (s AX, s AY, s AZ) = (AY, AX, AZ) \/
  (s AX, s AY, s AZ) = (AY, AZ, AX) \/ (s AX, s AY, s AZ) = (AZ, AX, AY) \/ (s AX, s AY, s AZ) = (AZ, AY, AX).
Proof.
  intros H. pose proof (H AX AY) as H1. pose proof (H AX AZ) as H2. pose proof (H AY AZ) as H3.
  destruct (s AX), (s AY), (s AZ); auto 10; exfalso; first [discriminate (H1 eq_refl)|discriminate (H2 eq_refl)|discriminate (H3 eq_refl)].
Qed.
(** Three component computations, whatever they are collected in. *)
Lemma mk3_alike {T B} (c : T -> T -> T -> B) (get : axis -> B -> T) s (g h : axis -> out T) : renaming s ->
  (forall i x y z, get i (c x y z) = match i with AX => x | AY => y | AZ => z end) ->
  (forall i, nofuel (g i)) -> (forall i, h i = g (s i)) ->
  alike (fun a b => forall i, get i b = get (s i) a) (mk3 c (g AX) (g AY) (g AZ)) (mk3 c (h AX) (h AY) (h AZ)).
Proof.
  intros Hs Hg Hf Hh. rewrite !Hh. pose proof (Hf AX) as FX. pose proof (Hf AY) as FY. pose proof (Hf AZ) as FZ. clear Hf Hh h.
  unfold nofuel in *. unfold mk3.
  destruct (ren_cases s Hs) as [E|[E|[E|[E|[E|E]]]]]; injection E as E1 E2 E3; rewrite E1, E2, E3;
    destruct (g AX) as [x| |], (g AY) as [y| |], (g AZ) as [z| |]; try congruence; cbn;
    try (right; split; reflexivity); left; (do 2 eexists; split; [reflexivity|]; split; [reflexivity|]);
    (intros []; rewrite ?E1, ?E2, ?E3; rewrite !Hg; reflexivity).
Qed.
Lemma gp {T} i (x y z : T) : coord i (P3 x y z) = match i with AX => x | AY => y | AZ => z end.
Proof. now destruct i. Qed.
Lemma gv {T} i (x y z : T) : vcoord i (V3 x y z) = match i with AX => x | AY => y | AZ => z end.
Proof. now destruct i. Qed.
Lemma gn {T} i (x y z : T) : ncoord i (N3 x y z) = match i with AX => x | AY => y | AZ => z end.
Proof. now destruct i. Qed.

(** ** Elements *)
Section Elements.
  Context {T : Type} (E : Elem T).
  Definition elem_total : Prop := (forall x y, nofuel (e_add E x y)) /\ (forall x y, nofuel (e_sub E x y)) /\ (forall x y, nofuel (e_mul E x y)) /\
    (forall x y, nofuel (e_div E x y)) /\ (forall x, nofuel (e_neg E x)) /\ (forall x, nofuel (e_abs E x)).
  Context (ET : elem_total) (s : axis -> axis) (Hs : renaming s).
  Let Ea := proj1 ET. Let Es := proj1 (proj2 ET). Let Em := proj1 (proj2 (proj2 ET)).
  Let Ed := proj1 (proj2 (proj2 (proj2 ET))). Let En := proj1 (proj2 (proj2 (proj2 (proj2 ET)))). Let Eb := proj2 (proj2 (proj2 (proj2 (proj2 ET)))).

  Ltac p3 g h := apply (mk3_alike P3 coord s g h Hs (@gp T)).
  Ltac v3 g h := apply (mk3_alike V3 vcoord s g h Hs (@gv T)).
  Ltac n3 g h := apply (mk3_alike N3 ncoord s g h Hs (@gn T)).
  Notation RP := (ren_pt (T := T) s). Notation RV := (ren_vec (T := T) s). Notation RN := (ren_nrm (T := T) s).

  Lemma p_add p p' v v' : RP p p' -> RV v v' -> alike RP (p3_add E p v) (p3_add E p' v').
  Proof.
    intros Hp Hv. p3 (fun i => e_add E (coord i p) (vcoord i v)) (fun i => e_add E (coord i p') (vcoord i v')); intros i; [apply Ea|].
    now rewrite Hp, Hv.
  Qed.
  Lemma p_sub_v p p' v v' : RP p p' -> RV v v' -> alike RP (p3_sub_v E p v) (p3_sub_v E p' v').
  Proof.
    intros Hp Hv. p3 (fun i => e_sub E (coord i p) (vcoord i v)) (fun i => e_sub E (coord i p') (vcoord i v')); intros i; [apply Es|].
    now rewrite Hp, Hv.
  Qed.
  Lemma p_sub p p' q q' : RP p p' -> RP q q' -> alike RV (p3_sub E p q) (p3_sub E p' q').
  Proof.
    intros Hp Hv. v3 (fun i => e_sub E (coord i p) (coord i q)) (fun i => e_sub E (coord i p') (coord i q')); intros i; [apply Es|].
    now rewrite Hp, Hv.
  Qed.
  Lemma p_mul p p' x : RP p p' -> alike RP (p3_mul E p x) (p3_mul E p' x).
  Proof. intros Hp. p3 (fun i => e_mul E x (coord i p)) (fun i => e_mul E x (coord i p')); intros i; [apply Em|]. now rewrite Hp. Qed.
  Lemma p_div p p' x : RP p p' -> alike RP (p3_div E p x) (p3_div E p' x).
  Proof. intros Hp. p3 (fun i => e_div E (coord i p) x) (fun i => e_div E (coord i p') x); intros i; [apply Ed|]. now rewrite Hp. Qed.
  Lemma p_abs p p' : RP p p' -> alike RP (p3_abs E p) (p3_abs E p').
  Proof. intros Hp. p3 (fun i => e_abs E (coord i p)) (fun i => e_abs E (coord i p')); intros i; [apply Eb|]. now rewrite Hp. Qed.
  Lemma p_min p p' q q' : RP p p' -> RP q q' -> alike RP (p3_min E p q) (p3_min E p' q').
  Proof.
    intros Hp Hv. p3 (fun i => pmin E [coord i p; coord i q]) (fun i => pmin E [coord i p'; coord i q']); intros i; [discriminate|].
    now rewrite Hp, Hv.
  Qed.
  Lemma p_max p p' q q' : RP p p' -> RP q q' -> alike RP (p3_max E p q) (p3_max E p' q').
  Proof.
    intros Hp Hv. p3 (fun i => pmax E [coord i p; coord i q]) (fun i => pmax E [coord i p'; coord i q']); intros i; [discriminate|].
    now rewrite Hp, Hv.
  Qed.
  Lemma v_add u u' v v' : RV u u' -> RV v v' -> alike RV (v3_add E u v) (v3_add E u' v').
  Proof.
    intros Hp Hv. v3 (fun i => e_add E (vcoord i u) (vcoord i v)) (fun i => e_add E (vcoord i u') (vcoord i v')); intros i; [apply Ea|].
    now rewrite Hp, Hv.
  Qed.
  Lemma v_sub u u' v v' : RV u u' -> RV v v' -> alike RV (v3_sub E u v) (v3_sub E u' v').
  Proof.
    intros Hp Hv. v3 (fun i => e_sub E (vcoord i u) (vcoord i v)) (fun i => e_sub E (vcoord i u') (vcoord i v')); intros i; [apply Es|].
    now rewrite Hp, Hv.
  Qed.
  Lemma v_mul u u' x : RV u u' -> alike RV (v3_mul E u x) (v3_mul E u' x).
  Proof. intros Hp. v3 (fun i => e_mul E x (vcoord i u)) (fun i => e_mul E x (vcoord i u')); intros i; [apply Em|]. now rewrite Hp. Qed.
  Lemma v_div u u' x : RV u u' -> alike RV (v3_div E u x) (v3_div E u' x).
  Proof. intros Hp. v3 (fun i => e_div E (vcoord i u) x) (fun i => e_div E (vcoord i u') x); intros i; [apply Ed|]. now rewrite Hp. Qed.
  Lemma v_neg u u' : RV u u' -> alike RV (v3_neg E u) (v3_neg E u').
  Proof. intros Hp. v3 (fun i => e_neg E (vcoord i u)) (fun i => e_neg E (vcoord i u')); intros i; [apply En|]. now rewrite Hp. Qed.
  Lemma v_min u u' v v' : RV u u' -> RV v v' -> alike RV (v3_min E u v) (v3_min E u' v').
  Proof.
    intros Hp Hv. v3 (fun i => pmin E [vcoord i u; vcoord i v]) (fun i => pmin E [vcoord i u'; vcoord i v']); intros i; [discriminate|].
    now rewrite Hp, Hv.
  Qed.
  Lemma v_max u u' v v' : RV u u' -> RV v v' -> alike RV (v3_max E u v) (v3_max E u' v').
  Proof.
    intros Hp Hv. v3 (fun i => pmax E [vcoord i u; vcoord i v]) (fun i => pmax E [vcoord i u'; vcoord i v']); intros i; [discriminate|].
    now rewrite Hp, Hv.
  Qed.
  Lemma n_add u u' v v' : RN u u' -> RN v v' -> alike RN (n3_add E u v) (n3_add E u' v').
  Proof.
    intros Hp Hv. n3 (fun i => e_add E (ncoord i u) (ncoord i v)) (fun i => e_add E (ncoord i u') (ncoord i v')); intros i; [apply Ea|].
    now rewrite Hp, Hv.
  Qed.
  Lemma n_sub u u' v v' : RN u u' -> RN v v' -> alike RN (n3_sub E u v) (n3_sub E u' v').
  Proof.
    intros Hp Hv. n3 (fun i => e_sub E (ncoord i u) (ncoord i v)) (fun i => e_sub E (ncoord i u') (ncoord i v')); intros i; [apply Es|].
    now rewrite Hp, Hv.
  Qed.
  Lemma n_mul u u' x : RN u u' -> alike RN (n3_mul E u x) (n3_mul E u' x).
  Proof. intros Hp. n3 (fun i => e_mul E x (ncoord i u)) (fun i => e_mul E x (ncoord i u')); intros i; [apply Em|]. now rewrite Hp. Qed.
  Lemma n_div u u' x : RN u u' -> alike RN (n3_div E u x) (n3_div E u' x).
  Proof. intros Hp. n3 (fun i => e_div E (ncoord i u) x) (fun i => e_div E (ncoord i u') x); intros i; [apply Ed|]. now rewrite Hp. Qed.
  Lemma n_neg u u' : RN u u' -> alike RN (n3_neg E u) (n3_neg E u').
  Proof. intros Hp. n3 (fun i => e_neg E (ncoord i u)) (fun i => e_neg E (ncoord i u')); intros i; [apply En|]. now rewrite Hp. Qed.
  Lemma n_min u u' v v' : RN u u' -> RN v v' -> alike RN (n3_min E u v) (n3_min E u' v').
  Proof.
    intros Hp Hv. n3 (fun i => pmin E [ncoord i u; ncoord i v]) (fun i => pmin E [ncoord i u'; ncoord i v']); intros i; [discriminate|].
    now rewrite Hp, Hv.
  Qed.
  Lemma n_max u u' v v' : RN u u' -> RN v v' -> alike RN (n3_max E u v) (n3_max E u' v').
  Proof.
    intros Hp Hv. n3 (fun i => pmax E [ncoord i u; ncoord i v]) (fun i => pmax E [ncoord i u'; ncoord i v']); intros i; [discriminate|].
    now rewrite Hp, Hv.
  Qed.

  (** *** Boxes *)
  Notation RB := (ren_box (T := T) s).
  Lemma mkbox lo lo' hi hi' : alike RP lo lo' -> alike RP hi hi' -> alike RB (l <~ lo ;; h <~ hi ;; !(B3 l h)) (l <~ lo' ;; h <~ hi' ;; !(B3 l h)).
  Proof. intros A B. eapply alike_bind; [exact A|]. intros a b Hab. eapply alike_bind; [exact B|]. intros c d Hcd. apply alike_done. now split. Qed.
  Lemma b_new p p' q q' : RP p p' -> RP q q' -> alike RB (b3_new E p q) (b3_new E p' q').
  Proof. intros Hp Hq. apply mkbox; [now apply p_min|now apply p_max]. Qed.
  Lemma newbox lo lo' hi hi' : alike RP lo lo' -> alike RP hi hi' -> alike RB (l <~ lo ;; h <~ hi ;; b3_new E l h) (l <~ lo' ;; h <~ hi' ;; b3_new E l h).
  Proof. intros A B. eapply alike_bind; [exact A|]. intros a b Hab. eapply alike_bind; [exact B|]. intros c d Hcd. now apply b_new. Qed.
  Lemma b_union a a' b b' : RB a a' -> RB b b' -> alike RB (b3_union E a b) (b3_union E a' b').
  Proof. intros [A1 A2] [B1 B2]. apply newbox; [now apply p_min|now apply p_max]. Qed.
  Lemma b_union_pt a a' p p' : RB a a' -> RP p p' -> alike RB (b3_union_pt E a p) (b3_union_pt E a' p').
  Proof. intros [A1 A2] Hp. apply newbox; [now apply p_min|now apply p_max]. Qed.
  Lemma b_intersect a a' b b' : RB a a' -> RB b b' -> alike RB (b3_intersect E a b) (b3_intersect E a' b').
  Proof. intros [A1 A2] [B1 B2]. apply newbox; [now apply p_max|now apply p_min]. Qed.
  Lemma b_expand a a' d : RB a a' -> alike RB (b3_expand E a d) (b3_expand E a' d).
  Proof.
    intros [A1 A2]. assert (D : RV (V3 d d d) (V3 d d d)) by (intros i; rewrite !gv; now destruct (s i), i).
    apply newbox; [now apply p_sub_v|now apply p_add].
  Qed.
  Lemma b_diagonal a a' : RB a a' -> alike RV (b3_diagonal E a) (b3_diagonal E a').
  Proof. intros [A1 A2]. now apply p_sub. Qed.
  (** Conditions on all axes. *)
  Lemma all_axes (f g : axis -> bool) : (forall i, g i = f (s i)) -> f AX && f AY && f AZ = g AX && g AY && g AZ.
  Proof.
    intros H. rewrite !H. destruct (ren_cases s Hs) as [E1|[E1|[E1|[E1|[E1|E1]]]]]; injection E1 as E1 E2 E3; rewrite E1, E2, E3;
      destruct (f AX), (f AY), (f AZ); reflexivity.
  Qed.
  Lemma b_overlaps a a' b b' : RB a a' -> RB b b' -> b3_overlaps E a b = b3_overlaps E a' b'.
  Proof.
    intros [A1 A2] [B1 B2].
    apply (all_axes (fun i => e_le E (coord i (b_min b)) (coord i (b_max a)) && e_le E (coord i (b_min a)) (coord i (b_max b)))
      (fun i => e_le E (coord i (b_min b')) (coord i (b_max a')) && e_le E (coord i (b_min a')) (coord i (b_max b')))).
    intros i. now rewrite A1, A2, B1, B2.
  Qed.
  Lemma b_inside a a' p p' : RB a a' -> RP p p' -> b3_inside E a p = b3_inside E a' p'.
  Proof.
    intros [A1 A2] Hp.
    assert (X : forall c q, b3_inside E c q =
      (e_le E (px (b_min c)) (px q) && e_le E (px q) (px (b_max c))) && (e_le E (py (b_min c)) (py q) && e_le E (py q) (py (b_max c))) &&
      (e_le E (pz (b_min c)) (pz q) && e_le E (pz q) (pz (b_max c)))).
    { intros c q. unfold b3_inside. now rewrite !andb_assoc. }
    rewrite !X.
    apply (all_axes (fun i => e_le E (coord i (b_min a)) (coord i p) && e_le E (coord i p) (coord i (b_max a)))
      (fun i => e_le E (coord i (b_min a')) (coord i p') && e_le E (coord i p') (coord i (b_max a')))).
    intros i. now rewrite A1, A2, Hp.
  Qed.
  Lemma b_inside_exclusive a a' p p' : RB a a' -> RP p p' -> b3_inside_exclusive E a p = b3_inside_exclusive E a' p'.
  Proof.
    intros [A1 A2] Hp. 
    assert (X : forall c q, b3_inside_exclusive E c q =
      (e_le E (px (b_min c)) (px q) && e_lt E (px q) (px (b_max c))) && (e_le E (py (b_min c)) (py q) && e_lt E (py q) (py (b_max c))) &&
      (e_le E (pz (b_min c)) (pz q) && e_lt E (pz q) (pz (b_max c)))).
    { intros c q. unfold b3_inside_exclusive. now rewrite !andb_assoc. }
    rewrite !X.
    apply (all_axes (fun i => e_le E (coord i (b_min a)) (coord i p) && e_lt E (coord i p) (coord i (b_max a)))
      (fun i => e_le E (coord i (b_min a')) (coord i p') && e_lt E (coord i p') (coord i (b_max a')))).
    intros i. now rewrite A1, A2, Hp.
  Qed.
  (** The relative coordinate on one axis. *)
  Definition off (a : Bounds3 T) (p : Point3 T) (i : axis) : out T :=
    o <~ e_sub E (coord i p) (coord i (b_min a)) ;;
    if e_lt E (coord i (b_min a)) (coord i (b_max a)) then d <~ e_sub E (coord i (b_max a)) (coord i (b_min a)) ;; e_div E o d else !o.
  Lemma off_total a p i : nofuel (off a p i).
  Proof.
    unfold off, nofuel. pose proof (Es (coord i p) (coord i (b_min a))) as H1. pose proof (Es (coord i (b_max a)) (coord i (b_min a))) as H2.
    unfold nofuel in *. destruct (e_sub E (coord i p) _); cbn; try congruence. destruct (e_lt _ _ _); try congruence.
    destruct (e_sub E (coord i (b_max a)) _); cbn; try congruence.
  Qed.
  Lemma offset_off a p : b3_offset E a p = mk3 V3 (off a p AX) (off a p AY) (off a p AZ).
  Proof.
    unfold b3_offset, off, p3_sub, mk3, lift2. cbn [coord obind].
    repeat (cbn [obind vx vy vz]; try reflexivity; match goal with
      | |- context [e_sub E ?u ?v] => let H := fresh in pose proof (Es u v) as H; unfold nofuel in H; destruct (e_sub E u v); [| |congruence]; clear H
      | |- context [e_lt E ?u ?v] => destruct (e_lt E u v)
      | |- context [e_div E ?u ?v] => let H := fresh in pose proof (Ed u v) as H; unfold nofuel in H; destruct (e_div E u v); [| |congruence]; clear H
      end).
  Qed.
  Lemma b_offset a a' p p' : RB a a' -> RP p p' -> alike RV (b3_offset E a p) (b3_offset E a' p').
  Proof.
    intros [A1 A2] Hp. rewrite !offset_off. v3 (off a p) (off a' p'); [apply off_total|]. intros i. unfold off. now rewrite A1, A2, Hp.
  Qed.
  Lemma b_corners a a' : RB a a' -> forall n, exists m, RP (b3_corner a m) (b3_corner a' n).
  Proof.
    intros [A1 A2] n.
    set (bit := fun i : axis => match i with AX => (0 <? N.land n 1)%N | AY => (0 <? N.land n 2)%N | AZ => (0 <? N.land n 4)%N end).
    assert (X : exists m, forall i, (0 <? N.land m (match s i with AX => 1 | AY => 2 | AZ => 4 end))%N = bit i).
    { destruct (ren_cases s Hs) as [E1|[E1|[E1|[E1|[E1|E1]]]]]; injection E1 as E1 E2 E3;
      destruct (bit AX) eqn:B1, (bit AY) eqn:B2, (bit AZ) eqn:B3;
      first [exists 0%N; intros []; rewrite ?E1, ?E2, ?E3, ?B1, ?B2, ?B3; reflexivity|exists 1%N; intros []; rewrite ?E1, ?E2, ?E3, ?B1, ?B2, ?B3; reflexivity
            |exists 2%N; intros []; rewrite ?E1, ?E2, ?E3, ?B1, ?B2, ?B3; reflexivity|exists 3%N; intros []; rewrite ?E1, ?E2, ?E3, ?B1, ?B2, ?B3; reflexivity
            |exists 4%N; intros []; rewrite ?E1, ?E2, ?E3, ?B1, ?B2, ?B3; reflexivity|exists 5%N; intros []; rewrite ?E1, ?E2, ?E3, ?B1, ?B2, ?B3; reflexivity
            |exists 6%N; intros []; rewrite ?E1, ?E2, ?E3, ?B1, ?B2, ?B3; reflexivity|exists 7%N; intros []; rewrite ?E1, ?E2, ?E3, ?B1, ?B2, ?B3; reflexivity]. }
    destruct X as (m & X). exists m.
    assert (C : forall (b : Bounds3 T) k i, coord i (b3_corner b k) = coord i (if (0 <? N.land k (match i with AX => 1 | AY => 2 | AZ => 4 end))%N then b_min b else b_max b)) by (intros b k []; reflexivity).
    intros i. rewrite !C. rewrite (X i). replace (0 <? N.land n (match i with AX => 1 | AY => 2 | AZ => 4 end))%N with (bit i) by (now destruct i).
    destruct (bit i); [apply A1|apply A2].
  Qed.

  (** *** Sums: the first two axes may change places *)
  Context (Ca : forall x y, e_add E x y = e_add E y x) (Cm : forall x y, e_mul E x y = e_mul E y x).
  Lemma lift2_comm (op : T -> T -> out T) m n : (forall x y, op x y = op y x) -> nofuel m -> nofuel n -> lift2 op m n = lift2 op n m.
  Proof. intros C M N. unfold lift2, nofuel in *. destruct m, n; cbn; try congruence; auto. Qed.
  Lemma mul_total m n : nofuel m -> nofuel n -> nofuel (m *[E] n).
  Proof. unfold lift2, nofuel. intros M N. destruct m, n; cbn; try congruence; apply Em. Qed.
  Lemma add_total m n : nofuel m -> nofuel n -> nofuel (m +[E] n).
  Proof. unfold lift2, nofuel. intros M N. destruct m, n; cbn; try congruence; apply Ea. Qed.
  Lemma sub_total m n : nofuel m -> nofuel n -> nofuel (m -[E] n).
  Proof. unfold lift2, nofuel. intros M N. destruct m, n; cbn; try congruence; apply Es. Qed.
  Lemma done_total (x : T) : nofuel (Done x). Proof. discriminate. Qed.
  Lemma dot_total u v : nofuel (v3_dot E u v).
  Proof. unfold v3_dot. repeat first [apply add_total|apply mul_total|apply done_total]. Qed.
End Elements.

Section Swap.
  Context {T : Type} (E : Elem T) (ET : elem_total E) (Ca : forall x y, e_add E x y = e_add E y x) (Cm : forall x y, e_mul E x y = e_mul E y x).
  Notation RP := (ren_pt (T := T) swap_xy). Notation RV := (ren_vec (T := T) swap_xy). Notation RB := (ren_box (T := T) swap_xy).
  Ltac tot := repeat first [apply (add_total E ET)|apply (mul_total E ET)|apply (sub_total E ET)|apply done_total].
  Lemma sv u u' : RV u u' -> u' = V3 (vy u) (vx u) (vz u).
  Proof. intros H. pose proof (H AX) as X. pose proof (H AY) as Y. pose proof (H AZ) as Z. destruct u, u'. cbn in *. congruence. Qed.
  Lemma dot_swap u u' v v' : RV u u' -> RV v v' -> v3_dot E u' v' = v3_dot E u v.
  Proof.
    intros Hu Hv. apply sv in Hu, Hv. subst. unfold v3_dot. cbn [vx vy vz]. f_equal. apply lift2_comm; tot. exact Ca.
  Qed.
  Lemma len_swap u u' : RV u u' -> v3_len_sq E u' = v3_len_sq E u.
  Proof. intros Hu. exact (dot_swap _ _ _ _ Hu Hu). Qed.
  Lemma face_swap u u' v v' : RV u u' -> RV v v' -> alike RV (v3_face_forward E u v) (v3_face_forward E u' v').
  Proof.
    intros Hu Hv. unfold v3_face_forward. rewrite (dot_swap _ _ _ _ Hu Hv). eapply alike_bind; [apply alike_refl, dot_total, ET|].
    intros a b <-. destruct (e_lt E a _); [now apply v_neg; [| apply swap_renaming|]|now apply alike_done].
  Qed.
  Lemma volume_swap a a' : RB a a' -> alike eq (b3_volume E a) (b3_volume E a').
  Proof.
    intros Ha. unfold b3_volume. eapply alike_bind; [apply (b_diagonal E ET swap_xy swap_renaming); eassumption|].
    intros d d' Hd. apply sv in Hd. subst. cbn [vx vy vz]. apply alike_eq; [tot|]. f_equal. apply lift2_comm; tot. exact Cm.
  Qed.
  (** The z part of the cross product is negated, the others change places and are negated. *)
  Lemma cross_cycle u u' v v' : ren_vec cycle u u' -> ren_vec cycle v v' -> alike (ren_vec cycle) (v3_cross E u v) (v3_cross E u' v').
  Proof.
    intros Hu Hv. pose proof (Hu AX) as X1. pose proof (Hu AY) as Y1. pose proof (Hu AZ) as Z1. pose proof (Hv AX) as X2. pose proof (Hv AY) as Y2. pose proof (Hv AZ) as Z2.
    cbn in X1, Y1, Z1, X2, Y2, Z2. unfold v3_cross. rewrite X1, Y1, Z1, X2, Y2, Z2.
    apply (mk3_alike V3 vcoord cycle
      (fun i => match i with AX => !(vy u) *[E] !(vz v) -[E] !(vz u) *[E] !(vy v) | AY => !(vz u) *[E] !(vx v) -[E] !(vx u) *[E] !(vz v) | AZ => !(vx u) *[E] !(vy v) -[E] !(vy u) *[E] !(vx v) end)
      (fun i => match cycle i with AX => !(vy u) *[E] !(vz v) -[E] !(vz u) *[E] !(vy v) | AY => !(vz u) *[E] !(vx v) -[E] !(vx u) *[E] !(vz v) | AZ => !(vx u) *[E] !(vy v) -[E] !(vy u) *[E] !(vx v) end)
      cycle_renaming (@gv T)); [|reflexivity]. intros []; tot.
  Qed.
End Swap.

(** ** The element types *)
Lemma ety_total ty : elem_total (elem ty).
Proof.
  destruct ty as [f|chk]; cbn [elem]; repeat split; try (intros; discriminate); intros; unfold nofuel; cbn; try apply arith_total.
  - destruct (_ =? _)%Z; [discriminate|]. destruct (in_range _); discriminate.
  - destruct (_ <? _)%Z; [apply arith_total|discriminate].
Qed.
Lemma Bplus_comm' f (x y : flt f) : f_add x y = f_add y x.
Proof.
  unfold f_add, flt in *. destruct x as [[]|[]| |[] mx ex Hx], y as [[]|[]| |[] my ey Hy]; try reflexivity;
    unfold Bplus; cbv zeta; rewrite (Z.min_comm ey ex); f_equal; apply Z.add_comm.
Qed.
Lemma ety_add_comm ty x y : e_add (elem ty) x y = e_add (elem ty) y x.
Proof.
  destruct ty as [f|chk]; cbn [elem] in *; cbn [e_add f_elem i64]; [f_equal; apply Bplus_comm'|now rewrite Z.add_comm].
Qed.

(** ** C120 *)
Lemma ren_points ty s p p' q q' v v' x : renaming s -> ren_pt s p p' -> ren_pt s q q' -> ren_vec s v v' ->
  alike (ren_pt s) (p3_add (elem ty) p v) (p3_add (elem ty) p' v') /\ alike (ren_pt s) (p3_sub_v (elem ty) p v) (p3_sub_v (elem ty) p' v') /\
  alike (ren_vec s) (p3_sub (elem ty) p q) (p3_sub (elem ty) p' q') /\ alike (ren_pt s) (p3_mul (elem ty) p x) (p3_mul (elem ty) p' x) /\
  alike (ren_pt s) (p3_div (elem ty) p x) (p3_div (elem ty) p' x) /\ alike (ren_pt s) (p3_abs (elem ty) p) (p3_abs (elem ty) p') /\
  alike (ren_pt s) (p3_min (elem ty) p q) (p3_min (elem ty) p' q') /\ alike (ren_pt s) (p3_max (elem ty) p q) (p3_max (elem ty) p' q').
Proof.
  intros Hs Hp Hq Hv. pose proof (ety_total ty) as ET.
  repeat apply conj; [now apply p_add|now apply p_sub_v|now apply p_sub|now apply p_mul|now apply p_div|now apply p_abs|now apply p_min|now apply p_max].
Qed.
Lemma ren_vectors ty s u u' v v' x : renaming s -> ren_vec s u u' -> ren_vec s v v' ->
  alike (ren_vec s) (v3_add (elem ty) u v) (v3_add (elem ty) u' v') /\ alike (ren_vec s) (v3_sub (elem ty) u v) (v3_sub (elem ty) u' v') /\
  alike (ren_vec s) (v3_mul (elem ty) u x) (v3_mul (elem ty) u' x) /\ alike (ren_vec s) (v3_div (elem ty) u x) (v3_div (elem ty) u' x) /\
  alike (ren_vec s) (v3_neg (elem ty) u) (v3_neg (elem ty) u') /\
  alike (ren_vec s) (v3_min (elem ty) u v) (v3_min (elem ty) u' v') /\ alike (ren_vec s) (v3_max (elem ty) u v) (v3_max (elem ty) u' v').
Proof.
  intros Hs Hu Hv. pose proof (ety_total ty) as ET.
  repeat apply conj; [now apply v_add|now apply v_sub|now apply v_mul|now apply v_div|now apply v_neg|now apply v_min|now apply v_max].
Qed.
Lemma ren_normals ty s u u' v v' x : renaming s -> ren_nrm s u u' -> ren_nrm s v v' ->
  alike (ren_nrm s) (n3_add (elem ty) u v) (n3_add (elem ty) u' v') /\ alike (ren_nrm s) (n3_sub (elem ty) u v) (n3_sub (elem ty) u' v') /\
  alike (ren_nrm s) (n3_mul (elem ty) u x) (n3_mul (elem ty) u' x) /\ alike (ren_nrm s) (n3_div (elem ty) u x) (n3_div (elem ty) u' x) /\
  alike (ren_nrm s) (n3_neg (elem ty) u) (n3_neg (elem ty) u') /\
  alike (ren_nrm s) (n3_min (elem ty) u v) (n3_min (elem ty) u' v') /\ alike (ren_nrm s) (n3_max (elem ty) u v) (n3_max (elem ty) u' v').
Proof.
  intros Hs Hu Hv. pose proof (ety_total ty) as ET.
  repeat apply conj; [now apply n_add|now apply n_sub|now apply n_mul|now apply n_div|now apply n_neg|now apply n_min|now apply n_max].
Qed.
Lemma ren_boxes ty s a a' b b' p p' q q' x : renaming s -> ren_box s a a' -> ren_box s b b' -> ren_pt s p p' -> ren_pt s q q' ->
  alike (ren_box s) (b3_new (elem ty) p q) (b3_new (elem ty) p' q') /\ alike (ren_box s) (b3_union (elem ty) a b) (b3_union (elem ty) a' b') /\
  alike (ren_box s) (b3_union_pt (elem ty) a p) (b3_union_pt (elem ty) a' p') /\ alike (ren_box s) (b3_intersect (elem ty) a b) (b3_intersect (elem ty) a' b') /\
  alike (ren_box s) (b3_expand (elem ty) a x) (b3_expand (elem ty) a' x) /\ alike (ren_vec s) (b3_diagonal (elem ty) a) (b3_diagonal (elem ty) a') /\
  alike (ren_vec s) (b3_offset (elem ty) a p) (b3_offset (elem ty) a' p') /\
  b3_overlaps (elem ty) a' b' = b3_overlaps (elem ty) a b /\ b3_inside (elem ty) a' p' = b3_inside (elem ty) a p /\
  b3_inside_exclusive (elem ty) a' p' = b3_inside_exclusive (elem ty) a p /\
  forall n, exists m, ren_pt s (b3_corner a m) (b3_corner a' n).
Proof.
  intros Hs Ha Hb Hp Hq. pose proof (ety_total ty) as ET.
  split; [now apply b_new|]. split; [now apply b_union|]. split; [now apply b_union_pt|]. split; [now apply b_intersect|].
  split; [now apply b_expand|]. split; [now apply b_diagonal|]. split; [now apply b_offset|].
  split; [symmetry; now apply (b_overlaps _ s Hs)|]. split; [symmetry; now apply (b_inside _ s Hs)|].
  split; [symmetry; now apply (b_inside_exclusive _ s Hs)|]. now apply b_corners.
Qed.
(** The longest axis. *)
Lemma lt_not ty (x y : car ty) : e_lt (elem ty) x y = true -> e_lt (elem ty) y x = false.
Proof.
  destruct ty as [f|chk]; cbn [elem e_lt f_elem i64 car] in *; [|rewrite Z.ltb_lt, Z.ltb_ge; lia].
  intros H. destruct (Bltb y x) eqn:L; [|reflexivity]. apply (OrderProofs.ltb_key f) in H, L. lra.
Qed.
Lemma longest_dimension ty (v : Vector3 (car ty)) i : longest ty v i -> v3_max_dimension (elem ty) v = axis_nat i.
Proof.
  intros H. unfold v3_max_dimension. destruct i.
  - pose proof (H AY) as Y. pose proof (H AZ) as Z. cbn in Y, Z. now rewrite Y, Z by discriminate.
  - pose proof (H AX) as X. pose proof (H AZ) as Z. cbn in X, Z. rewrite (lt_not _ _ _ (X ltac:(discriminate))). now rewrite Z by discriminate.
  - pose proof (H AX) as X. pose proof (H AY) as Y. cbn in X, Y.
    rewrite (lt_not _ _ _ (X ltac:(discriminate))), (lt_not _ _ _ (Y ltac:(discriminate))). destruct (e_lt (elem ty) (vy v) (vx v)); reflexivity.
Qed.
Lemma ren_longest ty s (v v' : Vector3 (car ty)) i : renaming s -> ren_vec s v v' -> longest ty v (s i) -> longest ty v' i.
Proof. intros Hs Hv H j Hj. rewrite !Hv. apply H. intros E. apply Hj. now apply Hs. Qed.
Lemma ren_dimension ty s (v v' : Vector3 (car ty)) i : renaming s -> ren_vec s v v' -> longest ty v (s i) ->
  v3_max_dimension (elem ty) v = axis_nat (s i) /\ v3_max_dimension (elem ty) v' = axis_nat i.
Proof. intros Hs Hv H. split; apply longest_dimension; [assumption|]. eapply ren_longest; eauto. Qed.
Lemma ren_extent ty s (a a' : Bounds3 (car ty)) d i : renaming s -> ren_box s a a' -> b3_diagonal (elem ty) a = Done d -> longest ty d (s i) ->
  b3_maximum_extent (elem ty) a = Done (axis_nat (s i)) /\ b3_maximum_extent (elem ty) a' = Done (axis_nat i).
Proof.
  intros Hs Ha Hd Hl.
  destruct (b_diagonal (elem ty) (ety_total ty) s Hs _ _ Ha) as [(x & y & Ex & Ey & Hxy)|[Ex Ey]]; rewrite Hd in Ex; [|discriminate].
  injection Ex as <-. rewrite !extent_dimension, Hd, Ey.
  cbn [obind]. destruct (ren_dimension ty s _ _ i Hs Hxy Hl) as [-> ->]. auto.
Qed.
Lemma ren_in {T} s (v v' : Vector3 T) : renaming s -> ren_vec s v v' -> forall x, In x [vx v; vy v; vz v] <-> In x [vx v'; vy v'; vz v'].
Proof.
  intros Hs Hv x. pose proof (Hv AX) as X. pose proof (Hv AY) as Y. pose proof (Hv AZ) as Z. cbn [vcoord] in X, Y, Z. rewrite X, Y, Z.
  destruct (ren_cases s Hs) as [E1|[E1|[E1|[E1|[E1|E1]]]]]; injection E1 as E1 E2 E3; rewrite E1, E2, E3; cbn; tauto.
Qed.
Lemma ren_components ty s (v v' : Vector3 (car ty)) : renaming s -> ren_vec s v v' -> (forall i, valid ty (vcoord i v)) ->
  both (same ty) (v3_min_component (elem ty) v) (v3_min_component (elem ty) v') /\
  both (same ty) (v3_max_component (elem ty) v) (v3_max_component (elem ty) v').
Proof.
  intros Hs Hv H. pose proof (ren_in s _ _ Hs Hv) as I.
  assert (V1 : Forall (valid ty) [vx v; vy v; vz v]) by (repeat constructor; [exact (H AX)|exact (H AY)|exact (H AZ)]).
  assert (V2 : Forall (valid ty) [vx v'; vy v'; vz v']).
  { apply Forall_forall. intros x Hx. rewrite Forall_forall in V1. apply V1, I, Hx. }
  split.
  - destruct (pmin_thm ty [vx v; vy v; vz v] ltac:(discriminate) V1) as (m & E & M & L). destruct (pmin_thm ty [vx v'; vy v'; vz v'] ltac:(discriminate) V2) as (m' & E' & M' & L').
    exists m, m'. split; [exact E|]. split; [exact E'|]. rewrite Forall_forall in L, L'. split; [apply L, I, M'|apply L', I, M].
  - destruct (pmax_thm ty [vx v; vy v; vz v] ltac:(discriminate) V1) as (m & E & M & L). destruct (pmax_thm ty [vx v'; vy v'; vz v'] ltac:(discriminate) V2) as (m' & E' & M' & L').
    exists m, m'. split; [exact E|]. split; [exact E'|]. rewrite Forall_forall in L, L'. split; [apply L', I, M|apply L, I, M'].
Qed.

(** *** Sums and products *)
Lemma swap_sums ty u u' v v' a a' : ren_vec swap_xy u u' -> ren_vec swap_xy v v' -> ren_box swap_xy a a' ->
  v3_dot (elem ty) u' v' = v3_dot (elem ty) u v /\ v3_len_sq (elem ty) u' = v3_len_sq (elem ty) u /\
  alike (ren_vec swap_xy) (v3_face_forward (elem ty) u v) (v3_face_forward (elem ty) u' v') /\
  b3_volume (elem ty) a' = b3_volume (elem ty) a.
Proof.
  intros Hu Hv Ha. pose proof (ety_total ty) as ET. pose proof (ety_add_comm ty) as Ca. pose proof (ty_comm ty) as Cm.
  split; [now apply dot_swap|]. split; [now apply len_swap|]. split; [now apply face_swap|].
  destruct (volume_swap _ ET Cm _ _ Ha) as [(x & y & -> & -> & ->)|[-> ->]]; reflexivity.
Qed.
Lemma cycle_cross ty u u' v v' : ren_vec cycle u u' -> ren_vec cycle v v' -> alike (ren_vec cycle) (v3_cross (elem ty) u v) (v3_cross (elem ty) u' v').
Proof. intros Hu Hv. apply cross_cycle; auto. apply ety_total. Qed.
Lemma swap_cross f u u' v v' : ren_vec swap_xy u u' -> ren_vec swap_xy v v' ->
  both (fun c c' => forall i, veq f (vcoord i c') (Bopp (vcoord (swap_xy i) c))) (v3_cross (f_elem f) u v) (v3_cross (f_elem f) u' v').
Proof.
  intros Hu Hv. apply sv in Hu, Hv. subst. do 2 eexists. split; [reflexivity|]. split; [reflexivity|].
  intros []; cbn [swap_xy vcoord vx vy vz].
  - rewrite (Bmult_comm' f (vx u) (vz v)) || idtac. apply sub_anti.
  - apply sub_anti.
  - apply sub_anti.
Qed.
Lemma agree_exactly chk z z' x y : z = z' -> exactly chk z x -> exactly chk z' y -> agree chk x y.
Proof.
  intros <-. unfold exactly, agree. destruct chk.
  - intros [->|[-> _]] [->|[-> _]] a b; congruence.
  - intros -> ->. split; [reflexivity|discriminate].
Qed.
Lemma int_sums chk s u u' v v' a a' : renaming s -> ren_vec s u u' -> ren_vec s v v' -> ren_box s a a' ->
  vec_range u -> vec_range v -> box_range a ->
  agree chk (v3_dot (i64 chk) u v) (v3_dot (i64 chk) u' v') /\ agree chk (v3_len_sq (i64 chk) u) (v3_len_sq (i64 chk) u') /\
  agree chk (b3_volume (i64 chk) a) (b3_volume (i64 chk) a') /\ agree chk (b3_surface_area (i64 chk) a) (b3_surface_area (i64 chk) a').
Proof.
  intros Hs Hu Hv [A1 A2] Ru Rv Ra.
  assert (Ru' : vec_range u') by (intros i; rewrite Hu; apply Ru).
  assert (Rv' : vec_range v') by (intros i; rewrite Hv; apply Rv).
  assert (Ra' : box_range a') by (intros i; rewrite A1, A2; apply Ra).
  assert (D : forall w w' t t', ren_vec s w w' -> ren_vec s t t' -> dotZ w t = dotZ w' t').
  { intros w w' t t' H1 H2. pose proof (H1 AX) as X1. pose proof (H1 AY) as Y1. pose proof (H1 AZ) as Z1. pose proof (H2 AX) as X2. pose proof (H2 AY) as Y2. pose proof (H2 AZ) as Z2.
    cbn [vcoord] in X1, Y1, Z1, X2, Y2, Z2. unfold dotZ. rewrite X1, Y1, Z1, X2, Y2, Z2.
    destruct (ren_cases s Hs) as [E1|[E1|[E1|[E1|[E1|E1]]]]]; injection E1 as E1 E2 E3; rewrite E1, E2, E3; cbn; ring. }
  assert (E : forall i, extZ a' i = extZ a (s i)) by (intros i; unfold extZ; now rewrite A1, A2).
  split; [|split; [|split]].
  - eapply agree_exactly; [|apply dot_exact; assumption|apply dot_exact; assumption]. now apply D.
  - eapply agree_exactly; [|apply len_sq_exact; assumption|apply len_sq_exact; assumption]. now apply D.
  - eapply agree_exactly; [|apply volume_exact; assumption|apply volume_exact; assumption].
    rewrite !E. destruct (ren_cases s Hs) as [E1|[E1|[E1|[E1|[E1|E1]]]]]; injection E1 as E1 E2 E3; rewrite E1, E2, E3; ring.
  - eapply agree_exactly; [|apply area_exact; assumption|apply area_exact; assumption].
    rewrite !E. destruct (ren_cases s Hs) as [E1|[E1|[E1|[E1|[E1|E1]]]]]; injection E1 as E1 E2 E3; rewrite E1, E2, E3; ring.
Qed.

(** *** Code on floats *)
Section Float.
  Variable f : fmt.
  Notation FT := (f_float f). Notation E := (f_elem f). Notation B := (flt f).
  Implicit Types p q : Point3 B. Implicit Types u v : Vector3 B.
  Lemma ftot : elem_total FT.
  Proof. exact (ety_total (TFloat f)). Qed.
  Lemma conv s p q : ren_pt s p q -> ren_vec s (v3_from_p3 p) (v3_from_p3 q).
  Proof. intros H i. pose proof (H i) as Hi. destruct i; cbn [coord vcoord v3_from_p3 vx vy vz] in *; rewrite Hi; now destruct (s _). Qed.
  Lemma ren_lerp s t p p' q q' : renaming s -> ren_pt s p p' -> ren_pt s q q' -> alike (ren_pt s) (p3_lerp FT t p q) (p3_lerp FT t p' q').
  Proof.
    intros Hs Hp Hq. unfold p3_lerp. eapply alike_bind; [apply alike_refl; discriminate|]. intros a ? <-.
    eapply alike_bind; [exact (p_mul FT ftot s Hs _ _ a Hp)|]. intros x x' Hx.
    eapply alike_bind; [exact (p_mul FT ftot s Hs _ _ t Hq)|]. intros y y' Hy.
    exact (p_add FT ftot s Hs _ _ _ _ Hx (conv _ _ _ Hy)).
  Qed.
  Lemma ren_floor s p p' : ren_pt s p p' -> ren_pt s (p3_floor FT p) (p3_floor FT p') /\ ren_pt s (p3_ceil FT p) (p3_ceil FT p').
  Proof.
    intros H. split; intros i; pose proof (H i) as Hi; destruct i; cbn [coord p3_floor p3_ceil px py pz] in *; rewrite Hi; now destruct (s _).
  Qed.
  Lemma ren_box_lerp s b b' t t' : renaming s -> ren_box s b b' -> ren_pt s t t' -> alike (ren_pt s) (b3_lerp FT b t) (b3_lerp FT b' t').
  Proof.
    intros Hs [H1 H2] Ht.
    pose (g := fun (b : Bounds3 B) (t : Point3 B) i => lerp FT (coord i t) (coord i (b_min b)) (coord i (b_max b))).
    change (alike (ren_pt s) (mk3 P3 (g b t AX) (g b t AY) (g b t AZ)) (mk3 P3 (g b' t' AX) (g b' t' AY) (g b' t' AZ))).
    apply (mk3_alike P3 coord); [assumption|now intros []|intros i; discriminate|]. intros i. unfold g. now rewrite Ht, H1, H2.
  Qed.
  Lemma ren_ray_at s r r' t : renaming s -> ren_ray s r r' -> alike (ren_pt s) (ray_at FT r t) (ray_at FT r' t).
  Proof.
    intros Hs (Ho & Hd & _). unfold ray_at. eapply alike_bind; [exact (v_mul FT ftot s Hs _ _ t Hd)|]. intros x x' Hx.
    exact (p_add FT ftot s Hs _ _ _ _ Ho Hx).
  Qed.
  Lemma ren_rd_scale s r r' t : renaming s -> ren_rd s r r' -> alike (ren_rd s) (rd_scale FT r t) (rd_scale FT r' t).
  Proof.
    intros Hs (Hr & Hh & Hxo & Hyo & Hxd & Hyd). pose proof Hr as (Ho & Hd & _). unfold rd_scale. cbv zeta.
    eapply alike_bind; [exact (p_sub FT ftot s Hs _ _ _ _ Hxo Ho)|]. intros a1 a1' H1.
    eapply alike_bind; [exact (v_mul FT ftot s Hs _ _ t H1)|]. intros a2 a2' H2.
    eapply alike_bind; [exact (p_add FT ftot s Hs _ _ _ _ Ho H2)|]. intros xo xo' H3.
    eapply alike_bind; [exact (p_sub FT ftot s Hs _ _ _ _ Hyo Ho)|]. intros a4 a4' H4.
    eapply alike_bind; [exact (v_mul FT ftot s Hs _ _ t H4)|]. intros a5 a5' H5.
    eapply alike_bind; [exact (p_add FT ftot s Hs _ _ _ _ Ho H5)|]. intros yo yo' H6.
    eapply alike_bind; [exact (v_sub FT ftot s Hs _ _ _ _ Hxd Hd)|]. intros a7 a7' H7.
    eapply alike_bind; [exact (v_mul FT ftot s Hs _ _ t H7)|]. intros a8 a8' H8.
    eapply alike_bind; [exact (v_add FT ftot s Hs _ _ _ _ Hd H8)|]. intros xd xd' H9.
    eapply alike_bind; [exact (v_sub FT ftot s Hs _ _ _ _ Hyd Hd)|]. intros a10 a10' H10.
    eapply alike_bind; [exact (v_mul FT ftot s Hs _ _ t H10)|]. intros a11 a11' H11.
    eapply alike_bind; [exact (v_add FT ftot s Hs _ _ _ _ Hd H11)|]. intros yd yd' H12.
    apply alike_done. exact (conj Hr (conj Hh (conj H3 (conj H6 (conj H9 H12))))).
  Qed.
  Lemma ren_rays s o o' d d' r r' t : renaming s -> ren_pt s o o' -> ren_vec s d d' ->
    ren_ray s (ray_new_infinite FT o d) (ray_new_infinite FT o' d') /\ (ren_ray s r r' -> ren_rd s (rd_new FT r) (rd_new FT r')) /\
    (ren_ray s r r' -> alike (ren_pt s) (ray_at FT r t) (ray_at FT r' t)).
  Proof.
    intros Hs Ho Hd. split; [|split].
    - exact (conj Ho (conj Hd (conj eq_refl eq_refl))).
    - intros Hr. split; [assumption|]. split; [reflexivity|].
      repeat match goal with |- _ /\ _ => split end; intros i; destruct i; cbn; now destruct (s _).
    - now apply ren_ray_at.
  Qed.
  (** The sphere. *)
  Lemma ren_sphere s b b' : renaming s -> ren_box s b b' ->
    exists c r c' r', bounding_sphere FT b = Done (c, r) /\ bounding_sphere FT b' = Done (c', r') /\ ren_pt s c c' /\
      (s = swap_xy -> r' = r).
  Proof.
    intros Hs Hb. pose proof Hb as [H1 H2].
    pose proof (p_add FT ftot s Hs _ _ _ _ H1 (conv _ _ _ H2)) as [(a & a' & Ea & Ea' & Ha)|[X _]]; [|discriminate].
    pose proof (p_div FT ftot s Hs _ _ (e_from_int FT 2) Ha) as [(c & c' & Ec & Ec' & Hc)|[X _]]; [|discriminate].
    unfold bounding_sphere. rewrite Ea, Ea'. cbn [obind]. rewrite Ec, Ec'. cbn [obind].
    pose proof (b_inside FT s Hs _ _ _ _ Hb Hc) as HI. rewrite HI.
    pose proof (p_sub FT ftot s Hs _ _ _ _ Hc H2) as [(e & e' & Ee & Ee' & He)|[X _]]; [|discriminate].
    rewrite Ee, Ee'. cbn [obind].
    destruct (b3_inside FT b' c').
    - unfold v3_len. cbn [obind].
      assert (L : forall w, exists l, v3_len_sq FT w = Done l) by (intros; eexists; reflexivity).
      destruct (L e) as [l El], (L e') as [l' El']. rewrite El, El'. cbn [obind].
      exists c, (Bsqrt mode_NE l), c', (Bsqrt mode_NE l'). repeat match goal with |- _ /\ _ => split end; try reflexivity; auto.
      intros ->. pose proof (len_swap FT ftot (ety_add_comm (TFloat f)) _ _ He) as Q. rewrite El, El' in Q. now injection Q as ->.
    - exists c, (e_from_int FT 0), c', (e_from_int FT 0). repeat match goal with |- _ /\ _ => split end; auto.
  Qed.
  (** Matrices. *)
  Notation zero := (f_of_int f 0). Notation one := (f_of_int f 1).
  Lemma zero_pos : zero = B754_zero false.
  Proof. destruct f; vm_compute; reflexivity. Qed.
  Lemma two_terms (x y : B) : f_add (f_add zero x) y = f_add (f_add zero y) x.
  Proof.
    rewrite zero_pos. destruct x as [[]|[]| |sx mx ex Hx], y as [[]|[]| |sy my ey Hy]; try reflexivity.
    apply (Bplus_comm' f).
  Qed.
  Lemma ren_add s t (a a' b b' : Matrix4 B) : ren_mat s t a a' -> ren_mat s t b b' -> alike (ren_mat s t) (m4_add E a b) (m4_add E a' b').
  Proof.
    intros Ha Hb. left. do 2 eexists. split; [reflexivity|]. split; [reflexivity|].
    assert (G : forall m n : Matrix4 B, forall k, m4_add E m n = Done k -> forall r c, mget k r c = f_add (mget m r c) (mget n r c)).
    { intros m n k Q. injection Q as <-. now intros [] []. }
    intros r c. rewrite (G a' b' _ eq_refl), (G a b _ eq_refl). now rewrite Ha, Hb.
  Qed.
  Lemma ren_mul s t o (a a' b b' : Matrix4 B) : renaming t -> t AZ = AZ -> ren_mat s t a a' -> ren_mat t o b b' ->
    alike (ren_mat s o) (m4_mul E a b) (m4_mul E a' b').
  Proof.
    intros Ht Hz Ha Hb. left. do 2 eexists. split; [reflexivity|]. split; [reflexivity|].
    assert (G : forall m n : Matrix4 B, forall k, m4_mul E m n = Done k -> forall r c, mget k r c =
      f_add (f_add (f_add (f_add zero (f_mult (mget m r I0) (mget n I0 c))) (f_mult (mget m r I1) (mget n I1 c)))
        (f_mult (mget m r I2) (mget n I2 c))) (f_mult (mget m r I3) (mget n I3 c))).
    { intros m n k Q. injection Q as <-. now intros [] []. }
    intros r c. rewrite (G a' b' _ eq_refl), (G a b _ eq_refl).
    assert (C : (t AX = AX /\ t AY = AY) \/ (t AX = AY /\ t AY = AX)).
    { destruct (ren_cases t Ht) as [E1|[E1|[E1|[E1|[E1|E1]]]]]; injection E1 as E1 E2 E3; rewrite Hz in E3; try discriminate; auto. }
    rewrite !Ha, !Hb.
    assert (T2 : on_ix t I2 = I2) by (cbn; now rewrite Hz). assert (T3 : on_ix t I3 = I3) by reflexivity. rewrite T2, T3.
    destruct C as [[C1 C2]|[C1 C2]].
    - assert (T0 : on_ix t I0 = I0) by (cbn; now rewrite C1). assert (T1 : on_ix t I1 = I1) by (cbn; now rewrite C2). now rewrite T0, T1.
    - assert (T0 : on_ix t I0 = I1) by (cbn; now rewrite C1). assert (T1 : on_ix t I1 = I0) by (cbn; now rewrite C2). now rewrite T0, T1, two_terms.
  Qed.
  Lemma ren_transpose s t (a a' : Matrix4 B) : ren_mat s t a a' -> ren_mat t s (m4_transpose a) (m4_transpose a').
  Proof.
    assert (G : forall (m : Matrix4 B) r c, mget (m4_transpose m) r c = mget m c r) by now intros m [] [].
    intros H r c. now rewrite !G.
  Qed.
  Lemma on_ix_eq s i j : renaming s -> on_ix s i = on_ix s j -> i = j.
  Proof.
    intros Hs. pose proof (Hs AX AY) as A1. pose proof (Hs AX AZ) as A2. pose proof (Hs AY AZ) as A3.
    destruct i, j; cbn; auto; destruct (s AX), (s AY), (s AZ); try discriminate; intros _;
      exfalso; first [discriminate (A1 eq_refl)|discriminate (A2 eq_refl)|discriminate (A3 eq_refl)].
  Qed.
  (** Diagonal entries, the last column, and zeros elsewhere. *)
  Lemma ren_frame s (m m' : Matrix4 B) (d d' : ix -> B) (e e' : ix -> B) : renaming s ->
    (forall i, d' i = d (on_ix s i)) -> (forall i, e' i = e (on_ix s i)) ->
    (forall r c, mget m r c = if ix_eqb r c then d r else if ix_eqb c I3 then e r else zero) ->
    (forall r c, mget m' r c = if ix_eqb r c then d' r else if ix_eqb c I3 then e' r else zero) -> ren_mat s s m m'.
  Proof.
    intros Hs Hd He Hm Hm' r c. rewrite Hm, Hm', Hd, He.
    assert (Q : forall i j, ix_eqb (on_ix s i) (on_ix s j) = ix_eqb i j).
    { intros i j. destruct (ix_eqb i j) eqn:X.
      - replace j with i by (destruct i, j; try discriminate; reflexivity). now destruct (on_ix s i).
      - destruct (ix_eqb (on_ix s i) (on_ix s j)) eqn:Y; [|reflexivity].
        assert (Z : on_ix s i = on_ix s j) by (destruct (on_ix s i), (on_ix s j); try discriminate; reflexivity).
        apply on_ix_eq in Z; [|assumption]. subst. destruct j; discriminate. }
    now rewrite <- (Q r c), <- (Q c I3).
  Qed.
  Definition vix (v : Vector3 B) (w : B) (i : ix) : B := match i with I0 => vx v | I1 => vy v | I2 => vz v | I3 => w end.
  Lemma vix_ren s v v' w i : ren_vec s v v' -> vix v' w i = vix v w (on_ix s i).
  Proof.
    intros H. destruct i; [pose proof (H AX) as X|pose proof (H AY) as X|pose proof (H AZ) as X|reflexivity];
      cbn [vcoord] in X; cbn [vix on_ix]; rewrite X; now destruct (s _).
  Qed.
  Lemma ren_translate s v v' : renaming s -> ren_vec s v v' -> alike (ren_trans s s) (t_translate FT v) (t_translate FT v').
  Proof.
    intros Hs Hv. left. do 2 eexists. split; [reflexivity|]. split; [reflexivity|]. split; cbn [t_m t_inv].
    - apply (ren_frame s _ _ (fun _ => one) (fun _ => one) (vix v one) (vix v' one)); auto; [intros i; now apply vix_ren|now intros [] []|now intros [] []].
    - apply (ren_frame s _ _ (fun _ => one) (fun _ => one) (fun i => Bopp (vix v one i)) (fun i => Bopp (vix v' one i))); auto;
        [intros i; f_equal; now apply vix_ren|now intros [] []|now intros [] []].
  Qed.
  Lemma ren_scale s v v' : renaming s -> ren_vec s v v' ->
    both (fun x x' => ren_mat s s (t_m x) (t_m x')) (t_scale FT (vx v) (vy v) (vz v)) (t_scale FT (vx v') (vy v') (vz v')).
  Proof.
    intros Hs Hv. do 2 eexists. split; [reflexivity|]. split; [reflexivity|]. cbn [t_m].
    apply (ren_frame s _ _ (vix v one) (vix v' one) (fun _ => zero) (fun _ => zero)); auto; [intros i; now apply vix_ren|now intros [] []|now intros [] []].
  Qed.
  Lemma ren_transform s (m m' : Transform B) v v' : renaming s -> ren_mat s swap_xy (t_m m) (t_m m') -> ren_vec swap_xy v v' ->
    alike (ren_vec s) (v3_transform FT (fun x => x) v m) (v3_transform FT (fun x => x) v' m').
  Proof.
    intros Hs Hm Hv. apply sv in Hv. subst v'.
    pose (ai := fun i => match i with AX => I0 | AY => I1 | AZ => I2 end).
    pose (g := fun (v : Vector3 B) (m : Transform B) i => Done (f_add (f_add (f_mult (mget (t_m m) (ai i) I0) (vx v)) (f_mult (mget (t_m m) (ai i) I1) (vy v))) (f_mult (mget (t_m m) (ai i) I2) (vz v)))).
    set (v' := V3 (vy v) (vx v) (vz v)).
    change (alike (ren_vec s) (mk3 V3 (g v m AX) (g v m AY) (g v m AZ)) (mk3 V3 (g v' m' AX) (g v' m' AY) (g v' m' AZ))).
    apply (mk3_alike V3 vcoord); [assumption|now intros []|intros i; discriminate|]. intros i. unfold g. rewrite !Hm.
    replace (on_ix s (ai i)) with (ai (s i)) by (destruct i; cbn; now destruct (s _)). cbn. do 2 f_equal. apply (Bplus_comm' f).
  Qed.
  Lemma ren_has_scale (m m' : Transform B) : ren_mat swap_xy swap_xy (t_m m) (t_m m') -> t_has_scale FT m' = t_has_scale FT m.
  Proof.
    intros Hm. unfold t_has_scale.
    assert (L : forall v v', ren_vec swap_xy v v' -> exists w w', v3_transform FT (fun x => x) v m = Done w /\ v3_transform FT (fun x => x) v' m' = Done w' /\ v3_len_sq FT w' = v3_len_sq FT w /\ exists l, v3_len_sq FT w = Done l).
    { intros v v' Hv. destruct (ren_transform swap_xy m m' v v' swap_renaming Hm Hv) as [(w & w' & E1 & E2 & Hw)|[X _]]; [|discriminate].
      exists w, w'. split; [assumption|]. split; [assumption|]. split; [exact (len_swap FT ftot (ety_add_comm (TFloat f)) _ _ Hw)|]. eexists; reflexivity. }
    assert (X : forall x y z : B, ren_vec swap_xy (V3 x y z) (V3 y x z)) by now intros x y z [].
    destruct (L _ _ (X (e_from_int FT 1) (e_from_int FT 0) (e_from_int FT 0))) as (a & a' & -> & -> & La & la & Ea).
    destruct (L _ _ (X (e_from_int FT 0) (e_from_int FT 1) (e_from_int FT 0))) as (b & b' & -> & -> & Lb & lb & Eb).
    destruct (L _ _ (X (e_from_int FT 0) (e_from_int FT 0) (e_from_int FT 1))) as (c & c' & -> & -> & Lc & lc & Ec).
    cbn [obind]. rewrite La, Lb, Lc, Ea, Eb, Ec. cbn [obind]. do 2 f_equal. apply orb_comm.
  Qed.
End Float.

(** *** What depends on the names *)
Definition ax_u : Vector3 (flt F32) := V3 (f32 (2 ^ 30)) (f32 (- 2 ^ 30)) (f32 1).
Definition ax_u' : Vector3 (flt F32) := V3 (f32 (- 2 ^ 30)) (f32 1) (f32 (2 ^ 30)).
Definition ax_one : Vector3 (flt F32) := V3 (f32 1) (f32 1) (f32 1).
Lemma dot_cycle_refuted : exists u u' v v' : Vector3 (flt F32), ren_vec cycle u u' /\ ren_vec cycle v v' /\ vfinite u /\ vfinite v /\
  exists x y, v3_dot (f_elem F32) u v = Done x /\ v3_dot (f_elem F32) u' v' = Done y /\ Beqb x (f32 1) = true /\ Beqb y (f32 0) = true.
Proof.
  exists ax_u, ax_u', ax_one, ax_one. split; [now intros []|]. split; [now intros []|].
  split; [intros []; vm_compute; reflexivity|]. split; [intros []; vm_compute; reflexivity|].
  do 2 eexists. split; [reflexivity|]. split; [reflexivity|]. split; vm_compute; reflexivity.
Qed.
Definition ax_box (x y z : Z) : Bounds3 (flt F32) := bx (f32 0) (f32 0) (f32 0) (f32 x) (f32 y) (f32 z).
Lemma volume_cycle_refuted : exists a a' : Bounds3 (flt F32), ren_box cycle a a' /\ bfinite a /\
  exists x y, b3_volume (f_elem F32) a = Done x /\ b3_volume (f_elem F32) a' = Done y /\ Beqb x y = false.
Proof.
  exists (ax_box 3905 4795 2839), (ax_box 4795 2839 3905). split; [split; now intros []|].
  split; [split; intros []; vm_compute; reflexivity|]. do 2 eexists. split; [reflexivity|]. split; [reflexivity|]. vm_compute. reflexivity.
Qed.
Lemma area_swap_refuted : exists a a' : Bounds3 (flt F32), ren_box swap_xy a a' /\ bfinite a /\
  exists x y, b3_surface_area (f_elem F32) a = Done x /\ b3_surface_area (f_elem F32) a' = Done y /\ Beqb x y = false.
Proof.
  exists (ax_box 2042 4061 3665), (ax_box 4061 2042 3665). split; [split; now intros []|].
  split; [split; intros []; vm_compute; reflexivity|]. do 2 eexists. split; [reflexivity|]. split; [reflexivity|]. vm_compute. reflexivity.
Qed.
(** Of two longest axes, Y is preferred to X by [max_dimension]. *)
Lemma tie_refuted : exists v v' : Vector3 Z, ren_vec swap_xy v v' /\
  v3_max_dimension (i64 true) v = axis_nat AY /\ v3_max_dimension (i64 true) v' = axis_nat AY /\ swap_xy AY <> AY.
Proof. exists (V3 1 1 0)%Z, (V3 1 1 0)%Z. split; [now intros []|]. repeat split. discriminate. Qed.
Lemma overflow_refuted : exists u u' v v' : Vector3 Z, ren_vec cycle u u' /\ ren_vec cycle v v' /\ vec_range u /\ vec_range v /\
  v3_dot (i64 true) u v = Panic /\ v3_dot (i64 true) u' v' = Done (2 ^ 62)%Z.
Proof.
  exists (V3 (2 ^ 62) (2 ^ 62) (- 2 ^ 62))%Z, (V3 (2 ^ 62) (- 2 ^ 62) (2 ^ 62))%Z, (V3 1 1 1)%Z, (V3 1 1 1)%Z.
  repeat split; now intros [].
Qed.
Lemma scale_refuted : exists (v v' : Vector3 (flt F32)) x x', ren_vec cycle v v' /\
  t_scale (f_float F32) (vx v) (vy v) (vz v) = Done x /\ t_scale (f_float F32) (vx v') (vy v') (vz v') = Done x' /\
  Beqb (mget (t_inv x) (on_ix cycle I3) (on_ix cycle I2)) (f32 0) = true /\ Beqb (mget (t_inv x') I3 I2) (f32 2) = true.
Proof.
  exists (V3 (f32 2) (f32 4) (f32 8)), (V3 (f32 4) (f32 8) (f32 2)). do 2 eexists. split; [now intros []|].
  split; [reflexivity|]. split; [reflexivity|]. split; vm_compute; reflexivity.
Qed.
Lemma frame_refuted : exists (v v' a b a' b' : Vector3 (flt F32)), ren_vec swap_xy v v' /\
  coordinate_system (f_float F32) v = Done (a, b) /\ coordinate_system (f_float F32) v' = Done (a', b') /\
  Beqb (vcoord AZ a) (f32 1) = true /\ Beqb (vcoord AZ a') (f32 (-1)) = true.
Proof.
  exists (V3 (f32 1) (f32 0) (f32 0)), (V3 (f32 0) (f32 1) (f32 0)).
  assert (X : forall v, exists a b, coordinate_system (f_float F32) v = Done (a, b)).
  { intros v. unfold coordinate_system. cbn [e_abs e_neg e_lt e_mul e_add f_float fl_elem f_elem fl_sqrt obind lift2 v3_div mk3 e_div vx vy vz e_from_int].
    destruct (Bltb _ _); do 2 eexists; reflexivity. }
  assert (Y : forall v g, omap (fun ab => g (vcoord AZ (fst ab))) (coordinate_system (f_float F32) v) = Done true -> exists a b, coordinate_system (f_float F32) v = Done (a, b) /\ g (vcoord AZ a) = true).
  { intros v g Hg. destruct (X v) as (a & b & Ev). rewrite Ev in Hg. injection Hg as Hg. eauto. }
  destruct (Y (V3 (f32 1) (f32 0) (f32 0)) (fun x => Beqb x (f32 1)) ltac:(vm_compute; reflexivity)) as (a & b & E1 & E2).
  destruct (Y (V3 (f32 0) (f32 1) (f32 0)) (fun x => Beqb x (f32 (-1))) ltac:(vm_compute; reflexivity)) as (a' & b' & E3 & E4).
  exists a, b, a', b'. split; [now intros []|]. auto.
Qed.
(** *** The hypotheses are met *)
Lemma renamings : renaming swap_xy /\ renaming cycle /\ renaming (fun i => swap_xy (cycle i)) /\ ~ renaming (fun _ => AX).
Proof.
  split; [exact swap_renaming|]. split; [exact cycle_renaming|]. split.
  - intros i j H. apply cycle_renaming, swap_renaming, H.
  - intros H. discriminate (H AX AY eq_refl).
Qed.
Lemma longest_example : longest (TInt true) (V3 1 5 2)%Z (cycle AX) /\ ren_vec cycle (V3 1 5 2)%Z (V3 5 2 1)%Z /\
  v3_max_dimension (i64 true) (V3 1 5 2)%Z = 1 /\ v3_max_dimension (i64 true) (V3 5 2 1)%Z = 0 /\
  vec_range (V3 1 5 2)%Z /\ ren_box cycle (bx 0 0 0 1 5 2)%Z (bx 0 0 0 5 2 1)%Z /\ box_range (bx 0 0 0 1 5 2)%Z /\
  b3_diagonal (i64 true) (bx 0 0 0 1 5 2)%Z = Done (V3 1 5 2)%Z.
Proof.
  split; [intros []; cbn; congruence|]. repeat match goal with |- _ /\ _ => split end; try reflexivity; try (now intros []); try (intros []; split; reflexivity). split; now intros [].
Qed.
Definition ax_mat : Matrix4 (flt F32) :=
  W4 (W4 (f32 1) (f32 2) (f32 3) (f32 4)) (W4 (f32 5) (f32 6) (f32 7) (f32 8)) (W4 (f32 9) (f32 10) (f32 11) (f32 12)) (W4 (f32 0) (f32 0) (f32 0) (f32 1)).
Definition ax_mat' : Matrix4 (flt F32) :=
  W4 (W4 (f32 6) (f32 5) (f32 7) (f32 8)) (W4 (f32 10) (f32 9) (f32 11) (f32 12)) (W4 (f32 2) (f32 1) (f32 3) (f32 4)) (W4 (f32 0) (f32 0) (f32 0) (f32 1)).
Definition ax_mat'' : Matrix4 (flt F32) :=
  W4 (W4 (f32 6) (f32 5) (f32 7) (f32 8)) (W4 (f32 2) (f32 1) (f32 3) (f32 4)) (W4 (f32 10) (f32 9) (f32 11) (f32 12)) (W4 (f32 0) (f32 0) (f32 0) (f32 1)).
Lemma mat_example : ren_mat cycle swap_xy ax_mat ax_mat' /\ swap_xy AZ = AZ /\
  ren_trans cycle swap_xy (mkT ax_mat (m4_transpose ax_mat)) (mkT ax_mat' (m4_transpose ax_mat')) /\ ren_mat swap_xy swap_xy ax_mat ax_mat''.
Proof. split; [now intros [] []|]. split; [reflexivity|]. split; [split; now intros [] []|now intros [] []]. Qed.
Lemma ray_example : ren_ray cycle (ray_new_infinite (f_float F32) (P3 (f32 1) (f32 2) (f32 3)) ax_u) (ray_new_infinite (f_float F32) (P3 (f32 2) (f32 3) (f32 1)) ax_u') /\
  ren_rd cycle (rd_new (f_float F32) (ray_new_infinite (f_float F32) (P3 (f32 1) (f32 2) (f32 3)) ax_u)) (rd_new (f_float F32) (ray_new_infinite (f_float F32) (P3 (f32 2) (f32 3) (f32 1)) ax_u')).
Proof.
  assert (H : ren_ray cycle (ray_new_infinite (f_float F32) (P3 (f32 1) (f32 2) (f32 3)) ax_u) (ray_new_infinite (f_float F32) (P3 (f32 2) (f32 3) (f32 1)) ax_u')).
  { split; [now intros []|]. split; [now intros []|]. split; reflexivity. }
  split; [exact H|]. apply (ren_rays F32 cycle (P3 (f32 1) (f32 2) (f32 3)) (P3 (f32 2) (f32 3) (f32 1)) ax_u ax_u' _ _ (f32 1) cycle_renaming); [now intros []|now intros []|exact H].
Qed.
