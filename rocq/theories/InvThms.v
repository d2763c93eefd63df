(** Matrix4::inverse in exact arithmetic. *)
From Coq Require Import ZArith Lia Reals QArith Qcanon Ring_theory Ring Field_theory Field.
From Verif Require Import Base Elem GeoModel MatModel MatSpec MatThms.
Local Open Scope mon_scope.

Lemma ix_eqb_eq i j : ix_eqb i j = true <-> i = j.
Proof. destruct i, j; cbn; split; congruence. Qed.
Lemma ix_eqb_refl i : ix_eqb i i = true. Proof. destruct i; reflexivity. Qed.
Lemma ix_eqb_neq i j : ix_eqb i j = false <-> i <> j.
Proof. destruct i, j; cbn; split; congruence. Qed.

(** Exchanging two indices. *)
Definition sw (a b i : ix) : ix := if ix_eqb i a then b else if ix_eqb i b then a else i.
Lemma sw_invol a b i : sw a b (sw a b i) = i.
Proof. destruct a, b, i; reflexivity. Qed.

(** An element type with exact arithmetic: an ordered field as far as the code looks. *)
Record exact_field {F} (E : Elem F) := EF {
  x_zero : F; x_one : F; x_add : F -> F -> F; x_mul : F -> F -> F; x_sub : F -> F -> F; x_opp : F -> F;
  x_div : F -> F -> F; x_inv : F -> F; x_abs : F -> F;
  x_field : field_theory x_zero x_one x_add x_mul x_sub x_opp x_div x_inv eq;
  x_E0 : e_from_int E 0 = x_zero;
  x_E1 : e_from_int E 1 = x_one;
  x_Eadd : forall a b, e_add E a b = Done (x_add a b);
  x_Esub : forall a b, e_sub E a b = Done (x_sub a b);
  x_Emul : forall a b, e_mul E a b = Done (x_mul a b);
  x_Ediv : forall a b, b <> x_zero -> e_div E a b = Done (x_div a b);
  x_Eabs : forall a, e_abs E a = Done (x_abs a);
  x_Eeq : forall a b, e_eq E a b = true <-> a = b;
  x_le_trans : forall a b c, e_le E a b = true -> e_le E b c = true -> e_le E a c = true;
  x_le_total : forall a b, e_le E a b = true \/ e_le E b a = true;
  x_abs_pos : forall a, e_le E x_zero (x_abs a) = true;
  x_abs_0 : forall a, e_le E (x_abs a) x_zero = true -> a = x_zero;
  x_abs_z : x_abs x_zero = x_zero
}.

Section Inverse.
  Context {F : Type} (E : Elem F) (X : exact_field E).
  Let zero := x_zero E X. Let one := x_one E X. Let add := x_add E X. Let mul := x_mul E X. Let sub := x_sub E X.
  Let opp := x_opp E X. Let div := x_div E X. Let inv := x_inv E X. Let abs := x_abs E X.
  Let FT : field_theory zero one add mul sub opp div inv eq := x_field E X.
  Let RT : ring_theory zero one add mul sub opp eq := F_R FT.
  Add Field F_field : FT.
  Notation sum := (sum4 add).
  Notation apply := (apply_of add mul).

  (** *** Choosing the pivot *)
  Definition binary (ipiv : vec4 N) := forall c, (vget ipiv c = 0 \/ vget ipiv c = 1)%N.
  Definition cand (ipiv : vec4 N) (j k : ix) := (vget ipiv j = 0 /\ vget ipiv k = 0)%N.
  Definition chosen (W : Matrix4 F) ipiv (V : ix -> ix -> Prop) (s : F * ix * ix) : Prop :=
    let '(big, p, q) := s in
    (s = (zero, I0, I0) /\ forall j k, V j k -> ~ cand ipiv j k) \/
    (big = abs (mget W p q) /\ cand ipiv p q /\ forall j k, V j k -> cand ipiv j k -> e_le E (abs (mget W j k)) big = true).
  Lemma le_refl a : e_le E a a = true. Proof. destruct (x_le_total E X a a); auto. Qed.
  Definition inner (fp : forall A, out A) (W : Matrix4 F) (ipiv : vec4 N) (j k : ix) (s : F * ix * ix) : out (F * ix * ix) :=
    let '(big, irow, icol) := s in
    if (vget ipiv k =? 0)%N then a <~ e_abs E (mget W j k) ;; if e_le E big a then !(a, j, k) else !s
    else if (1 <? vget ipiv k)%N then fp _ else !s.
  Lemma inner_step W ipiv j k V s : binary ipiv -> (vget ipiv j = 0)%N -> chosen W ipiv V s ->
    exists s', (forall fp, inner fp W ipiv j k s = Done s') /\ chosen W ipiv (fun j' k' => V j' k' \/ (j' = j /\ k' = k)) s'.
  Proof.
    intros B Hj H. destruct s as [[big p] q]. unfold inner. destruct (B k) as [Hk|Hk]; rewrite Hk; cbn [N.eqb N.ltb].
    - rewrite (x_Eabs E X). cbn [obind]. fold abs. destruct (e_le E big (abs (mget W j k))) eqn:Q.
      + exists (abs (mget W j k), j, k). split; auto. right. split; auto. split; [split; auto|].
        intros j' k' [HV|[-> ->]] C; [|apply le_refl]. destruct H as [[_ H]|(-> & _ & H)]; [now apply H in HV|].
        eapply (x_le_trans E X); [apply H; auto|auto].
      + exists (big, p, q). split; auto. destruct H as [[[= -> -> ->] H]|(-> & C & H)].
        { exfalso. unfold zero, abs in Q. rewrite (x_abs_pos E X) in Q. discriminate. }
        right. split; auto. split; auto. intros j' k' [HV|[-> ->]] C'; [auto|].
        destruct (x_le_total E X (abs (mget W p q)) (abs (mget W j k))); auto; congruence.
    - exists (big, p, q). split; auto. destruct H as [[Hs H]|(-> & C & H)]; [left|right]; repeat split; try apply C; auto.
      + intros j' k' [HV|[-> ->]]; [now apply H|]. intros [_ C']. congruence.
      + intros j' k' [HV|[-> ->]]; [now apply H|]. intros [_ C']. congruence.
  Qed.
  Lemma chosen_ext W ipiv (V V' : ix -> ix -> Prop) s : (forall j k, V' j k -> cand ipiv j k -> V j k) -> chosen W ipiv V s -> chosen W ipiv V' s.
  Proof.
    intros HV. destruct s as [[big p] q]. intros [[Hs H]|(Hb & C & H)]; [left|right].
    - split; auto. intros j k K C. apply (H j k); auto.
    - split; auto.
  Qed.
  Lemma row_step W ipiv j V s : binary ipiv -> chosen W ipiv V s ->
    exists s', (forall fp, (if negb (vget ipiv j =? 1)%N then for4 s (fun k s => inner fp W ipiv j k s) else !s) = Done s') /\
      chosen W ipiv (fun j' k' => V j' k' \/ j' = j) s'.
  Proof.
    intros B H. destruct (B j) as [Hj|Hj]; rewrite Hj; cbn [N.eqb Pos.eqb negb].
    - destruct (inner_step W ipiv j I0 V s B Hj H) as (s0 & E0 & H0). destruct (inner_step W ipiv j I1 _ s0 B Hj H0) as (s1 & E1 & H1).
      destruct (inner_step W ipiv j I2 _ s1 B Hj H1) as (s2 & E2 & H2). destruct (inner_step W ipiv j I3 _ s2 B Hj H2) as (s3 & E3 & H3).
      exists s3. split.
      + intros fp. unfold for4. rewrite E0. cbn [obind]. rewrite E1. cbn [obind]. rewrite E2. cbn [obind]. apply E3.
      + eapply chosen_ext; [|exact H3]. intros j' k' [HV| ->] _; [tauto|]. destruct k'; tauto.
    - exists s. split; auto. eapply chosen_ext; [|exact H]. intros j' k' [HV| ->] [C _]; [auto|congruence].
  Qed.
  Lemma choose_thm W ipiv : binary ipiv -> (exists c, vget ipiv c = 0%N) ->
    exists p q, (forall fp, choose_pivot E fp W ipiv = Done (abs (mget W p q), p, q)) /\
      vget ipiv p = 0%N /\ vget ipiv q = 0%N /\
      forall j k, vget ipiv j = 0%N -> vget ipiv k = 0%N -> e_le E (abs (mget W j k)) (abs (mget W p q)) = true.
  Proof.
    intros B [c Hc]. assert (H : chosen W ipiv (fun _ _ => False) (zero, I0, I0)) by (left; tauto).
    destruct (row_step W ipiv I0 _ _ B H) as (s0 & E0 & H0). destruct (row_step W ipiv I1 _ _ B H0) as (s1 & E1 & H1).
    destruct (row_step W ipiv I2 _ _ B H1) as (s2 & E2 & H2). destruct (row_step W ipiv I3 _ _ B H2) as (s3 & E3 & H3).
    apply (chosen_ext _ _ _ (fun _ _ => True)) in H3; [|intros [] k _ _; tauto]. destruct s3 as [[big p] q].
    destruct H3 as [[_ H3]|(-> & [Hp Hq] & H3)]; [exfalso; apply (H3 c c); [auto|split; auto]|].
    exists p, q. split; [|repeat split; auto; intros; apply H3; auto; split; auto].
    intros fp. unfold choose_pivot. unfold for4 at 1. rewrite (x_E0 E X). fold zero.
    specialize (E0 fp). specialize (E1 fp). specialize (E2 fp). specialize (E3 fp). unfold inner in *.
    rewrite E0. cbn [obind]. rewrite E1. cbn [obind]. rewrite E2. cbn [obind]. exact E3.
  Qed.

  (** *** The three updates *)
  Lemma swap_rows_thm (W : Matrix4 F) r c : swap_rows W r c = Done (mkm (fun i k => mget W (sw r c i) k)).
  Proof. destruct W as [[] [] [] []], r, c; reflexivity. Qed.
  Lemma swap_cols_thm (W : Matrix4 F) r c :
    (if negb (ix_eqb r c) then for4 W (fun k m => !(mat4swap m k r k c)) else !W) = Done (mkm (fun i k => mget W i (sw r c k))).
  Proof. destruct W as [[] [] [] []], r, c; reflexivity. Qed.
  Lemma scale_row_thm W p : mget W p p <> zero -> scale_row E W p =
    Done (mkm (fun i k => if ix_eqb i p then mul (if ix_eqb k p then one else mget W i k) (div one (mget W p p)) else mget W i k)).
  Proof.
    intros H. unfold scale_row. rewrite (x_Ediv E X) by exact H. cbn [obind]. rewrite (x_E1 E X). fold one div.
    generalize (div one (mget W p p)). intros d. unfold for4. repeat (rewrite ?(x_Emul E X); cbn [obind]). fold mul.
    destruct W as [[] [] [] []], p; reflexivity.
  Qed.
  Lemma clear_column_thm W p : clear_column E W p =
    Done (mkm (fun j k => if ix_eqb j p then mget W j k
                          else sub (if ix_eqb k p then zero else mget W j k) (mul (mget W p k) (mget W j p)))).
  Proof.
    unfold clear_column. rewrite (x_E0 E X). fold zero. unfold for4.
    destruct W as [[] [] [] []], p; cbn [ix_eqb negb obind mget mset vget vset MatModel.w0 MatModel.w1 MatModel.w2 MatModel.w3];
      do 12 (rewrite (x_Emul E X); cbn [obind]; rewrite (x_Esub E X);
             cbn [obind mget mset vget vset MatModel.w0 MatModel.w1 MatModel.w2 MatModel.w3]); reflexivity.
  Qed.

  (** *** The linear system represented by the working matrix *)
  Variable A : Matrix4 F.
  Definition tt_ (ipiv : vec4 N) (x y : ix -> F) (c : ix) : F := if (vget ipiv c =? 0)%N then x c else opp (y c).
  Definition ss_ (ipiv : vec4 N) (x y : ix -> F) (r : ix) : F := if (vget ipiv r =? 0)%N then opp (y r) else x r.
  Definition eqn (W : Matrix4 F) ipiv (x y : ix -> F) (r : ix) : F := add (apply W (tt_ ipiv x y) r) (ss_ ipiv x y r).
  Definition rep (W : Matrix4 F) ipiv (pi : ix -> ix) : Prop :=
    forall x y, (forall r, y r = apply A x r) <-> (forall r, eqn W ipiv x (fun c => y (pi c)) r = zero).
  Lemma rep_init : rep A (vconst 0%N) (fun c => c).
  Proof.
    intros x y. unfold eqn, ss_, tt_. split; intros H r; specialize (H r).
    - rewrite H. unfold apply_of, sum4. destruct r; cbn [vget vconst w0 w1 w2 w3 N.eqb]; ring.
    - revert H. unfold apply_of, sum4. replace (vget (vconst 0%N) r) with 0%N by (destruct r; reflexivity). cbn [vget vconst w0 w1 w2 w3 N.eqb].
      intros H. match type of H with add ?a _ = _ => assert (K : y r = sub a (add a (opp (y r)))) by ring end. rewrite H in K. rewrite K. ring.
  Qed.
  Lemma rep_swap W ipiv pi r c : vget ipiv r = 0%N -> vget ipiv c = 0%N -> rep W ipiv pi ->
    rep (mkm (fun i k => mget W (sw r c i) k)) ipiv (fun i => pi (sw r c i)).
  Proof.
    intros Hr Hc H x y. rewrite (H x y).
    assert (S : forall i, vget ipiv (sw r c i) = vget ipiv i).
    { intros i. unfold sw. destruct (ix_eqb i r) eqn:Q; [apply ix_eqb_eq in Q; subst; congruence|].
      destruct (ix_eqb i c) eqn:Q2; [apply ix_eqb_eq in Q2; subst; congruence|auto]. }
    assert (N : forall i, vget ipiv i <> 0%N -> sw r c i = i).
    { intros i Hi. unfold sw. destruct (ix_eqb i r) eqn:Q; [apply ix_eqb_eq in Q; subst; congruence|].
      destruct (ix_eqb i c) eqn:Q2; [apply ix_eqb_eq in Q2; subst; congruence|auto]. }
    assert (K : forall i, eqn (mkm (fun i k => mget W (sw r c i) k)) ipiv x (fun c0 => y (pi (sw r c c0))) i =
                          eqn W ipiv x (fun c0 => y (pi c0)) (sw r c i)).
    { intros i. unfold eqn, apply_of, sum4. rewrite !mget_mkm.
      assert (Tt : forall k, tt_ ipiv x (fun c0 => y (pi (sw r c c0))) k = tt_ ipiv x (fun c0 => y (pi c0)) k).
      { intros k. unfold tt_. destruct (vget ipiv k =? 0)%N eqn:Q; auto. rewrite N; auto. apply N.eqb_neq. auto. }
      rewrite !Tt. f_equal. unfold ss_. rewrite S. destruct (vget ipiv i =? 0)%N eqn:Q; auto.
      rewrite N; auto. apply N.eqb_neq. auto. }
    split; intros Z i.
    - rewrite K. apply Z.
    - rewrite <- (sw_invol r c i), <- K. apply Z.
  Qed.
  Definition pivoted (W : Matrix4 F) (p : ix) : Matrix4 F :=
    let W1 := mkm (fun i k => if ix_eqb i p then mul (if ix_eqb k p then one else mget W i k) (div one (mget W p p)) else mget W i k) in
    mkm (fun j k => if ix_eqb j p then mget W1 j k else sub (if ix_eqb k p then zero else mget W1 j k) (mul (mget W1 p k) (mget W1 j p))).
  Lemma eqn_pivot W ipiv p x y : vget ipiv p = 0%N -> mget W p p <> zero ->
    eqn (pivoted W p) (vset ipiv p (vget ipiv p + 1)%N) x y p = mul (div one (mget W p p)) (eqn W ipiv x y p) /\
    forall j, j <> p -> eqn (pivoted W p) (vset ipiv p (vget ipiv p + 1)%N) x y j =
      sub (eqn W ipiv x y j) (mul (mget W j p) (mul (div one (mget W p p)) (eqn W ipiv x y p))).
  Proof.
    intros Hp Hw.
    assert (Tp : tt_ (vset ipiv p (vget ipiv p + 1)%N) x y p = ss_ ipiv x y p).
    { unfold tt_, ss_. rewrite Hp. destruct p; reflexivity. }
    assert (Sp : ss_ (vset ipiv p (vget ipiv p + 1)%N) x y p = tt_ ipiv x y p).
    { unfold tt_, ss_. rewrite Hp. destruct p; reflexivity. }
    assert (Tj : forall j, j <> p -> tt_ (vset ipiv p (vget ipiv p + 1)%N) x y j = tt_ ipiv x y j).
    { intros j Hj. unfold tt_. destruct p, j; try reflexivity; congruence. }
    assert (Sj : forall j, j <> p -> ss_ (vset ipiv p (vget ipiv p + 1)%N) x y j = ss_ ipiv x y j).
    { intros j Hj. unfold ss_. destruct p, j; try reflexivity; congruence. }
    split.
    - unfold eqn. rewrite Sp. unfold apply_of, sum4, pivoted. rewrite !mget_mkm, ix_eqb_refl.
      revert Hw Tp Tj. generalize (tt_ (vset ipiv p (vget ipiv p + 1)%N) x y), (tt_ ipiv x y), (ss_ ipiv x y). intros t' t s Hw Tp Tj.
      destruct p; cbn [ix_eqb] in *; rewrite ?Tp, ?(Tj I0), ?(Tj I1), ?(Tj I2), ?(Tj I3) by discriminate; field; exact Hw.
    - intros j Hj. unfold eqn. rewrite Sj by auto. unfold apply_of, sum4, pivoted. rewrite !mget_mkm, !ix_eqb_refl.
      revert Hw Tp Tj. generalize (tt_ (vset ipiv p (vget ipiv p + 1)%N) x y), (tt_ ipiv x y), (ss_ ipiv x y). intros t' t s Hw Tp Tj.
      destruct p, j; try congruence; cbn [ix_eqb] in *; rewrite ?Tp, ?(Tj I0), ?(Tj I1), ?(Tj I2), ?(Tj I3) by discriminate; field; exact Hw.
  Qed.
  Lemma mul_integral a b : mul a b = zero -> a <> zero -> b = zero.
  Proof. intros H Ha. transitivity (mul (inv a) (mul a b)); [field; auto|]. rewrite H. ring. Qed.
  Lemma one_neq_zero : one <> zero. Proof. apply (F_1_neq_0 FT). Qed.
  Lemma div_neq a : a <> zero -> div one a <> zero.
  Proof. intros H K. apply one_neq_zero. transitivity (mul a (div one a)); [field; auto|]. rewrite K. ring. Qed.
  Lemma rep_pivot W ipiv pi p : vget ipiv p = 0%N -> mget W p p <> zero -> rep W ipiv pi ->
    rep (pivoted W p) (vset ipiv p (vget ipiv p + 1)%N) pi.
  Proof.
    intros Hp Hw H x y. rewrite (H x y). destruct (eqn_pivot W ipiv p x (fun c => y (pi c)) Hp Hw) as [Kp Kj].
    split; intros Z j.
    - destruct (ix_eqb j p) eqn:Q; [apply ix_eqb_eq in Q; subst|apply ix_eqb_neq in Q].
      + rewrite Kp, Z. ring.
      + rewrite (Kj j Q), !Z. ring.
    - assert (Zp : eqn W ipiv x (fun c => y (pi c)) p = zero).
      { apply (mul_integral (div one (mget W p p))); [rewrite <- Kp; apply Z|apply div_neq, Hw]. }
      destruct (ix_eqb j p) eqn:Q; [apply ix_eqb_eq in Q; subst; auto|apply ix_eqb_neq in Q].
      pose proof (Kj j Q) as K. rewrite Z, Zp in K. 
      transitivity (sub (eqn W ipiv x (fun c => y (pi c)) j) (mul (mget W j p) (mul (div one (mget W p p)) zero))); [ring|auto].
  Qed.

  (** *** One round, four rounds *)
  Definition kernel_nonzero := exists x, (exists r, x r <> zero) /\ forall r, apply A x r = zero.
  Lemma no_pivot W ipiv pi p : binary ipiv -> vget ipiv p = 0%N -> rep W ipiv pi ->
    (forall j k, vget ipiv j = 0%N -> vget ipiv k = 0%N -> mget W j k = zero) -> kernel_nonzero.
  Proof.
    intros B Hp H Z. exists (fun c => if ix_eqb c p then one else if (vget ipiv c =? 0)%N then zero else opp (mget W c p)). split.
    { exists p. rewrite ix_eqb_refl. apply one_neq_zero. }
    intros r. symmetry. refine (proj2 (H _ (fun _ => zero)) _ r). clear r. intros r.
    unfold eqn.
    assert (T : forall k, tt_ ipiv (fun c => if ix_eqb c p then one else if (vget ipiv c =? 0)%N then zero else opp (mget W c p)) (fun _ => zero) k
                = if ix_eqb k p then one else zero).
    { intros k. unfold tt_. destruct (ix_eqb k p) eqn:Q; [apply ix_eqb_eq in Q; subst; now rewrite Hp|].
      destruct (vget ipiv k =? 0)%N; auto. ring. }
    assert (S : ss_ ipiv (fun c => if ix_eqb c p then one else if (vget ipiv c =? 0)%N then zero else opp (mget W c p)) (fun _ => zero) r
                = opp (mget W r p)).
    { unfold ss_. destruct (vget ipiv r =? 0)%N eqn:Q; [apply N.eqb_eq in Q; rewrite (Z r p); auto|].
      destruct (ix_eqb r p) eqn:Q2; auto. apply ix_eqb_eq in Q2. subst. rewrite Hp in Q. discriminate. }
    rewrite S. unfold apply_of, sum4. rewrite !T. destruct p; cbn [ix_eqb]; ring.
  Qed.
  Definition total (ipiv : vec4 N) : N := (vget ipiv I0 + vget ipiv I1 + vget ipiv I2 + vget ipiv I3)%N.
  Definition good (n : N) (s : inv_state) (pi : ix -> ix) : Prop :=
    binary (is_ipiv s) /\ total (is_ipiv s) = n /\ rep (is_minv s) (is_ipiv s) pi.
  Lemma good_step n s pi i : good n s pi -> (n < 4)%N ->
    (kernel_nonzero /\ forall fp sp, inverse_step E fp sp i s = sp _) \/
    (exists r c s', (forall fp sp, inverse_step E fp sp i s = Done s') /\ is_indxr s' = vset (is_indxr s) i r /\
      is_indxc s' = vset (is_indxc s) i c /\ good (n + 1) s' (fun k => pi (sw r c k))).
  Proof.
    intros (B & Hn & H) Hlt. assert (Ex : exists c, vget (is_ipiv s) c = 0%N).
    { unfold total in Hn. destruct (B I0) as [?|H0]; [eauto|]. destruct (B I1) as [?|H1]; [eauto|].
      destruct (B I2) as [?|H2]; [eauto|]. destruct (B I3) as [?|H3]; [eauto|]. lia. }
    destruct (choose_thm (is_minv s) (is_ipiv s) B Ex) as (p & q & C & Hp & Hq & M).
    pose proof (rep_swap _ _ _ p q Hp Hq H) as HS.
    set (W := mkm (fun i k => mget (is_minv s) (sw p q i) k)) in *.
    assert (Wqq : mget W q q = mget (is_minv s) p q).
    { unfold W. rewrite mget_mkm. unfold sw. destruct (ix_eqb q p) eqn:Q; [apply ix_eqb_eq in Q; now subst|now rewrite ix_eqb_refl]. }
    destruct (e_eq E (mget W q q) zero) eqn:Q.
    - left. split.
      + apply (x_Eeq E X) in Q. apply (no_pivot (is_minv s) (is_ipiv s) pi q B Hq H). intros j k Hj Hk. apply (x_abs_0 E X).
        specialize (M j k Hj Hk). rewrite <- Wqq, Q in M. unfold zero, abs in M. rewrite (x_abs_z E X) in M. exact M.
      + intros fp sp. unfold inverse_step. rewrite C. cbn [obind]. rewrite swap_rows_thm. cbn [obind]. fold W.
        rewrite (x_E0 E X). fold zero. now rewrite Q.
    - right. assert (NZ : mget W q q <> zero). { intros K. apply (x_Eeq E X) in K. congruence. }
      exists p, q, (IS (pivoted W q) (vset (is_ipiv s) q (vget (is_ipiv s) q + 1)%N) (vset (is_indxr s) i p) (vset (is_indxc s) i q)).
      split; [|split; [reflexivity|split; [reflexivity|]]].
      + intros fp sp. unfold inverse_step. rewrite C. cbn [obind]. rewrite swap_rows_thm. cbn [obind]. fold W.
        rewrite (x_E0 E X). fold zero. rewrite Q. rewrite scale_row_thm by exact NZ. cbn [obind]. rewrite clear_column_thm. reflexivity.
      + split; [|split]; cbn [is_ipiv is_minv].
        * intros c. destruct (ix_eqb c q) eqn:Qc; [apply ix_eqb_eq in Qc; subst c|apply ix_eqb_neq in Qc].
          { right. rewrite Hq. destruct q; reflexivity. }
          { specialize (B c). revert B. destruct q, c; try congruence; auto. }
        * unfold total in *. rewrite Hq. destruct q; cbn [vset vget w0 w1 w2 w3] in *; lia.
        * apply rep_pivot; auto.
  Qed.

  (** [B] is what the finished working matrix says about [A]. *)
  Definition solves (B : Matrix4 F) : Prop := forall x y, (forall r, y r = apply A x r) <-> (forall r, x r = apply B y r).
  Lemma sum_sw f r c : sum (fun i => f (sw r c i)) = sum f.
  Proof. unfold sum4. destruct r, c; cbn [sw ix_eqb]; ring. Qed.
  Lemma solves_end W ipiv pi : binary ipiv -> total ipiv = 4%N -> rep W ipiv pi ->
    forall x y, (forall r, y r = apply A x r) <-> (forall r, x r = apply W (fun c => y (pi c)) r).
  Proof.
    intros B T H x y. rewrite (H x y).
    assert (O : forall c, vget ipiv c = 1%N).
    { intros c. unfold total in T. destruct (B I0) as [?|?], (B I1) as [?|?], (B I2) as [?|?], (B I3) as [?|?]; destruct c; lia. }
    assert (K : forall r, eqn W ipiv x (fun c => y (pi c)) r = sub (x r) (apply W (fun c => y (pi c)) r)).
    { intros r. unfold eqn, apply_of, sum4, tt_, ss_. rewrite !O. cbn [N.eqb]. ring. }
    split; intros Z r; specialize (Z r).
    - rewrite K in Z. transitivity (add (sub (x r) (apply W (fun c => y (pi c)) r)) (apply W (fun c => y (pi c)) r)); [ring|].
      rewrite Z. ring.
    - rewrite K, <- Z. ring.
  Qed.
  Lemma inverse_cases :
    (kernel_nonzero /\ forall fp, inverse_with E fp (@Panic) A = Panic) \/
    (exists B, solves B /\ forall fp sp, inverse_with E fp sp A = Done B).
  Proof.
    set (s0 := IS A (vconst 0%N) (vconst I0) (vconst I0)).
    assert (G0 : good 0 s0 (fun c => c)).
    { split; [intros []; left; reflexivity|]. split; [reflexivity|apply rep_init]. }
    assert (unf : forall fp sp, inverse_with E fp sp A =
      (s <~ (s <~ inverse_step E fp sp I0 s0 ;; s <~ inverse_step E fp sp I1 s ;; s <~ inverse_step E fp sp I2 s ;; inverse_step E fp sp I3 s) ;;
       swap_columns s)) by reflexivity.
    destruct (good_step _ _ _ I0 G0 eq_refl) as [[K P]|(r0 & c0 & s1 & E1 & R1 & C1 & G1)].
    { left. split; auto. intros fp. now rewrite unf, P. }
    destruct (good_step _ _ _ I1 G1 eq_refl) as [[K P]|(r1 & c1 & s2 & E2 & R2 & C2 & G2)].
    { left. split; auto. intros fp. rewrite unf, E1. cbn [obind]. now rewrite P. }
    destruct (good_step _ _ _ I2 G2 eq_refl) as [[K P]|(r2 & c2 & s3 & E3 & R3 & C3 & G3)].
    { left. split; auto. intros fp. rewrite unf, E1. cbn [obind]. rewrite E2. cbn [obind]. now rewrite P. }
    destruct (good_step _ _ _ I3 G3 eq_refl) as [[K P]|(r3 & c3 & s4 & E4 & R4 & C4 & G4)].
    { left. split; auto. intros fp. rewrite unf, E1. cbn [obind]. rewrite E2. cbn [obind]. rewrite E3. cbn [obind]. now rewrite P. }
    right. exists (mkm (fun i k => mget (is_minv s4) i (sw r3 c3 (sw r2 c2 (sw r1 c1 (sw r0 c0 k)))))). split.
    - destruct G4 as (B & T & H). intros x y. rewrite (solves_end _ _ _ B T H x y).
      assert (K : forall r, apply (mkm (fun i k => mget (is_minv s4) i (sw r3 c3 (sw r2 c2 (sw r1 c1 (sw r0 c0 k)))))) y r =
        apply (is_minv s4) (fun c => y (sw r0 c0 (sw r1 c1 (sw r2 c2 (sw r3 c3 c))))) r).
      { intros r. unfold apply_of at 1.
        rewrite <- (sum_sw _ r0 c0), <- (sum_sw _ r1 c1), <- (sum_sw _ r2 c2), <- (sum_sw _ r3 c3).
        unfold apply_of, sum4. rewrite !mget_mkm, !sw_invol. reflexivity. }
      split; intros Z r; [rewrite K|rewrite <- K]; apply Z.
    - intros fp sp. rewrite unf, E1. cbn [obind]. rewrite E2. cbn [obind]. rewrite E3. cbn [obind]. rewrite E4. cbn [obind].
      unfold swap_columns, for4_rev. rewrite R4, C4, R3, C3, R2, C2, R1, C1. cbn [vset vget w0 w1 w2 w3].
      rewrite swap_cols_thm. cbn [obind]. rewrite swap_cols_thm. cbn [obind]. rewrite swap_cols_thm. cbn [obind]. rewrite swap_cols_thm.
      f_equal. apply mkm_ext. intros. now rewrite !mget_mkm.
  Qed.

  (** *** Inverses *)
  Notation prod := (prod_of add mul). Notation ident := (ident_of zero one).
  Definition unitv (k : ix) : ix -> F := fun c => if ix_eqb c k then one else zero.
  Lemma apply_unit M k r : apply M (unitv k) r = mget M r k.
  Proof. unfold apply_of, sum4, unitv. destruct k; cbn [ix_eqb]; ring. Qed.
  Lemma apply_prod M N x r : apply (prod M N) x r = apply M (apply N x) r.
  Proof. unfold apply_of, prod_of, sum4. rewrite !mget_mkm. ring. Qed.
  Lemma apply_ident x r : apply ident x r = x r.
  Proof. unfold apply_of, ident_of, sum4. rewrite !mget_mkm. destruct r; cbn [ix_eqb]; ring. Qed.
  Lemma solves_inverse B : solves B -> prod A B = ident /\ prod B A = ident.
  Proof.
    intros H. split; apply mat_ext; intros r c.
    - rewrite <- (apply_unit (prod A B)), apply_prod. rewrite <- (proj2 (H (apply B (unitv c)) (unitv c)) (fun _ => eq_refl) r).
      unfold unitv, ident_of. now rewrite mget_mkm.
    - rewrite <- (apply_unit (prod B A)), apply_prod. rewrite <- (proj1 (H (unitv c) (apply A (unitv c))) (fun _ => eq_refl) r).
      unfold unitv, ident_of. now rewrite mget_mkm.
  Qed.
  Lemma kernel_no_inverse : kernel_nonzero -> forall B, prod B A <> ident.
  Proof.
    intros (x & (r & Hr) & Z) B K. apply Hr. rewrite <- (apply_ident x r), <- K, apply_prod.
    unfold apply_of at 1, sum4. rewrite !Z. ring.
  Qed.

  (** *** The determinant *)
  Notation det := (det_of add mul sub).
  Lemma det_prod M N : det (prod M N) = mul (det M) (det N).
  Proof.
    unfold det_of, minor, prod_of, sum4. rewrite !mget_mkm.
    ring.
  Qed.
  Lemma det_ident : det ident = one.
  Proof. unfold det_of, minor, ident_of. rewrite !mget_mkm. cbn [ix_eqb]. ring. Qed.
  Definition others (i : ix) : ix * ix * ix :=
    match i with I0 => (I1, I2, I3) | I1 => (I0, I2, I3) | I2 => (I0, I1, I3) | I3 => (I0, I1, I2) end.
  Definition odd (i : ix) : bool := match i with I0 | I2 => false | _ => true end.
  Definition cofactor (r c : ix) : F :=
    let '(r1, r2, r3) := others r in let '(c1, c2, c3) := others c in
    let m := minor add mul sub A r1 r2 r3 c1 c2 c3 in if xorb (odd r) (odd c) then opp m else m.
  (** Each unknown of a homogeneous system, times the determinant, is a combination of its equations. *)
  Lemma det_kernel : kernel_nonzero -> det A = zero.
  Proof.
    intros (x & (r & Hr) & Z). apply (mul_integral (x r)); [|exact Hr].
    assert (K : mul (x r) (det A) = add (add (add (mul (cofactor I0 r) (apply A x I0)) (mul (cofactor I1 r) (apply A x I1)))
      (mul (cofactor I2 r) (apply A x I2))) (mul (cofactor I3 r) (apply A x I3))).
    { unfold det_of, cofactor, apply_of, sum4. destruct r; cbn [others odd xorb]; unfold minor; ring. }
    rewrite K, !Z. ring.
  Qed.
  Lemma singular_iff : (forall fp, inverse_with E fp (@Panic) A = Panic) <-> det A = zero.
  Proof.
    destruct inverse_cases as [[K P]|(B & S & D)].
    - split; auto using det_kernel.
    - split; intros H; exfalso.
      + specialize (H (@Panic)). rewrite D in H. discriminate.
      + apply one_neq_zero. rewrite <- det_ident, <- (proj1 (solves_inverse B S)), det_prod, H. ring.
  Qed.
End Inverse.
