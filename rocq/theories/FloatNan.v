(** Proofs about C102: NaN, zero rows and zero columns in Matrix4::inverse on floats. *)
From Coq Require Import ZArith Reals Lia Lra.
From Flocq Require Import Core.Core IEEE754.BinarySingleNaN.
From Verif Require Import Base Elem FloatInst GeoModel MatModel GeoSpec ArithSpec MatSpec OpsSpec FloatErrSpec OrderProofs MatThms InvThms.
From Verif Require Import FloatCore FloatThms OpsThms FloatInv InvFloatEx.
Local Open Scope mon_scope.

Section N.
Context (f : fmt).
Notation E := (f_elem f).
Notation one := (f_of_int f 1).
Notation zero := (f_of_int f 0).
Notation mat := (Matrix4 (flt f)).
Notation isn x := (@is_nan (fprec f) (femax f) x).

Lemma nan_is (x : flt f) : is_nan x = true -> x = B754_nan. Proof. destruct x; (discriminate || reflexivity). Qed.
Lemma nan_mult_l x y : isn x = true -> isn (f_mult x y) = true.
Proof. intros H. rewrite (nan_is x H). reflexivity. Qed.
Lemma nan_mult_r x y : isn y = true -> isn (f_mult x y) = true.
Proof. intros H. rewrite (nan_is y H). destruct x; reflexivity. Qed.
Lemma nan_sub_l x y : isn x = true -> isn (f_sub x y) = true.
Proof. intros H. rewrite (nan_is x H). reflexivity. Qed.
Lemma nan_sub_r x y : isn y = true -> isn (f_sub x y) = true.
Proof. intros H. rewrite (nan_is y H). destruct x; reflexivity. Qed.
Lemma nan_div_r x y : isn y = true -> isn (f_div x y) = true.
Proof. intros H. rewrite (nan_is y H). destruct x; reflexivity. Qed.
Lemma zer_mult_nan x y : zer f x -> isn (f_mult x y) = false -> zer f (f_mult x y).
Proof. intros [s ->]. destruct y as [s'|s'| |s' m e b]; cbn; intros H; try discriminate; eexists; reflexivity. Qed.
Lemma zer_mult_nan_r x y : zer f y -> isn (f_mult x y) = false -> zer f (f_mult x y).
Proof. intros [s ->]. destruct x as [s'|s'| |s' m e b]; cbn; intros H; try discriminate; eexists; reflexivity. Qed.

(** ** One round *)
Record round_ (W : mat) (p q : ix) (W' : mat) : Prop := {
  ro_piv : forall k, mget W' q k = f_mult (if ix_eqb k q then one else mget W p k) (f_div one (mget W p q));
  ro_oth : forall r k, r <> q ->
    mget W' r k = f_sub (if ix_eqb k q then zero else mget W (sw p q r) k) (f_mult (mget W' q k) (mget W (sw p q r) q));
  ro_nz : Beqb (mget W p q) zero = false }.
Lemma step_round i s s' : inverse_step E (@Panic) (@Panic) i s = Done s' -> exists b p q,
  choose_pivot E (@Panic) (is_minv s) (is_ipiv s) = Done (b, p, q) /\ round_ (is_minv s) p q (is_minv s') /\
  is_ipiv s' = vset (is_ipiv s) q (vget (is_ipiv s) q + 1)%N.
Proof.
  unfold inverse_step. destruct (choose_pivot E (@Panic) (is_minv s) (is_ipiv s)) as [[[b p] q]| |] eqn:Ec; cbn [obind]; try discriminate.
  rewrite swap_rows_thm. cbn [obind]. set (W := is_minv s). set (W1 := mkm _).
  destruct (e_eq E (mget W1 q q) (e_from_int E 0)) eqn:Z; [discriminate|]. rewrite scale_row_float. cbn [obind].
  match goal with |- context [clear_column E ?M q] => set (W2 := M) end. rewrite clear_column_float. cbn [obind].
  match goal with |- context [Done (IS ?M _ _ _)] => set (W3 := M) end. intros [= <-]. cbn [is_minv is_ipiv].
  exists b, p, q. split; [reflexivity|]. split; [|reflexivity].
  assert (V1 : forall r k, mget W1 r k = mget W (sw p q r) k) by (intros r k; unfold W1; now rewrite mget_mkm).
  assert (V2 : forall k, mget W3 q k = mget W2 q k) by (intros k; unfold W3; now rewrite mget_mkm, ix_eqb_refl).
  assert (V3 : forall k, mget W2 q k = f_mult (if ix_eqb k q then one else mget W p k) (f_div one (mget W p q))).
  { intros k. unfold W2. rewrite mget_mkm, ix_eqb_refl, !V1, sw_r. reflexivity. }
  assert (V4 : forall r k, r <> q -> mget W2 r k = mget W (sw p q r) k).
  { intros r k N. unfold W2. rewrite mget_mkm. apply ix_eqb_neq in N. now rewrite N, V1. }
  split.
  - intros k. now rewrite V2.
  - intros r k N. rewrite V2. unfold W3. rewrite mget_mkm. pose proof N as N'. apply ix_eqb_neq in N'. now rewrite N', (V4 r k N), (V4 r q N).
  - rewrite V1, sw_r in Z. exact Z.
Qed.

(** ** NaN stays *)
Definition nonan (W : mat) : Prop := forall r c, isn (mget W r c) = false.
Lemma round_nonan W p q W' : round_ W p q W' -> nonan W' -> nonan W.
Proof.
  intros [Hp Ho _] N r c. destruct (isn (mget W r c)) eqn:X; [|reflexivity]. exfalso.
  destruct (ix_dec (sw p q r) q) as [Eq|Ne].
  - assert (r = p) as -> by (apply (sw_inj p q); now rewrite Eq, sw_l).
    pose proof (N q c) as Y. rewrite Hp in Y. destruct (ix_eqb c q) eqn:K.
    + apply ix_eqb_eq in K as ->. rewrite nan_mult_r in Y; [discriminate|]. now apply nan_div_r.
    + rewrite nan_mult_l in Y by assumption. discriminate.
  - pose proof (N (sw p q r) c) as Y. rewrite (Ho _ _ Ne), sw_invol in Y. destruct (ix_eqb c q) eqn:K.
    + apply ix_eqb_eq in K as ->. rewrite nan_sub_r in Y; [discriminate|]. now apply nan_mult_r.
    + rewrite nan_sub_l in Y by assumption. discriminate.
Qed.

(** ** Without NaN a fresh row and column is chosen *)
Lemma zero_le (x : flt f) : isn x = false -> Bleb zero (Babs x) = true.
Proof. rewrite (zero_is f). destruct x as [s|s| |s m e b]; intros H; (discriminate H || reflexivity). Qed.
Definition fresh ip (s : flt f * ix * ix) : Prop := let '(_, p, q) := s in cand ip p q.
Definition start (s : flt f * ix * ix) : Prop := s = (zero, I0, I0).
Lemma inner_fresh W ip j k s s' : vget ip j = 0%N -> inner E (@Panic) W ip j k s = Done s' -> fresh ip s -> fresh ip s'.
Proof.
  destruct s as [[b p] q]. unfold inner. intros Hj. destruct (vget ip k =? 0)%N eqn:K.
  - cbn [e_abs f_elem obind e_le]. destruct (Bleb b _); intros [= <-]; cbn; [|auto]. intros _. apply N.eqb_eq in K. now split.
  - destruct (1 <? vget ip k)%N; [discriminate|]. intros [= <-]; auto.
Qed.
Lemma inner_start W ip j k s s' : vget ip j = 0%N -> nonan W -> inner E (@Panic) W ip j k s = Done s' -> start s ->
  fresh ip s' \/ (start s' /\ vget ip k <> 0%N).
Proof.
  intros Hj Nn Hs ->. unfold inner in Hs. destruct (vget ip k =? 0)%N eqn:K.
  - cbn [e_abs f_elem obind e_le] in Hs. rewrite (zero_le _ (Nn j k)) in Hs. injection Hs as <-. left. cbn. apply N.eqb_eq in K. now split.
  - destruct (1 <? vget ip k)%N; [discriminate|]. injection Hs as <-. right. split; [reflexivity|]. now apply N.eqb_neq.
Qed.
Lemma row_fresh W ip j s s' : nonan W -> binary ip ->
  (if negb (vget ip j =? 1)%N then for4 s (fun k s => inner E (@Panic) W ip j k s) else !s) = Done s' ->
  (fresh ip s -> fresh ip s') /\ (start s -> fresh ip s' \/ (start s' /\ (vget ip j = 0%N -> forall k, vget ip k <> 0%N))).
Proof.
  intros Nn B. destruct (B j) as [Hj|Hj]; rewrite Hj; cbn [N.eqb Pos.eqb negb].
  - unfold for4. destruct (inner E (@Panic) W ip j I0 s) as [s0| |] eqn:E0; cbn [obind]; try discriminate.
    destruct (inner E (@Panic) W ip j I1 s0) as [s1| |] eqn:E1; cbn [obind]; try discriminate.
    destruct (inner E (@Panic) W ip j I2 s1) as [s2| |] eqn:E2; cbn [obind]; try discriminate. intros E3.
    pose proof (inner_fresh _ _ _ _ _ _ Hj E0) as F0. pose proof (inner_fresh _ _ _ _ _ _ Hj E1) as F1.
    pose proof (inner_fresh _ _ _ _ _ _ Hj E2) as F2. pose proof (inner_fresh _ _ _ _ _ _ Hj E3) as F3.
    pose proof (inner_start _ _ _ _ _ _ Hj Nn E0) as S0. pose proof (inner_start _ _ _ _ _ _ Hj Nn E1) as S1.
    pose proof (inner_start _ _ _ _ _ _ Hj Nn E2) as S2. pose proof (inner_start _ _ _ _ _ _ Hj Nn E3) as S3.
    split; [tauto|]. intros S. destruct (S0 S) as [|[T0 K0]]; [tauto|]. destruct (S1 T0) as [|[T1 K1]]; [tauto|].
    destruct (S2 T1) as [|[T2 K2]]; [tauto|]. destruct (S3 T2) as [|[T3 K3]]; [tauto|]. right. split; [assumption|]. intros _ []; assumption.
  - intros [= <-]. split; [auto|]. intros S. right. split; [assumption|discriminate].
Qed.
Lemma choose_fresh W ip b p q : nonan W -> binary ip -> (exists c, vget ip c = 0%N) ->
  choose_pivot E (@Panic) W ip = Done (b, p, q) -> cand ip p q.
Proof.
  intros Nn B [c Hc]. unfold choose_pivot. change (e_from_int E 0) with zero. unfold for4 at 1.
  set (row j s := if negb (vget ip j =? 1)%N then for4 s (fun k s => inner E (@Panic) W ip j k s) else !s).
  assert (R : forall j s s', row j s = Done s' -> (fresh ip s -> fresh ip s') /\ (start s -> fresh ip s' \/ (start s' /\ (vget ip j = 0%N -> forall k, vget ip k <> 0%N)))).
  { intros j s s'. unfold row. now apply row_fresh. }
  change (s <~ row I0 (zero, I0, I0) ;; s <~ row I1 s ;; s <~ row I2 s ;; row I3 s = Done (b, p, q) -> cand ip p q).
  clearbody row.
  destruct (row I0 (zero, I0, I0)) as [s0| |] eqn:E0; cbn [obind]; try discriminate.
  destruct (row I1 s0) as [s1| |] eqn:E1; cbn [obind]; try discriminate.
  destruct (row I2 s1) as [s2| |] eqn:E2; cbn [obind]; try discriminate. intros E3.
  destruct (R _ _ _ E0) as [F0 S0]. destruct (R _ _ _ E1) as [F1 S1]. destruct (R _ _ _ E2) as [F2 S2]. destruct (R _ _ _ E3) as [F3 S3].
  change (fresh ip (b, p, q)).
  destruct (S0 eq_refl) as [|[T0 K0]]; [tauto|]. destruct (S1 T0) as [|[T1 K1]]; [tauto|].
  destruct (S2 T1) as [|[T2 K2]]; [tauto|]. destruct (S3 T2) as [|[T3 K3]]; [tauto|].
  exfalso. destruct c; [exact (K0 Hc _ Hc)|exact (K1 Hc _ Hc)|exact (K2 Hc _ Hc)|exact (K3 Hc _ Hc)].
Qed.

(** ** A column, or a row, of zeros that is still to be chosen *)
Definition zcol (W : mat) (ip : vec4 N) : Prop := exists c, vget ip c = 0%N /\ forall r, zer f (mget W r c).
Definition zrow (W : mat) (ip : vec4 N) : Prop := exists r, vget ip r = 0%N /\ forall c, zer f (mget W r c).
Lemma zer_eq x : zer f x -> Beqb x zero = true. Proof. intros [[] ->]; rewrite (zero_is f); reflexivity. Qed.
Lemma nonan_sub_r x y : isn (f_sub x y) = false -> isn y = false.
Proof. intros H. destruct (isn y) eqn:X; [|reflexivity]. rewrite nan_sub_r in H by assumption. discriminate. Qed.
Lemma zcol_step W ip p q W' : round_ W p q W' -> nonan W' -> cand ip p q -> zcol W ip -> zcol W' (vset ip q 1%N).
Proof.
  intros [Hp Ho Hz] N [Cp Cq] (c & Hc & Z). assert (Nq : c <> q).
  { intros ->. rewrite (zer_eq _ (Z p)) in Hz. discriminate. }
  exists c. split; [rewrite vget_vset; apply ix_eqb_neq in Nq; now rewrite Nq|].
  pose proof Nq as Nb. apply ix_eqb_neq in Nb.
  assert (Zq : zer f (mget W' q c)).
  { pose proof (N q c) as Y. rewrite Hp, Nb in *. apply zer_mult_nan; [apply Z|exact Y]. }
  intros r. destruct (ix_dec r q) as [->|Nr]; [exact Zq|].
  pose proof (N r c) as Y. rewrite (Ho _ _ Nr), Nb in *. apply zer_sub; [apply Z|]. apply zer_mult_nan; [exact Zq|]. now apply nonan_sub_r in Y.
Qed.
Lemma zrow_step W ip p q W' : round_ W p q W' -> nonan W' -> cand ip p q -> zrow W ip -> zrow W' (vset ip q 1%N).
Proof.
  intros [Hp Ho Hz] N [Cp Cq] (r & Hr & Z). assert (Np : r <> p).
  { intros ->. rewrite (zer_eq _ (Z q)) in Hz. discriminate. }
  assert (Nq : sw p q r <> q) by (intros X; apply Np, (sw_inj p q); now rewrite sw_l).
  exists (sw p q r). split.
  - rewrite vget_vset. pose proof Nq as Nb. apply ix_eqb_neq in Nb. rewrite Nb. destruct (ix_dec r q) as [->|Nr]; [now rewrite sw_r|].
    now rewrite sw_other.
  - intros c. pose proof (N (sw p q r) c) as Y. rewrite (Ho _ _ Nq), sw_invol in *. apply zer_sub.
    + destruct (ix_eqb c q); [apply zer_zero|apply Z].
    + apply zer_mult_nan_r; [apply Z|]. now apply nonan_sub_r in Y.
Qed.
Lemma swap_columns_get s : exists g, swap_columns s = Done (mkm (fun i k => mget (is_minv s : mat) i (g k))) /\ forall c, exists k, g k = c.
Proof.
  unfold swap_columns, for4_rev. rewrite swap_cols_thm. cbn [obind]. rewrite swap_cols_thm. cbn [obind]. rewrite swap_cols_thm. cbn [obind].
  rewrite swap_cols_thm.
  set (a := vget (is_indxr s)). set (b := vget (is_indxc s)).
  exists (fun k => sw (a I3) (b I3) (sw (a I2) (b I2) (sw (a I1) (b I1) (sw (a I0) (b I0) k)))). split.
  - f_equal. apply mkm_ext. intros r c. now rewrite !mget_mkm.
  - intros c. exists (sw (a I0) (b I0) (sw (a I1) (b I1) (sw (a I2) (b I2) (sw (a I3) (b I3) c)))). now rewrite !sw_invol.
Qed.
Lemma four_rounds A B : m4_inverse E A = Done B -> nonan B ->
  exists W1 W2 W3 W4 p0 q0 p1 q1 p2 q2 p3 q3, nonan A /\ nonan W1 /\ nonan W2 /\ nonan W3 /\ nonan W4 /\
    round_ A p0 q0 W1 /\ round_ W1 p1 q1 W2 /\ round_ W2 p2 q2 W3 /\ round_ W3 p3 q3 W4 /\
    cand (vconst 0%N) p0 q0 /\ cand (vset (vconst 0%N) q0 1%N) p1 q1 /\ cand (vset (vset (vconst 0%N) q0 1%N) q1 1%N) p2 q2 /\
    cand (vset (vset (vset (vconst 0%N) q0 1%N) q1 1%N) q2 1%N) p3 q3.
Proof.
  unfold m4_inverse, inverse_with. unfold for4 at 1. set (s0 := IS A _ _ _).
  destruct (inverse_step E (@Panic) (@Panic) I0 s0) as [s1| |] eqn:E1; cbn [obind]; try discriminate.
  destruct (inverse_step E (@Panic) (@Panic) I1 s1) as [s2| |] eqn:E2; cbn [obind]; try discriminate.
  destruct (inverse_step E (@Panic) (@Panic) I2 s2) as [s3| |] eqn:E3; cbn [obind]; try discriminate.
  destruct (inverse_step E (@Panic) (@Panic) I3 s3) as [s4| |] eqn:E4; cbn [obind]; try discriminate.
  destruct (swap_columns_get s4) as (g & -> & Hg). intros [= <-] N.
  assert (N4 : nonan (is_minv s4)).
  { intros r c. destruct (Hg c) as [k <-]. pose proof (N r k) as Y. now rewrite mget_mkm in Y. }
  clear N Hg.
  destruct (step_round _ _ _ E1) as (b0 & p0 & q0 & Ec1 & R1 & P1). destruct (step_round _ _ _ E2) as (b1 & p1 & q1 & Ec2 & R2 & P2).
  destruct (step_round _ _ _ E3) as (b2 & p2 & q2 & Ec3 & R3 & P3). destruct (step_round _ _ _ E4) as (b3 & p3 & q3 & Ec4 & R4 & P4).
  pose proof (round_nonan _ _ _ _ R4 N4) as N3. pose proof (round_nonan _ _ _ _ R3 N3) as N2.
  pose proof (round_nonan _ _ _ _ R2 N2) as N1. pose proof (round_nonan _ _ _ _ R1 N1) as N0.
  cbn [s0 is_minv is_ipiv] in *.
  assert (B0 : binary (vconst 0%N)) by (intros []; left; reflexivity).
  assert (Bs : forall ip c, binary ip -> binary (vset ip c 1%N)).
  { intros ip c H x. rewrite vget_vset. destruct (ix_eqb x c); [now right|apply H]. }
  assert (C0 := choose_fresh _ _ _ _ _ N0 B0 (ex_intro _ I0 eq_refl) Ec1). rewrite (proj2 C0) in P1.
  change (0 + 1)%N with 1%N in P1. rewrite P1 in *. assert (B1 := Bs _ q0 B0).
  assert (C1 := choose_fresh _ _ _ _ _ N1 B1 ltac:(destruct q0; [exists I1|exists I0|exists I0|exists I0]; reflexivity) Ec2).
  rewrite (proj2 C1) in P2. change (0 + 1)%N with 1%N in P2. rewrite P2 in *. assert (B2 := Bs _ q1 B1).
  assert (X2 : exists c, vget (vset (vset (vconst 0%N) q0 1%N) q1 1%N) c = 0%N).
  { destruct C1 as [_ C]. destruct q0, q1; try discriminate C; ((now exists I0) || (now exists I1) || (now exists I2)). }
  assert (C2 := choose_fresh _ _ _ _ _ N2 B2 X2 Ec3).
  rewrite (proj2 C2) in P3. change (0 + 1)%N with 1%N in P3. rewrite P3 in *. assert (B3 := Bs _ q2 B2).
  assert (X3 : exists c, vget (vset (vset (vset (vconst 0%N) q0 1%N) q1 1%N) q2 1%N) c = 0%N).
  { destruct C1 as [_ C1]. destruct C2 as [_ C2]. destruct q0, q1; try discriminate C1; destruct q2; try discriminate C2;
      ((now exists I0) || (now exists I1) || (now exists I2) || (now exists I3)). }
  assert (C3 := choose_fresh _ _ _ _ _ N3 B3 X3 Ec4).
  exists (is_minv s1), (is_minv s2), (is_minv s3), (is_minv s4), p0, q0, p1, q1, p2, q2, p3, q3. tauto.
Qed.
Lemma all_chosen q0 q1 q2 q3 c p1 p2 p3 : cand (vset (vconst 0%N) q0 1%N) p1 q1 -> cand (vset (vset (vconst 0%N) q0 1%N) q1 1%N) p2 q2 ->
  cand (vset (vset (vset (vconst 0%N) q0 1%N) q1 1%N) q2 1%N) p3 q3 ->
  vget (vset (vset (vset (vset (vconst 0%N) q0 1%N) q1 1%N) q2 1%N) q3 1%N) c <> 0%N.
Proof.
  intros [_ C1] [_ C2] [_ C3]. destruct q0, q1; try discriminate C1; destruct q2; try discriminate C2; destruct q3; try discriminate C3;
    destruct c; discriminate.
Qed.
Lemma zer_of x : is_finite x = true -> B2R x = 0%R -> zer f x.
Proof. intros Hf H. destruct x as [s|s| |s m e b]; try discriminate; [now exists s|]. exfalso. apply Flocq.Core.Float_prop.eq_0_F2R in H. destruct s; discriminate. Qed.
End N.

Lemma no_nan_result f (A B : Matrix4 (flt f)) : m4_inverse (f_elem f) A = Done B -> (forall r c, is_nan (mget B r c) = false) ->
  (forall r c, is_nan (mget A r c) = false) /\
  (forall r, ~ forall c, is_finite (mget A r c) = true /\ B2R (mget A r c) = 0%R) /\
  (forall c, ~ forall r, is_finite (mget A r c) = true /\ B2R (mget A r c) = 0%R).
Proof.
  intros H N. destruct (four_rounds f A B H N) as (W1 & W2 & W3 & W4 & p0 & q0 & p1 & q1 & p2 & q2 & p3 & q3 & N0 & N1 & N2 & N3 & N4 & R0 & R1 & R2 & R3 & C0 & C1 & C2 & C3).
  split; [exact N0|]. split.
  - intros r Z. assert (Y0 : zrow f A (vconst 0%N)).
    { exists r. split; [apply vget_const|]. intros c. destruct (Z c). now apply zer_of. }
    pose proof (zrow_step f _ _ _ _ _ R0 N1 C0 Y0) as Y1. pose proof (zrow_step f _ _ _ _ _ R1 N2 C1 Y1) as Y2.
    pose proof (zrow_step f _ _ _ _ _ R2 N3 C2 Y2) as Y3. pose proof (zrow_step f _ _ _ _ _ R3 N4 C3 Y3) as (x & Y & _).
    exact (all_chosen _ _ _ _ x _ _ _ C1 C2 C3 Y).
  - intros c Z. assert (Y0 : zcol f A (vconst 0%N)).
    { exists c. split; [apply vget_const|]. intros r. destruct (Z r). now apply zer_of. }
    pose proof (zcol_step f _ _ _ _ _ R0 N1 C0 Y0) as Y1. pose proof (zcol_step f _ _ _ _ _ R1 N2 C1 Y1) as Y2.
    pose proof (zcol_step f _ _ _ _ _ R2 N3 C2 Y2) as Y3. pose proof (zcol_step f _ _ _ _ _ R3 N4 C3 Y3) as (x & Y & _).
    exact (all_chosen _ _ _ _ x _ _ _ C1 C2 C3 Y).
Qed.

(** ** Singular matrices that are inverted, and regular ones that are not *)
Definition ints f (a b c d : Z) : vec4 (flt f) := W4 (f_of_int f a) (f_of_int f b) (f_of_int f c) (f_of_int f d).
Definition two_rows f : Matrix4 (flt f) :=
  let r := match f with F32 => ints f 7 3 0 0 | F64 => ints f 5 3 0 0 end in W4 r r (ints f 0 0 1 0) (ints f 0 0 0 1).
Definition two_columns f : Matrix4 (flt f) :=
  let a := match f with F32 => 41%Z | F64 => 49%Z end in W4 (ints f a a 0 0) (ints f 1 1 0 0) (ints f 0 0 1 0) (ints f 0 0 0 1).
Definition small f : flt f := f_div (f_of_int f 1) (f_of_int f (2 ^ match f with F32 => 80 | F64 => 600 end)).
Definition corner_small f : Matrix4 (flt f) :=
  W4 (W4 (f_of_int f 1) (small f) (f_of_int f 0) (f_of_int f 0)) (W4 (small f) (f_of_int f 0) (f_of_int f 0) (f_of_int f 0))
     (ints f 0 0 1 0) (ints f 0 0 0 1).
Definition last_zero f : Matrix4 (flt f) := W4 (ints f 1 0 0 0) (ints f 0 1 0 0)
     (W4 (f_of_int f 0) (f_of_int f 0) (tiny f) (f_of_int f 0)) (ints f 0 0 0 0).
Lemma equal_rows f : exists A B : Matrix4 (flt f), (forall r c, is_finite (mget A r c) = true) /\ (forall c, mget A I0 c = mget A I1 c) /\
  m4_inverse (f_elem f) A = Done B /\ forall r c, is_finite (mget B r c) = true.
Proof.
  exists (two_rows f), (get_done (m4_inverse (f_elem f) (two_rows f)) (f_ident f)).
  split; [intros r c; destruct f, r, c; vm_compute; reflexivity|]. split; [intros c; destruct c; reflexivity|].
  split; [apply done_get; destruct f; vm_compute; reflexivity|]. intros r c; destruct f, r, c; vm_compute; reflexivity.
Qed.
Lemma equal_columns f : exists A B : Matrix4 (flt f), (forall r c, is_finite (mget A r c) = true) /\ (forall r, mget A r I0 = mget A r I1) /\
  m4_inverse (f_elem f) A = Done B /\ forall r c, is_finite (mget B r c) = true.
Proof.
  exists (two_columns f), (get_done (m4_inverse (f_elem f) (two_columns f)) (f_ident f)).
  split; [intros r c; destruct f, r, c; vm_compute; reflexivity|]. split; [intros []; reflexivity|].
  split; [apply done_get; destruct f; vm_compute; reflexivity|]. intros r c; destruct f, r, c; vm_compute; reflexivity.
Qed.
Lemma equal_rows_det (A : Matrix4 R) : (forall c, mget A I0 c = mget A I1 c) -> detR A = 0%R.
Proof. intros H. unfold detR, det_of, minor. rewrite !H. ring. Qed.
Lemma equal_columns_det (A : Matrix4 R) : (forall r, mget A r I0 = mget A r I1) -> detR A = 0%R.
Proof. intros H. unfold detR, det_of, minor. rewrite !H. ring. Qed.
Lemma regular_panics f : exists A : Matrix4 (flt f), (forall r c, is_finite (mget A r c) = true) /\ detR (m_real A) <> 0%R /\
  m4_inverse (f_elem f) A = Panic.
Proof.
  exists (corner_small f). split; [intros r c; destruct f, r, c; vm_compute; reflexivity|]. split; [|destruct f; vm_compute; reflexivity].
  unfold m_real, detR, det_of, minor. rewrite !mget_mkm. cbn [corner_small ints mget vget w0 w1 w2 w3].
  rewrite (proj1 (zero_val f)), (proj1 (one_val f)).
  assert (Z : B2R (small f) <> 0%R).
  { rewrite <- (proj1 (zero_val f)). apply value_ne; destruct f; vm_compute; reflexivity. }
  match goal with |- ?e <> _ => replace e with (- (B2R (small f) * B2R (small f)))%R by ring end.
  intros X. apply Ropp_eq_0_compat in X. rewrite Ropp_involutive in X. apply Rmult_integral in X. tauto.
Qed.
Lemma zero_row_returns f : exists A B : Matrix4 (flt f), (forall r c, is_finite (mget A r c) = true) /\
  (forall c, B2R (mget A I3 c) = 0%R) /\ (forall r, B2R (mget A r I3) = 0%R) /\ m4_inverse (f_elem f) A = Done B.
Proof.
  exists (last_zero f), (get_done (m4_inverse (f_elem f) (last_zero f)) (f_ident f)).
  split; [intros r c; destruct f, r, c; vm_compute; reflexivity|].
  split; [intros []; apply (proj1 (zero_val f))|]. split; [intros []; apply (proj1 (zero_val f))|].
  apply done_get; destruct f; vm_compute; reflexivity.
Qed.
Lemma infinite_entry f : exists A B : Matrix4 (flt f), mget A I0 I0 = f_inf f /\ m4_inverse (f_elem f) A = Done B /\
  forall r c, is_finite (mget B r c) = true.
Proof.
  exists (mset (f_ident f) I0 I0 (f_inf f)), (get_done (m4_inverse (f_elem f) (mset (f_ident f) I0 I0 (f_inf f))) (f_ident f)).
  split; [reflexivity|]. split; [apply done_get; destruct f; vm_compute; reflexivity|]. intros r c; destruct f, r, c; vm_compute; reflexivity.
Qed.
