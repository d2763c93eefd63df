(** Sums, products and transposes of matrices. *)
From Coq Require Import ZArith Lia Reals Qcanon Ring_theory Ring Field_theory Field.
From Flocq Require Import IEEE754.BinarySingleNaN.
From Verif Require Import Base Elem GeoModel MatModel MatSpec GeoSpec ArithSpec FloatInst ExactInst IntThms.
Local Open Scope mon_scope.

Lemma mget_mkm {A} (f : ix -> ix -> A) r c : mget (mkm f) r c = f r c.
Proof. destruct r, c; reflexivity. Qed.
Lemma mat_eta {A} (m : Matrix4 A) : m = mkm (mget m).
Proof. destruct m as [[] [] [] []]. reflexivity. Qed.
Lemma mkm_ext {A} (f g : ix -> ix -> A) : (forall r c, f r c = g r c) -> mkm f = mkm g.
Proof. intros H. unfold mkm, mk4. now rewrite !H. Qed.
Lemma mat_ext {A} (a b : Matrix4 A) : (forall r c, mget a r c = mget b r c) -> a = b.
Proof. intros H. rewrite (mat_eta a), (mat_eta b). now apply mkm_ext. Qed.

(** ** The double loop that fills a matrix *)
Definition fill {A} (z : A) (f : ix -> ix -> out A) : out (Matrix4 A) :=
  for4 (vconst (vconst z)) (fun r mat => for4 mat (fun c mat => x <~ f r c ;; !(mset mat r c x))).
Lemma fill_done {A} (z : A) f g : (forall r c, f r c = Done (g r c)) -> fill z f = Done (mkm g).
Proof. intros H. unfold fill, for4. rewrite !H. reflexivity. Qed.
Ltac step1 := match goal with |- context [obind (?f ?r ?c) _] => is_var f; let q := fresh "Q" in destruct (f r c) eqn:q; cbn [obind] end.
Lemma fill_inv {A} (z : A) f m : fill z f = Done m -> forall r c, f r c = Done (mget m r c).
Proof.
  unfold fill, for4. intros H. revert H. do 16 (step1; [|discriminate|discriminate]). intros [= <-] r c. destruct r, c; cbn; congruence.
Qed.
Lemma fill_cases {A} (z : A) f : (forall r c, f r c <> OutOfFuel) ->
  (exists m, fill z f = Done m) \/ (fill z f = Panic /\ exists r c, f r c = Panic).
Proof.
  intros N. unfold fill, for4.
  do 16 (step1; [|right; split; [reflexivity|eauto]|exfalso; eapply N; eassumption]). left. eauto.
Qed.
Lemma transpose_get {A} (m : Matrix4 A) r c : mget (m4_transpose m) r c = mget m c r.
Proof. destruct r, c; reflexivity. Qed.
Lemma transpose_mkm {A} (f : ix -> ix -> A) : m4_transpose (mkm f) = mkm (fun r c => f c r).
Proof. reflexivity. Qed.
Lemma transpose_invol {A} (m : Matrix4 A) : m4_transpose (m4_transpose m) = m.
Proof. apply mat_ext. intros. now rewrite !transpose_get. Qed.
Lemma fill_transpose {A} (z : A) f : (forall r c, f r c <> OutOfFuel) ->
  (m <~ fill z f ;; !(m4_transpose m)) = fill z (fun r c => f c r).
Proof.
  intros N. destruct (fill_cases z f N) as [[m H]|[H (r & c & K)]].
  - rewrite H. cbn [obind]. rewrite (fill_done z (fun r c => f c r) (fun r c => mget m c r)).
    + reflexivity.
    + intros r c. apply (fill_inv _ _ _ H).
  - rewrite H. cbn [obind]. destruct (fill_cases z (fun r c => f c r)) as [[m M]|[M _]]; [now intros ? ?|..|now rewrite M].
    pose proof (fill_inv _ _ _ M c r) as X. cbn in X. congruence.
Qed.
Lemma fill_ext {A} (z : A) f g : (forall r c, f r c = g r c) -> fill z f = fill z g.
Proof. intros H. unfold fill, for4. now rewrite !H. Qed.

(** ** Entries of products and sums *)
Section Cells.
  Context {T : Type} (E : Elem T).
  Definition cell (a b : Matrix4 T) r c : out T :=
    for4 (e_from_int E 0) (fun i acc => p <~ e_mul E (mget a r i) (mget b i c) ;; e_add E acc p).
  Lemma mul_fill a b : m4_mul E a b = fill (e_from_int E 0) (cell a b). Proof. reflexivity. Qed.
  Lemma add_fill a b : m4_add E a b = fill (e_from_int E 0) (fun r c => e_add E (mget a r c) (mget b r c)). Proof. reflexivity. Qed.
  Lemma cell_lift a b r c : cell a b r c =
    !(e_from_int E 0) +[E] !(mget a r I0) *[E] !(mget b I0 c) +[E] !(mget a r I1) *[E] !(mget b I1 c)
      +[E] !(mget a r I2) *[E] !(mget b I2 c) +[E] !(mget a r I3) *[E] !(mget b I3 c).
  Proof.
    unfold cell, for4, lift2. cbn [obind].
    destruct (e_mul E (mget a r I0) (mget b I0 c)); cbn [obind]; auto. destruct (e_add E (e_from_int E 0) a0); cbn [obind]; auto.
    destruct (e_mul E (mget a r I1) (mget b I1 c)); cbn [obind]; auto. destruct (e_add E a1 a2); cbn [obind]; auto.
  Qed.
  (** Products are reversed by transposition whenever multiplication commutes. *)
  Hypothesis comm : forall x y, e_mul E x y = e_mul E y x.
  Hypothesis mul_total : forall x y, e_mul E x y <> OutOfFuel.
  Hypothesis add_total : forall x y, e_add E x y <> OutOfFuel.
  Lemma lift2_total op (m n : out T) : m <> OutOfFuel -> n <> OutOfFuel -> (forall x y, op x y <> OutOfFuel) -> lift2 op m n <> OutOfFuel.
  Proof. intros Hm Hn Ho. unfold lift2. destruct m; cbn; try congruence. destruct n; cbn; congruence || auto. Qed.
  Lemma cell_total a b r c : cell a b r c <> OutOfFuel.
  Proof. rewrite cell_lift. repeat (apply lift2_total; auto); discriminate. Qed.
  Lemma cell_comm a b r c : cell (m4_transpose b) (m4_transpose a) r c = cell a b c r.
  Proof. unfold cell, for4. rewrite !transpose_get. now rewrite !(comm (mget b _ r)). Qed.
  Lemma transpose_mul a b : (m <~ m4_mul E a b ;; !(m4_transpose m)) = m4_mul E (m4_transpose b) (m4_transpose a).
  Proof.
    rewrite !mul_fill, fill_transpose by apply cell_total. apply fill_ext. intros r c. symmetry. apply cell_comm.
  Qed.
  Lemma transpose_add a b : (m <~ m4_add E a b ;; !(m4_transpose m)) = m4_add E (m4_transpose a) (m4_transpose b).
  Proof.
    rewrite !add_fill, fill_transpose by (intros; apply add_total). apply fill_ext. intros r c. now rewrite !transpose_get.
  Qed.
End Cells.

Lemma arith_total chk z : arith chk z <> OutOfFuel.
Proof. unfold arith. destruct (in_range z), chk; discriminate. Qed.
Lemma Bmult_comm' f (x y : flt f) : f_mult x y = f_mult y x.
Proof.
  unfold f_mult, flt in *. destruct x as [[]|[]| |[] mx ex Hx], y as [[]|[]| |[] my ey Hy]; try reflexivity;
    unfold Bmult; apply B2SF_inj; rewrite !B2SF_SF2B; cbn [xorb]; now rewrite Pos.mul_comm, Z.add_comm.
Qed.
Lemma ty_comm ty x y : e_mul (elem ty) x y = e_mul (elem ty) y x.
Proof.
  destruct ty as [f|chk]; cbn [elem] in *; cbn [e_mul f_elem i64].
  - f_equal. apply Bmult_comm'.
  - now rewrite Z.mul_comm.
Qed.
Lemma ty_mul_total ty x y : e_mul (elem ty) x y <> OutOfFuel.
Proof. destruct ty as [f|chk]; [discriminate|apply arith_total]. Qed.
Lemma ty_add_total ty x y : e_add (elem ty) x y <> OutOfFuel.
Proof. destruct ty as [f|chk]; [discriminate|apply arith_total]. Qed.
Lemma transpose_mul_ty ty (a b : Matrix4 (car ty)) :
  (m <~ m4_mul (elem ty) a b ;; !(m4_transpose m)) = m4_mul (elem ty) (m4_transpose b) (m4_transpose a).
Proof. apply transpose_mul; [apply ty_comm|apply ty_mul_total|apply ty_add_total]. Qed.
Lemma transpose_add_ty ty (a b : Matrix4 (car ty)) :
  (m <~ m4_add (elem ty) a b ;; !(m4_transpose m)) = m4_add (elem ty) (m4_transpose a) (m4_transpose b).
Proof. apply transpose_add, ty_add_total. Qed.

(** ** Commutative rings *)
Section Rings.
  Context {A : Type} (zero one : A) (add mul sub : A -> A -> A) (opp : A -> A).
  Hypothesis RT : ring_theory zero one add mul sub opp eq.
  Add Ring A_ring : RT.
  Notation prod := (prod_of add mul). Notation summ := (sum_of add). Notation ident := (ident_of zero one).
  Ltac entries := intros; apply mat_ext; let r := fresh "r" in let k := fresh "k" in intros r k; unfold prod_of, sum_of, ident_of, sum4; rewrite ?mget_mkm.
  Lemma prod_assoc a b c : prod (prod a b) c = prod a (prod b c). Proof. entries. ring. Qed.
  Lemma prod_sum_l a b c : prod a (summ b c) = summ (prod a b) (prod a c). Proof. entries. ring. Qed.
  Lemma prod_sum_r a b c : prod (summ a b) c = summ (prod a c) (prod b c). Proof. entries. ring. Qed.
  Lemma prod_id_l a : prod ident a = a. Proof. entries. destruct r; cbn [ix_eqb]; ring. Qed.
  Lemma prod_id_r a : prod a ident = a. Proof. entries. destruct k; cbn [ix_eqb]; ring. Qed.
  Lemma prod_transpose a b : m4_transpose (prod a b) = prod (m4_transpose b) (m4_transpose a).
  Proof. apply mat_ext; intros r c. rewrite transpose_get. unfold prod_of, sum4. rewrite ?mget_mkm, !transpose_get. ring. Qed.
  Lemma ident_transpose : m4_transpose ident = ident.
  Proof. apply mat_ext; intros r c. rewrite transpose_get. unfold ident_of. rewrite !mget_mkm. destruct r, c; reflexivity. Qed.
  (** The code's product, for an element type whose operations are these. *)
  Context (E : Elem A).
  Hypothesis E_add : forall x y, e_add E x y = Done (add x y).
  Hypothesis E_mul : forall x y, e_mul E x y = Done (mul x y).
  Hypothesis E_0 : e_from_int E 0 = zero.
  Lemma mul_pure a b : m4_mul E a b = Done (prod a b).
  Proof.
    rewrite mul_fill. apply fill_done. intros r c. unfold cell, for4. rewrite E_0. repeat (rewrite ?E_add, ?E_mul; cbn [obind]).
    f_equal. unfold sum4. ring.
  Qed.
  Lemma add_pure a b : m4_add E a b = Done (summ a b).
  Proof. rewrite add_fill. apply fill_done. intros r c. apply E_add. Qed.
End Rings.
Lemma mulR a b : m4_mul r_elem a b = Done (prodR a b). Proof. eapply mul_pure; [apply RTheory|reflexivity..]. Qed.
Lemma addR a b : m4_add r_elem a b = Done (sumR a b). Proof. eapply add_pure; reflexivity. Qed.
Lemma mulQ a b : m4_mul q_elem a b = Done (prodQ a b). Proof. eapply mul_pure; [apply Qcrt|reflexivity..]. Qed.
Lemma addQ a b : m4_add q_elem a b = Done (sumQ a b). Proof. eapply add_pure; reflexivity. Qed.

(** ** Integers *)
Lemma cell_exact chk a b r c : mat_range a -> mat_range b -> exactly chk (mget (prodZ a b) r c) (cell (i64 chk) a b r c).
Proof.
  intros Ha Hb. rewrite cell_lift. unfold prodZ, prod_of. rewrite mget_mkm. unfold sum4.
  replace (mget a r I0 * mget b I0 c)%Z with (0 + mget a r I0 * mget b I0 c)%Z by reflexivity.
  repeat first [apply ex_add | apply ex_mul | apply ex_leaf; first [reflexivity|apply Ha|apply Hb]].
Qed.
Lemma mul_exact_checked a b : mat_range a -> mat_range b ->
  m4_mul (i64 true) a b = Panic \/ (m4_mul (i64 true) a b = Done (prodZ a b) /\ mat_range (prodZ a b)).
Proof.
  intros Ha Hb. rewrite mul_fill. destruct (fill_cases (e_from_int (i64 true) 0) (cell (i64 true) a b)) as [[m M]|[M _]].
  - intros r c. apply cell_total; intros; apply arith_total.
  - right. assert (K : forall r c, mget m r c = mget (prodZ a b) r c /\ in_range (mget (prodZ a b) r c) = true).
    { intros r c. pose proof (fill_inv _ _ _ M r c) as X. destruct (cell_exact true a b r c Ha Hb) as [Y|[Y Z]]; split; congruence. }
    split; [|intros r c; apply K]. rewrite M. f_equal. apply mat_ext. intros. apply K.
  - auto.
Qed.
Lemma mul_wrap a b : mat_range a -> mat_range b -> m4_mul (i64 false) a b = Done (wrapm (prodZ a b)).
Proof. intros Ha Hb. rewrite mul_fill. apply fill_done. intros r c. apply (cell_exact false a b r c Ha Hb). Qed.
Lemma add_wrap a b : m4_add (i64 false) a b = Done (wrapm (sumZ a b)).
Proof.
  rewrite add_fill. apply fill_done. intros r c. cbn [e_add i64]. rewrite arith_wrap. unfold sumZ, sum_of. now rewrite mget_mkm.
Qed.
Lemma wrapm_range m : mat_range (wrapm m). Proof. intros r c. unfold wrapm. rewrite mget_mkm. apply wrap_range. Qed.
Lemma wrapm_id m : mat_range m -> wrapm m = m.
Proof. intros H. apply mat_ext. intros r c. unfold wrapm. rewrite mget_mkm. apply wrap_id, H. Qed.
Definition meqm (a b : Matrix4 Z) := forall r c, eqm (2 ^ 64) (mget a r c) (mget b r c).
Lemma meqm_wrap a b : meqm a b -> wrapm a = wrapm b.
Proof. intros H. apply mkm_ext. intros r c. apply wrap_eq, H. Qed.
Lemma wrapm_meqm a : meqm (wrapm a) a.
Proof. intros r c. unfold wrapm. rewrite mget_mkm. apply wrap_cong. Qed.
Lemma meqm_prod a a' b b' : meqm a a' -> meqm b b' -> meqm (prodZ a b) (prodZ a' b').
Proof.
  intros Ha Hb r c. unfold prodZ, prod_of, sum4. rewrite !mget_mkm. repeat (first [apply Zplus_eqm | apply Zmult_eqm | apply Ha | apply Hb]).
Qed.
Lemma meqm_sum a a' b b' : meqm a a' -> meqm b b' -> meqm (sumZ a b) (sumZ a' b').
Proof. intros Ha Hb r c. unfold sumZ, sum_of. rewrite !mget_mkm. apply Zplus_eqm; auto. Qed.
Lemma meqm_refl a : meqm a a. Proof. intros r c. reflexivity. Qed.
Lemma mul_assoc_wrap a b c : mat_range a -> mat_range b -> mat_range c ->
  (p <~ m4_mul (i64 false) a b ;; m4_mul (i64 false) p c) = Done (wrapm (prodZ (prodZ a b) c)) /\
  (p <~ m4_mul (i64 false) b c ;; m4_mul (i64 false) a p) = Done (wrapm (prodZ (prodZ a b) c)).
Proof.
  intros Ha Hb Hc. rewrite !mul_wrap by auto. cbn [obind]. rewrite !mul_wrap by auto using wrapm_range. split; f_equal.
  - apply meqm_wrap, meqm_prod; auto using wrapm_meqm, meqm_refl.
  - transitivity (wrapm (prodZ a (prodZ b c))).
    + apply meqm_wrap, meqm_prod; auto using wrapm_meqm, meqm_refl.
    + f_equal. symmetry. eapply prod_assoc, Zth.
Qed.
Lemma mul_distr_wrap a b c : mat_range a -> mat_range b -> mat_range c ->
  (s <~ m4_add (i64 false) b c ;; m4_mul (i64 false) a s) =
  (p <~ m4_mul (i64 false) a b ;; q <~ m4_mul (i64 false) a c ;; m4_add (i64 false) p q) /\
  (s <~ m4_add (i64 false) a b ;; m4_mul (i64 false) s c) =
  (p <~ m4_mul (i64 false) a c ;; q <~ m4_mul (i64 false) b c ;; m4_add (i64 false) p q).
Proof.
  intros Ha Hb Hc. rewrite !add_wrap, !mul_wrap by auto. cbn [obind]. rewrite !mul_wrap by auto using wrapm_range.
  rewrite !add_wrap. split; f_equal.
  - transitivity (wrapm (prodZ a (sumZ b c))); [apply meqm_wrap, meqm_prod; auto using wrapm_meqm, meqm_refl|].
    transitivity (wrapm (sumZ (prodZ a b) (prodZ a c))); [f_equal; eapply prod_sum_l, Zth|].
    symmetry. apply meqm_wrap, meqm_sum; auto using wrapm_meqm.
  - transitivity (wrapm (prodZ (sumZ a b) c)); [apply meqm_wrap, meqm_prod; auto using wrapm_meqm, meqm_refl|].
    transitivity (wrapm (sumZ (prodZ a c) (prodZ b c))); [f_equal; eapply prod_sum_r, Zth|].
    symmetry. apply meqm_wrap, meqm_sum; auto using wrapm_meqm.
Qed.
Lemma ident_range : mat_range identZ. Proof. intros [] []; reflexivity. Qed.
Lemma prodZ_id_l a : prodZ identZ a = a. Proof. eapply prod_id_l, Zth. Qed.
Lemma prodZ_id_r a : prodZ a identZ = a. Proof. eapply prod_id_r, Zth. Qed.
