(** The two build profiles: whatever the checked build returns, the unchecked build returns too. *)
From Verif Require Import Base TokModel ParModel.
Open Scope mon_scope.

Definition below {A} (o1 o2 : out A) : Prop := forall x, o1 = Done x -> o2 = Done x.
Definition below_m {S A} (f g : M S A) : Prop := forall s, below (f s) (g s).

Lemma below_refl {A} (o : out A) : below o o. Proof. now intros x. Qed.
Lemma below_m_refl {S A} (f : M S A) : below_m f f. Proof. intros s. apply below_refl. Qed.
Lemma below_bind {S A B} (f g : M S A) (h k : A -> M S B) :
  below_m f g -> (forall a, below_m (h a) (k a)) -> below_m (bind f h) (bind g k).
Proof.
  intros H1 H2 s x. unfold bind. destruct (f s) as [[a s']| |] eqn:E; try discriminate.
  rewrite (H1 _ _ E). apply H2.
Qed.
Lemma below_tryb {S A B E} (f g : M S (result A E)) (h k : A -> M S (result B E)) :
  below_m f g -> (forall a, below_m (h a) (k a)) -> below_m (tryb f h) (tryb g k).
Proof. intros H1 H2. apply below_bind; [assumption|]. intros [a|e]; [apply H2|apply below_m_refl]. Qed.
Lemma below_lift {S A} (f g : out A) : below f g -> below_m (@lift S A f) (lift g).
Proof. intros H s x. unfold lift. destruct f; try discriminate. now rewrite (H _ eq_refl). Qed.
Lemma below_arith z : below (arith true z) (arith false z).
Proof. intros x. unfold arith. destruct (in_range z); [trivial|discriminate]. Qed.

Section Sim.
Context {F : Type} (fo : FloatOps F) (cc : CharClass).

Ltac sim := repeat match goal with
  | |- below_m ?f ?f => apply below_m_refl
  | |- below_m (bind _ _) _ => apply below_bind; [|intros ?]
  | |- below_m (tryb _ _) _ => apply below_tryb; [|intros ?]
  | |- below_m (lift _) _ => apply below_lift
  | |- below (arith _ _) _ => apply below_arith
  | |- below_m (match ?x with _ => _ end) _ => destruct x
  | |- below_m (if ?x then _ else _) _ => destruct x
  end.

Lemma sim_exponent p nc b ex : below_m (num_exponent fo true p nc b ex) (num_exponent fo false p nc b ex).
Proof. unfold num_exponent, isize_pow10, isize_mul. sim. Qed.
Lemma sim_loop n : forall p nc b, below_m (num_loop fo cc true n p nc b) (num_loop fo cc false n p nc b).
Proof.
  induction n as [|n IH]; intros p nc b; cbn [num_loop]; [apply below_m_refl|]. unfold num_prelude.
  sim; first [apply IH | apply sim_exponent].
Qed.
Lemma sim_num n : below_m (tokenize_num fo cc true n) (tokenize_num fo cc false n).
Proof. unfold tokenize_num, num_prelude. sim. apply sim_loop. Qed.
Lemma sim_one n : below_m (tokenize_one fo cc true n) (tokenize_one fo cc false n).
Proof. induction n as [|n IH]; cbn [tokenize_one]; [apply below_m_refl|]. sim; first [apply IH | apply sim_num]. Qed.
Lemma sim_tokenize_loop n : forall acc, below_m (tokenize_loop fo cc true n acc) (tokenize_loop fo cc false n acc).
Proof. induction n as [|n IH]; intros acc; cbn [tokenize_loop]; [apply below_m_refl|]. sim; first [apply IH | apply sim_one]. Qed.
Lemma sim_tokenize input r : tokenize fo cc true input = Done r -> tokenize fo cc false input = Done r.
Proof.
  unfold tokenize. destruct (tokenize_loop fo cc true _ [] (tk_new input)) as [[r' st]| |] eqn:E; try discriminate.
  intros [= ->]. now rewrite (sim_tokenize_loop _ _ _ _ E).
Qed.
Lemma sim_parse input r : parse fo cc true input = Done r -> parse fo cc false input = Done r.
Proof.
  unfold parse. destruct (tokenize fo cc true input) as [r'| |] eqn:E; try discriminate. now rewrite (sim_tokenize _ _ E).
Qed.
End Sim.
