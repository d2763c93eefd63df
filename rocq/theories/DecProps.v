(** Consequences for whole texts. *)
From Coq Require Import ZArith Reals Lia Lra.
From Flocq Require Import Core.Core IEEE754.BinarySingleNaN.
From Verif Require Import Base TokModel ParModel LexSpec SceneSpec SceneObs FloatInst FloatLit OpsSpec PrintSpec DecSpec DecThms DecText DecConv DecExp.
Local Open Scope R_scope.

Section Props.
Variables (f : fmt) (pw : flt f -> flt f) (cc : CharClass) (Hcc : cc_ok cc) (chk : bool).
Notation fo := (fo_ieee f pw).
Notation den text z := (tokenize fo cc chk text = Done (Ok [mkTok (mkPos 1 1) (TFloat z)])).
Lemma den_rounds text neg x (z : flt f) : decimal_text text neg x -> den text z -> rounds_to f x z /\ Bsign z = neg.
Proof.
  intros H D. destruct (literal_nearest f pw cc Hcc chk text neg x H) as (z' & D' & R). rewrite D in D'. injection D' as <-. exact R.
Qed.
Lemma den_closest text neg x z : decimal_text text neg x -> den text z -> is_finite z = true ->
  forall y : flt f, is_finite y = true -> Rabs (B2R z - x) <= Rabs (B2R y - x).
Proof. intros H D Hf. apply (rounds_closest f x z); [|assumption]. now apply (den_rounds text neg). Qed.
Lemma den_exact text (y : flt f) : is_finite y = true -> decimal_text text (Bsign y) (B2R y) -> den text y.
Proof.
  intros Hf H. destruct (literal_nearest f pw cc Hcc chk text _ _ H) as (z & D & R & S). now rewrite <- (rounds_self f y z Hf R S).
Qed.
Lemma den_every (y : flt f) : is_nan y = false -> exists text, den text y.
Proof.
  intros Hn. destruct (float_has_text f y Hn) as (sg & neg & body & m & k & Hs & Hd & Hi & E). exists (sg ++ body).
  assert (H : decimal_text (sg ++ body) neg (decimal neg m k)) by (unfold decimal_text; eauto 10).
  destruct (literal_nearest f pw cc Hcc chk _ _ _ H) as (z & D & R & S). replace y with z; [exact D|].
  destruct (dec_rounds f neg m k) as (R' & S' & _). rewrite E. apply (rounds_det f (decimal neg m k)); auto. now rewrite S'.
Qed.
Lemma den_same t1 t2 neg x z1 z2 : decimal_text t1 neg x -> decimal_text t2 neg x -> den t1 z1 -> den t2 z2 -> z1 = z2.
Proof.
  intros H1 H2 D1 D2. destruct (den_rounds _ _ _ _ H1 D1) as [R1 S1]. destruct (den_rounds _ _ _ _ H2 D2) as [R2 S2].
  apply (rounds_det f x); auto. now rewrite S1.
Qed.
Lemma den_mono t1 t2 n1 n2 x1 x2 z1 z2 : decimal_text t1 n1 x1 -> decimal_text t2 n2 x2 -> den t1 z1 -> den t2 z2 ->
  x1 <= x2 -> Bleb z1 z2 = true.
Proof. intros H1 H2 D1 D2. apply rounds_mono; [now apply (den_rounds t1 n1)|now apply (den_rounds t2 n2)]. Qed.
Lemma den_finite text neg x z : decimal_text text neg x -> den text z -> (is_finite z = true <-> Rabs x < overflow_limit f).
Proof. intros H D. apply rounds_finite_iff. now apply (den_rounds text neg). Qed.
Lemma int_as_float p i : exists z, parse_float fo (mkPr [mkTok p (TInt i)] 0) = Done (Ok z, mkPr [mkTok p (TInt i)] 1) /\
  rounds_to f (IZR i) z.
Proof. eexists. split; [reflexivity|]. apply int_rounds. Qed.
Lemma good_inf : good_powf f pw -> pw (f_of_int f 400) = B754_infinity false.
Proof. intros H. rewrite (pow_at f pw H) by lia. destruct f; vm_compute; reflexivity. Qed.
Lemma expressible_good : good_powf f pw -> forall x, (exists text y, parse fo cc chk text = Done (Ok y) /\ erase_scene y = erase_scene x) <->
  printable x /\ fitting x /\ named cc x.
Proof. intros H. apply expressible_iff; [assumption|]. now apply good_inf. Qed.
End Props.
