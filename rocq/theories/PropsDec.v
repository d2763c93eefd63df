(** Property theorems about float literals and the texts of scenes: C78-C80. Nothing but statements, examples and
    [Print Assumptions]. Floats are IEEE f32 or f64; [pw] is Float::powf(10.0, _). *)
From Coq Require Import ZArith Reals Lia Lra SpecFloat.
From Flocq Require Import Core.Core IEEE754.BinarySingleNaN.
From Verif Require Import Base TokModel ParModel LexSpec SceneObs FloatInst FloatLit OpsSpec PrintSpec DecSpec
  DecThms DecText DecConv DecExp DecProps.
Local Open Scope R_scope.

(** ** C78: literals without exponent *)
Theorem C78_literal_nearest : forall f pw cc, cc_ok cc -> forall chk text neg x, decimal_text text neg x ->
  exists z : flt f, tokenize (fo_ieee f pw) cc chk text = Done (Ok [mkTok (mkPos 1 1) (TFloat z)]) /\ rounds_to f x z /\ Bsign z = neg.
Proof. exact literal_nearest. Qed.
Print Assumptions C78_literal_nearest.
(** The same for every float token of any text. *)
Theorem C78_token_nearest : forall f pw cc chk text (z : flt f) rest,
  lexeme (fo_ieee f pw) cc chk text (TFloat z) rest -> ~ In c_e text ->
  exists neg x, decimal_text text neg x /\ rounds_to f x z /\ Bsign z = neg.
Proof. exact tokens_nearest. Qed.
Print Assumptions C78_token_nearest.
Theorem C78_closest : forall f pw cc, cc_ok cc -> forall chk text neg x (z : flt f), decimal_text text neg x ->
  tokenize (fo_ieee f pw) cc chk text = Done (Ok [mkTok (mkPos 1 1) (TFloat z)]) -> is_finite z = true ->
  forall y : flt f, is_finite y = true -> Rabs (B2R z - x) <= Rabs (B2R y - x).
Proof. exact den_closest. Qed.
Print Assumptions C78_closest.
(** A literal for the exact value of a float denotes that float, -0.0 included. *)
Theorem C78_exact : forall f pw cc, cc_ok cc -> forall chk text (y : flt f), is_finite y = true ->
  decimal_text text (Bsign y) (B2R y) -> tokenize (fo_ieee f pw) cc chk text = Done (Ok [mkTok (mkPos 1 1) (TFloat y)]).
Proof. exact den_exact. Qed.
Print Assumptions C78_exact.
Theorem C78_every_float : forall f pw cc, cc_ok cc -> forall chk (y : flt f), is_nan y = false ->
  exists text, tokenize (fo_ieee f pw) cc chk text = Done (Ok [mkTok (mkPos 1 1) (TFloat y)]).
Proof. exact den_every. Qed.
Print Assumptions C78_every_float.
(** Leading and trailing zeros, a plus sign: the spelling does not matter. *)
Theorem C78_spelling : forall f pw cc, cc_ok cc -> forall chk t1 t2 neg x (z1 z2 : flt f),
  decimal_text t1 neg x -> decimal_text t2 neg x ->
  tokenize (fo_ieee f pw) cc chk t1 = Done (Ok [mkTok (mkPos 1 1) (TFloat z1)]) ->
  tokenize (fo_ieee f pw) cc chk t2 = Done (Ok [mkTok (mkPos 1 1) (TFloat z2)]) -> z1 = z2.
Proof. exact den_same. Qed.
Print Assumptions C78_spelling.
Theorem C78_monotone : forall f pw cc, cc_ok cc -> forall chk t1 t2 n1 n2 x1 x2 (z1 z2 : flt f),
  decimal_text t1 n1 x1 -> decimal_text t2 n2 x2 ->
  tokenize (fo_ieee f pw) cc chk t1 = Done (Ok [mkTok (mkPos 1 1) (TFloat z1)]) ->
  tokenize (fo_ieee f pw) cc chk t2 = Done (Ok [mkTok (mkPos 1 1) (TFloat z2)]) -> x1 <= x2 -> Bleb z1 z2 = true.
Proof. exact den_mono. Qed.
Print Assumptions C78_monotone.
(** A literal is infinite exactly from the middle between the largest float and the next power of two on. *)
Theorem C78_overflow : forall f pw cc, cc_ok cc -> forall chk text neg x (z : flt f), decimal_text text neg x ->
  tokenize (fo_ieee f pw) cc chk text = Done (Ok [mkTok (mkPos 1 1) (TFloat z)]) ->
  (is_finite z = true <-> Rabs x < overflow_limit f).
Proof. exact den_finite. Qed.
Print Assumptions C78_overflow.
(** An integer where a float is expected. *)
Theorem C78_int : forall f pw p i, exists z : flt f,
  parse_float (fo_ieee f pw) (mkPr [mkTok p (TInt i)] 0) = Done (Ok z, mkPr [mkTok p (TInt i)] 1) /\ rounds_to f (IZR i) z.
Proof. exact int_as_float. Qed.
Print Assumptions C78_int.
Example C78_example_text : decimal_text (s2l "-12.50") true (- (25 / 2)).
Proof.
  exists [c_minus], (s2l "12.50"), 1250%N, 2%nat. split; [reflexivity|]. split; [constructor|].
  split; [apply (dn_dot (s2l "12") (s2l "50")); [discriminate|repeat constructor..]|]. split; [cbn; tauto|].
  change (- (25 / 2) = IZR (-1250) / (10 * (10 * 1))). lra.
Qed.
(** What the tokenizer makes of some literals: as f32 0.1 is 13421773 * 2^-27. *)
Definition token_of f (s : string) : list spec_float :=
  match tokenize (fo_ieee f (powf_ref f)) cc_ascii true (s2l s) with
  | Done (Ok l) => map (fun t => match tok_ty t with TFloat z => B2SF z | _ => S754_nan end) l
  | _ => []
  end.
Example C78_example_values :
  token_of F32 "0.1" = [S754_finite false 13421773 (-27)] /\ token_of F32 "+000.1000" = [S754_finite false 13421773 (-27)] /\
  token_of F64 "-0.0" = [S754_zero true] /\ token_of F32 "-12.50" = [S754_finite true 13107200 (-20)] /\
  token_of F32 "340282346638528859811704183484516925440.0" = [S754_finite false 16777215 104] /\
  token_of F32 "340282356779733661637539395458142568448.0" = [S754_infinity false].
Proof. repeat split; vm_compute; reflexivity. Qed.

(** ** C79: literals with an exponent *)
(** Even if the power of ten is the best possible, the literal need not be the nearest float: 0.1e-1. *)
Theorem C79_exponent_nearest_refuted : forall f pw cc, cc_ok cc -> good_powf f pw -> forall chk, exists text neg a e (z : flt f),
  exponent_text text neg a e /\ tokenize (fo_ieee f pw) cc chk text = Done (Ok [mkTok (mkPos 1 1) (TFloat z)]) /\
  ~ rounds_to f (a * powerRZ 10 e) z.
Proof. exact not_nearest. Qed.
Print Assumptions C79_exponent_nearest_refuted.
(** A literal for zero can be NaN: 0.0e400. *)
Theorem C79_not_nan_refuted : forall f pw cc, cc_ok cc -> good_powf f pw -> forall chk, exists text neg a e,
  exponent_text text neg a e /\ a * powerRZ 10 e = 0 /\
  tokenize (fo_ieee f pw) cc chk text = Done (Ok [mkTok (mkPos 1 1) (TFloat (B754_nan : flt f))]).
Proof. exact literal_nan. Qed.
Print Assumptions C79_not_nan_refuted.
(** A value in range can be infinite, and one that is not small enough can be zero. *)
Theorem C79_no_overflow_refuted : forall f pw cc, cc_ok cc -> good_powf f pw -> forall chk, exists text neg a e (z : flt f),
  exponent_text text neg a e /\ Rabs (a * powerRZ 10 e) < overflow_limit f /\
  tokenize (fo_ieee f pw) cc chk text = Done (Ok [mkTok (mkPos 1 1) (TFloat z)]) /\ is_finite z = false.
Proof. exact literal_infinite. Qed.
Print Assumptions C79_no_overflow_refuted.
Theorem C79_no_underflow_refuted : forall f pw cc, cc_ok cc -> good_powf f pw -> forall chk, exists text neg a e (z : flt f),
  exponent_text text neg a e /\ ~ rounds_to f (a * powerRZ 10 e) z /\
  tokenize (fo_ieee f pw) cc chk text = Done (Ok [mkTok (mkPos 1 1) (TFloat z)]) /\ B2R z = 0.
Proof. exact literal_zero. Qed.
Print Assumptions C79_no_underflow_refuted.
(** What holds: away from the ends of the range the relative error is that of three roundings. *)
Theorem C79_error_partial : forall f pw cc, cc_ok cc -> good_powf f pw -> forall chk text neg a e,
  exponent_text text neg a e -> (Z.abs e <= 400)%Z ->
  least_normal f <= Rabs a < overflow_limit f -> least_normal f <= powerRZ 10 e < overflow_limit f ->
  2 * least_normal f <= Rabs (a * powerRZ 10 e) <= bpow radix2 (femax f - 1) ->
  exists z : flt f, tokenize (fo_ieee f pw) cc chk text = Done (Ok [mkTok (mkPos 1 1) (TFloat z)]) /\ is_finite z = true /\
    Rabs (B2R z - a * powerRZ 10 e) <= ((1 + unit_error f) ^ 3 - 1) * Rabs (a * powerRZ 10 e).
Proof. exact exponent_bound. Qed.
Print Assumptions C79_error_partial.
(** If the mantissa and the power are floats, the literal is the nearest float: 12.5e3. *)
Theorem C79_exact_factors_partial : forall f pw cc, cc_ok cc -> good_powf f pw -> forall chk text neg a e,
  exponent_text text neg a e -> (Z.abs e <= 400)%Z ->
  (exists y : flt f, is_finite y = true /\ B2R y = a) -> (exists y : flt f, is_finite y = true /\ B2R y = powerRZ 10 e) ->
  exists z : flt f, tokenize (fo_ieee f pw) cc chk text = Done (Ok [mkTok (mkPos 1 1) (TFloat z)]) /\
    rounds_to f (a * powerRZ 10 e) z /\ Bsign z = neg.
Proof. exact exponent_exact. Qed.
Print Assumptions C79_exact_factors_partial.
Example C79_example_powf : forall f, good_powf f (powf_ref f).
Proof. exact powf_ref_good. Qed.
Example C79_example_text : exponent_text (s2l "12.5e3") false (25 / 2) 3.
Proof.
  exists [], (s2l "12.5"), 125%N, 1%nat, [], false, (s2l "3"). split; [reflexivity|]. split; [constructor|].
  split; [apply (dn_dot (s2l "12") (s2l "5")); [discriminate|repeat constructor..]|]. split; [constructor|].
  split; [split; [discriminate|]; split; [repeat constructor|]; split; [reflexivity|unfold fits; lia]|]. split; [cbn; tauto|].
  change (25 / 2 = IZR 125 / (10 * 1)). lra.
Qed.
Example C79_example_values :
  token_of F32 "12.5e3" = token_of F32 "12500.0" /\ token_of F64 "3.0e-1" = token_of F64 "0.30000000000000004" /\
  token_of F64 "3.0e-1" <> token_of F64 "0.3" /\ token_of F32 "0.0e400" = [S754_nan] /\
  token_of F32 "0.01e39" = [S754_infinity false] /\ token_of F32 "10.0e-46" = [S754_zero false].
Proof. repeat split; try (vm_compute; reflexivity). vm_compute. discriminate. Qed.

(** ** C80: the scenes a text can denote *)
(** Exactly the printable scenes whose integers fit and whose ActiveTransform names are identifiers. *)
Theorem C80_expressible : forall f pw cc, cc_ok cc -> forall chk, good_powf f pw -> forall x,
  (exists text y, parse (fo_ieee f pw) cc chk text = Done (Ok y) /\ erase_scene y = erase_scene x) <->
  printable x /\ fitting x /\ named cc x.
Proof. exact expressible_good. Qed.
Print Assumptions C80_expressible.
(** Without any assumption about the power function: the scenes without NaN. *)
Theorem C80_without_nan : forall f pw cc, cc_ok cc -> forall chk (x : list (PreDirective (flt f)) * Directive (flt f)),
  printable x -> fitting x -> named cc x -> Forall (fun z => is_nan z = false) (scene_floats x) ->
  exists text y, parse (fo_ieee f pw) cc chk text = Done (Ok y) /\ erase_scene y = erase_scene x.
Proof. exact expressible_if. Qed.
Print Assumptions C80_without_nan.
(** Every number of a parsed scene comes from a literal. *)
Theorem C80_contents : forall F (fo : FloatOps F) cc, cc_ok cc -> forall chk text x, parse fo cc chk text = Done (Ok x) ->
  printable x /\ fitting x /\ named cc x /\
  Forall (fun z => (exists t rest, lexeme fo cc chk t (TFloat z) rest) \/ (exists i, fits i /\ z = f_of_isize fo i)) (scene_floats x).
Proof. intros F fo. exact (text_content fo). Qed.
Print Assumptions C80_contents.
Definition scene_80 : list (PreDirective (flt F32)) * Directive (flt F32) :=
  ([PTransformTimes pos0 (B754_zero true) (B754_infinity false); PActiveTransform pos0 (s2l "All")], DWorld pos0 [DInclude pos0 (s2l "a")]).
Example C80_example : printable scene_80 /\ fitting scene_80 /\ named cc_ascii scene_80 /\ length (scene_floats scene_80) = 2%nat.
Proof.
  assert (A : forall ps, all_params scene_80 ps -> False).
  { intros ps [(d & Hd & E)|(d & Hd & E)]; cbn in Hd; decompose [or] Hd; subst; try discriminate; contradiction. }
  split; [split; [exact I|split; [intros ps H; now apply A in H|repeat constructor]]|].
  split; [intros ps H; now apply A in H|]. split; [|reflexivity].
  intros p w [H|[H|[]]]; [discriminate|]. injection H as _ <-. exists 65%N, (s2l "ll"). repeat split. repeat constructor.
Qed.
