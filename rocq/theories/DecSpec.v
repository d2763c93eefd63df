(** Decimal literals and the floats they denote. *)
From Coq Require Import ZArith Reals.
From Flocq Require Import Core.Core IEEE754.BinarySingleNaN.
From Verif Require Import Base TokModel ParModel LexSpec SceneObs FloatInst OpsSpec.

(** The real number (-)m * 10^-k. *)
Definition decimal (neg : bool) (m : N) (k : nat) : R := (IZR (signed neg (Z.of_N m)) / 10 ^ k)%R.
(** [text] is a literal with a dot and without exponent, such as -12.50, whose exact value is [x]. *)
Definition decimal_text (text : str) (neg : bool) (x : R) : Prop :=
  exists sg body m k, text = sg ++ body /\ sign sg neg /\ dec_num body m k /\ In c_dot body /\ x = decimal neg m k.
(** Halfway between the largest float and the next power of two: what is below it still rounds to a finite float. *)
Definition overflow_limit f : R := (bpow radix2 (femax f) - bpow radix2 (femax f - fprec f - 1))%R.
(** [text] is a literal with an exponent, such as -12.5e-3: its value is [a] times 10 to the [e]. *)
Definition exponent_text (text : str) (neg : bool) (a : R) (e : Z) : Prop :=
  exists sg body m k esg eneg ds, text = sg ++ body ++ c_e :: esg ++ ds /\ sign sg neg /\ dec_num body m k /\ sign esg eneg /\
    int_num eneg ds e /\ (In c_dot body \/ (e < 0)%Z) /\ a = decimal neg m k.
(** A power function that is as good as can be at the integers: the float nearest to the power of ten. *)
Definition good_powf f (pw : flt f -> flt f) : Prop := forall (x : flt f) e, is_finite x = true -> B2R x = IZR e ->
  rounds_to f (powerRZ 10 e) (pw x) /\ Bsign (pw x) = false.
(** The smallest normal float and the unit of relative error. *)
Definition least_normal f : R := bpow radix2 (2 - femax f).
Definition unit_error f : R := bpow radix2 (- fprec f).

(** ** Scenes that a text can denote *)
Section Scenes.
Context {F : Type}.
(** The floats of a scene. *)
Definition spectrum_floats (s : Spectrum F) : list F :=
  match s with
  | SpRgb a b c | SpXyz a b c => [a; b; c]
  | SpSpectrum l => flat_map (fun p => [fst p; snd p]) l
  | SpFile _ => []
  | SpBlackbody a b => [a; b]
  end.
Definition params_floats (s : ParamSet F) : list F :=
  flat_map par_values (ps_floats s) ++
  flat_map (fun p => flat_map (fun v => [p2_x _ v; p2_y _ v]) (par_values p)) (ps_point2fs s) ++
  flat_map (fun p => flat_map (fun v => [v2_x _ v; v2_y _ v]) (par_values p)) (ps_vector2fs s) ++
  flat_map (fun p => flat_map spectrum_floats (par_values p)) (ps_spectra s).
Definition v3_floats (v : Vector3f F) : list F := [v3_x _ v; v3_y _ v; v3_z _ v].
Definition row_floats (r : F * F * F) : list F := let '(a, b, c) := r in [a; b; c].
Definition m3_floats (m : Matrix3f F) : list F := row_floats (m3_r0 _ m) ++ row_floats (m3_r1 _ m) ++ row_floats (m3_r2 _ m).
Definition pre_floats (d : PreDirective F) : list F :=
  match d with
  | PTranslate _ v | PScale _ v => v3_floats v
  | PRotate _ a v => a :: v3_floats v
  | PLookAt _ m | PTransform _ m | PConcatTransform _ m => m3_floats m
  | PTransformTimes _ a b => [a; b]
  | _ => match pre_params d with Some s => params_floats s | None => [] end
  end.
Definition dir_floats (d : Directive F) : list F := match dir_params d with Some s => params_floats s | None => [] end.
Definition scene_floats (x : list (PreDirective F) * Directive F) : list F :=
  flat_map pre_floats (fst x) ++ flat_map dir_floats (nodes (snd x)).
(** The integers of a scene, and the names given to ActiveTransform. *)
Definition params_ints (s : ParamSet F) : list Z := flat_map par_values (ps_ints s).
Definition fitting (x : list (PreDirective F) * Directive F) : Prop := forall ps, all_params x ps -> Forall fits (params_ints ps).
Definition named (cc : CharClass) (x : list (PreDirective F) * Directive F) : Prop :=
  forall p w, In (PActiveTransform p w) (fst x) -> identifier cc w [].
End Scenes.
