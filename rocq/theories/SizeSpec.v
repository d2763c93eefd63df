(** How large a scene is. Every node, every parameter, every value and every character of a string counts one. *)
From Verif Require Import Base TokModel ParModel.

Definition sum {A} (f : A -> nat) (l : list A) : nat := list_sum (map f l).

Section Size.
Context {F : Type}.

Definition str_size (s : str) : nat := 1 + length s.
Definition spectrum_size (s : Spectrum F) : nat :=
  match s with
  | SpRgb _ _ _ => 3 | SpXyz _ _ _ => 3 | SpSpectrum l => 2 * length l | SpFile s => str_size s | SpBlackbody _ _ => 2
  end.
Definition param_size {T} (val : T -> nat) (p : Param T) : nat := 1 + length (par_name p) + sum val (par_values p).
Definition params_size {T} (val : T -> nat) (l : list (Param T)) : nat := sum (param_size val) l.
Definition set_size (s : ParamSet F) : nat :=
  params_size (fun _ => 1) (ps_bools s) + params_size (fun _ => 1) (ps_ints s) + params_size (fun _ => 1) (ps_floats s) +
  params_size (fun _ => 2) (ps_point2fs s) + params_size (fun _ => 2) (ps_vector2fs s) +
  params_size (fun _ => 3) (ps_point3fs s) + params_size (fun _ => 3) (ps_vector3fs s) + params_size (fun _ => 3) (ps_normal3fs s) +
  params_size spectrum_size (ps_spectra s) + params_size str_size (ps_strings s) + params_size str_size (ps_textures s).
Definition struct_size (d : DirectiveStruct F) : nat := 1 + str_size (ds_ty d) + set_size (ds_params d).
Fixpoint dir_size (d : Directive F) : nat :=
  match d with
  | DMaterial d | DShape d | DLightSource d | DAreaLightSource d => struct_size d
  | DAttribute _ ds | DTransform _ ds | DWorld _ ds => 1 + list_sum (map dir_size ds)
  | DInclude _ s => 1 + str_size s
  | DTexture t => 1 + str_size (ts_name t) + str_size (ts_ty t) + str_size (ts_class t) + set_size (ts_params t)
  end.
Definition pre_size (d : PreDirective F) : nat :=
  match d with
  | PIdentity _ => 1
  | PTranslate _ _ | PScale _ _ => 1 + 3
  | PRotate _ _ _ => 1 + 4
  | PLookAt _ _ | PTransform _ _ | PConcatTransform _ _ => 1 + 9
  | PTransformTimes _ _ _ => 1 + 2
  | PCoordinateSystem _ s | PCoordSysTransform _ s | PInclude _ s => 1 + str_size s
  | PActiveTransform _ s => 1 + length s
  | PCamera d | PSampler d | PFilm d | PFilter d | PIntegrator d | PAccelerator d => struct_size d
  end.
Definition scene_size (x : list (PreDirective F) * Directive F) : nat := sum pre_size (fst x) + dir_size (snd x).

(** A token: the characters of a string or identifier, and one for the token, if it is not an identifier. *)
Definition token_size (t : Token F) : nat :=
  match tok_ty t with TStr s => str_size s | TIdent s => length s | _ => 1 end.
End Size.
