(** What it means that two scenes are equal: paths that differ only in separators and dots, and floats with the same value. *)
From Coq Require Import Reals.
From Flocq Require Import Core.Core IEEE754.BinarySingleNaN.
From Verif Require Import Base TokModel ParModel FloatInst BuildSpec.
Close Scope R_scope.

(** ** Paths *)
(** Doubled separators, a "." between separators or at the end, and a separator at the end make no difference.
    A separator at the beginning does, and so does a "." at the beginning. *)
Inductive same_path : str -> str -> Prop :=
| sp_refl : forall s, same_path s s
| sp_sym : forall s t, same_path s t -> same_path t s
| sp_trans : forall s t u, same_path s t -> same_path t u -> same_path s u
| sp_double : forall a b, same_path (a ++ s2l "//" ++ b) (a ++ s2l "/" ++ b)
| sp_dot : forall a b, same_path (a ++ s2l "/./" ++ b) (a ++ s2l "/" ++ b)
| sp_last_dot : forall a, same_path (a ++ s2l "/.") (a ++ s2l "/")
| sp_last : forall a, a <> [] -> same_path (a ++ s2l "/") a.

(** ** Floats: the number a float stands for; both zeros stand for 0, and NaN for nothing. *)
Inductive ext := Fin (r : R) | PosInf | NegInf.
Definition value {f} (x : flt f) : option ext :=
  match x with
  | B754_nan => None
  | B754_infinity s => Some (if s then NegInf else PosInf)
  | B754_zero _ => Some (Fin 0%R)
  | B754_finite _ _ _ _ => Some (Fin (B2R x))
  end.

(** Two floats stand for the same number. *)
Definition alike {f} (u v : flt f) : Prop := exists r, value u = Some r /\ value v = Some r.

(** ** Scenes: every path replaced. *)
Section Paths.
Context {F : Type} (g : str -> str).
Definition path_spectrum (s : Spectrum F) : Spectrum F := match s with SpFile p => SpFile (g p) | _ => s end.
Definition path_ps (s : ParamSet F) : ParamSet F :=
  match s with
  | mkPS bs is fs p2 v2 p3 v3 n3 sp ss ts => mkPS bs is fs p2 v2 p3 v3 n3 (map (map_param path_spectrum) sp) ss ts
  end.
Definition path_ds (d : DirectiveStruct F) : DirectiveStruct F := mkDS (ds_ty d) (ds_pos d) (path_ps (ds_params d)).
Definition path_ts (d : TextureStruct F) : TextureStruct F :=
  mkTS (ts_name d) (ts_ty d) (ts_class d) (ts_pos d) (path_ps (ts_params d)).
Fixpoint path_dir (d : Directive F) : Directive F :=
  match d with
  | DMaterial d => DMaterial (path_ds d)
  | DShape d => DShape (path_ds d)
  | DLightSource d => DLightSource (path_ds d)
  | DAreaLightSource d => DAreaLightSource (path_ds d)
  | DAttribute p l => DAttribute p (map path_dir l)
  | DTransform p l => DTransform p (map path_dir l)
  | DWorld p l => DWorld p (map path_dir l)
  | DInclude p s => DInclude p (g s)
  | DTexture t => DTexture (path_ts t)
  end.
Definition path_pre (d : PreDirective F) : PreDirective F :=
  match d with
  | PCamera d => PCamera (path_ds d)
  | PSampler d => PSampler (path_ds d)
  | PFilm d => PFilm (path_ds d)
  | PFilter d => PFilter (path_ds d)
  | PIntegrator d => PIntegrator (path_ds d)
  | PAccelerator d => PAccelerator (path_ds d)
  | PInclude p s => PInclude p (g s)
  | _ => d
  end.
Definition path_scene (x : list (PreDirective F) * Directive F) : list (PreDirective F) * Directive F :=
  (map path_pre (fst x), path_dir (snd x)).
End Paths.

(** The scene [x] stands for the scene [z] of numbers, if every path is spelled as [g] says; in particular no float is NaN. *)
Definition stands_for {f} (g : str -> str) (x : list (PreDirective (flt f)) * Directive (flt f)) (z : list (PreDirective ext) * Directive ext) : Prop :=
  path_scene g (map_scene value x) = map_scene Some z.
(** Equal scenes stand for one scene, however paths are spelled. *)
Definition same_meaning {f} (x y : list (PreDirective (flt f)) * Directive (flt f)) : Prop :=
  exists g z, (forall s, same_path s (g s)) /\ stands_for g x z /\ stands_for g y z.
