(** Writing a scene as tokens, for the round-trip property. Only data types are shared with the model. *)
From Verif Require Import Base TokModel ParModel SceneSpec SceneObs.

Section Print.
Context {F : Type}.
Notation toks := (list (Token F)).

Definition tk0 (ty : TokenType F) : Token F := mkTok pos0 ty.
Definition kw (s : string) : Token F := tk0 (TIdent (s2l s)).
Definition nums (l : list F) : toks := map (fun x => tk0 (TFloat x)) l.
Definition brackets (l : toks) : toks := tk0 TLBracket :: l ++ [tk0 TRBracket].

(** ** Parameters: a header of type and name, then a bracketed list (file names and textures: a string) *)
Definition print_param {T} (ty : string) (vals : list T -> toks) (p : Param T) : toks :=
  tk0 (TStr (s2l ty ++ 32%N :: par_name p)) :: vals (par_values p).
Definition print_bool (b : bool) : Token F := tk0 (TStr (s2l (if b then "true" else "false"))).
Definition print_spectrum (p : Param (Spectrum F)) : toks :=
  match par_values p with
  | [SpRgb a b c] => print_param "rgb" (fun _ => brackets (nums [a; b; c])) p
  | [SpXyz a b c] => print_param "xyz" (fun _ => brackets (nums [a; b; c])) p
  | [SpSpectrum l] => print_param "spectrum" (fun _ => brackets (nums (unpair l))) p
  | [SpFile w] => print_param "spectrum" (fun _ => [tk0 (TStr w)]) p
  | [SpBlackbody a b] => print_param "blackbody" (fun _ => brackets (nums [a; b])) p
  | _ => []
  end.
Definition print_params (s : ParamSet F) : toks :=
  flat_map (print_param "bool" (fun l => brackets (map print_bool l))) (ps_bools s) ++
  flat_map (print_param "integer" (fun l => brackets (map (fun z => tk0 (TInt z)) l))) (ps_ints s) ++
  flat_map (print_param "float" (fun l => brackets (nums l))) (ps_floats s) ++
  flat_map (print_param "point2" (fun l => brackets (nums (flat_map (fun p => [p2_x _ p; p2_y _ p]) l)))) (ps_point2fs s) ++
  flat_map (print_param "vector2" (fun l => brackets (nums (flat_map (fun p => [v2_x _ p; v2_y _ p]) l)))) (ps_vector2fs s) ++
  flat_map print_spectrum (ps_spectra s) ++
  flat_map (print_param "string" (fun l => brackets (map (fun w => tk0 (TStr w)) l))) (ps_strings s) ++
  flat_map (print_param "texture" (fun l => map (fun w => tk0 (TStr w)) l)) (ps_textures s).

(** ** Directives. Every block is followed by its own closer. *)
Definition print_ds (k : string) (d : DirectiveStruct F) : toks := kw k :: tk0 (TStr (ds_ty d)) :: print_params (ds_params d).
Fixpoint print_dir (d : Directive F) : toks :=
  match d with
  | DMaterial s => print_ds "Material" s
  | DShape s => print_ds "Shape" s
  | DLightSource s => print_ds "LightSource" s
  | DAreaLightSource s => print_ds "AreaLightSource" s
  | DAttribute _ l => kw "AttributeBegin" :: flat_map print_dir l ++ [kw "AttributeEnd"]
  | DTransform _ l => kw "TransformBegin" :: flat_map print_dir l ++ [kw "TransformEnd"]
  | DWorld _ l => kw "WorldBegin" :: flat_map print_dir l ++ [kw "WorldEnd"]
  | DInclude _ w => [kw "Include"; tk0 (TStr w)]
  | DTexture t => kw "Texture" :: tk0 (TStr (ts_name t)) :: tk0 (TStr (ts_ty t)) :: tk0 (TStr (ts_class t)) ::
                  print_params (ts_params t)
  end.
Definition v3_list (v : Vector3f F) : list F := [v3_x _ v; v3_y _ v; v3_z _ v].
Definition m3_list (m : Matrix3f F) : list F :=
  let '((a, b, c), (d, e, f), (g, h, i)) := (m3_r0 _ m, m3_r1 _ m, m3_r2 _ m) in [a; b; c; d; e; f; g; h; i].
Definition print_pre (d : PreDirective F) : toks :=
  match d with
  | PIdentity _ => [kw "Identity"]
  | PTranslate _ v => kw "Translate" :: nums (v3_list v)
  | PScale _ v => kw "Scale" :: nums (v3_list v)
  | PRotate _ a v => kw "Rotate" :: nums (a :: v3_list v)
  | PLookAt _ m => kw "LookAt" :: nums (m3_list m)
  | PCoordinateSystem _ w => [kw "CoordinateSystem"; tk0 (TStr w)]
  | PCoordSysTransform _ w => [kw "CoordSysTransform"; tk0 (TStr w)]
  | PTransform _ m => kw "Transform" :: nums (m3_list m)
  | PConcatTransform _ m => kw "ConcatTransform" :: nums (m3_list m)
  | PActiveTransform _ w => [kw "ActiveTransform"; tk0 (TIdent w)]
  | PTransformTimes _ a b => kw "TransformTimes" :: nums [a; b]
  | PCamera s => print_ds "Camera" s
  | PSampler s => print_ds "Sampler" s
  | PFilm s => print_ds "Film" s
  | PFilter s => print_ds "Filter" s
  | PIntegrator s => print_ds "Integrator" s
  | PAccelerator s => print_ds "Accelerator" s
  | PInclude _ w => [kw "Include"; tk0 (TStr w)]
  end.
Definition print_scene (x : list (PreDirective F) * Directive F) : toks :=
  flat_map print_pre (fst x) ++ print_dir (snd x).

(** ** Which scenes *)
Definition is_block (d : Directive F) : bool :=
  match d with DAttribute _ _ | DTransform _ _ | DWorld _ _ => true | _ => false end.
(** Only the last directive of the list may be a block. *)
Definition block_last (l : list (Directive F)) : Prop := Forall (fun d => is_block d = false) (removelast l).
Definition is_world (d : Directive F) : Prop := match d with DWorld _ _ => True | _ => False end.
(** At every depth of the scene parameters are well-formed and a block is the last child. *)
Definition printable (x : list (PreDirective F) * Directive F) : Prop :=
  is_world (snd x) /\ (forall ps, all_params x ps -> wf_params ps) /\
  Forall (fun d => block_last (children d)) (nodes (snd x)).
End Print.
