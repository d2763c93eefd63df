(** What it means that two builds of the program with different float types (Cargo feature [float_as_f64]; src/core/mod.rs
    31-34) give the same result but for the floats: every float of one result is replaced. *)
From Verif Require Import Base TokModel ParModel.

Section Map.
Context {F G : Type} (h : F -> G).

Definition map_ty (t : TokenType F) : TokenType G :=
  match t with
  | TIdent s => TIdent s | TInt i => TInt i | TFloat f => TFloat (h f) | TStr s => TStr s
  | TLBracket => TLBracket | TRBracket => TRBracket
  end.
Definition map_tok (t : Token F) : Token G := mkTok (tok_pos t) (map_ty (tok_ty t)).
Fixpoint map_error (e : error F) : error G :=
  match e with
  | EStr l => EStr (map (fun p =>
      match p with
      | PText s => PText s | PPos p => PPos p | PChar c => PChar c | PStr s => PStr s | PStrDbg s => PStrDbg s
      | PNat n => PNat n | PTok t => PTok (map_ty t) | PErr e => PErr (map_error e) | PErrDbg e => PErrDbg (map_error e)
      end) l)
  | EEof => EEof
  end.
Definition map_param {S T} (g : S -> T) (p : Param S) : Param T := mkParam (par_name p) (par_pos p) (map g (par_values p)).
Definition map_p2 (p : Point2f F) : Point2f G := match p with mkP2 a b => mkP2 (h a) (h b) end.
Definition map_v2 (p : Vector2f F) : Vector2f G := match p with mkV2 a b => mkV2 (h a) (h b) end.
Definition map_p3 (p : Point3f F) : Point3f G := match p with mkP3 a b c => mkP3 (h a) (h b) (h c) end.
Definition map_v3 (p : Vector3f F) : Vector3f G := match p with mkV3 a b c => mkV3 (h a) (h b) (h c) end.
Definition map_n3 (p : Normal3f F) : Normal3f G := match p with mkN3 a b c => mkN3 (h a) (h b) (h c) end.
Definition map_row (r : F * F * F) : G * G * G := match r with (a, b, c) => (h a, h b, h c) end.
Definition map_m3 (m : Matrix3f F) : Matrix3f G := match m with mkM3 a b c => mkM3 (map_row a) (map_row b) (map_row c) end.
Definition map_spectrum (s : Spectrum F) : Spectrum G :=
  match s with
  | SpRgb a b c => SpRgb (h a) (h b) (h c)
  | SpXyz a b c => SpXyz (h a) (h b) (h c)
  | SpSpectrum l => SpSpectrum (map (fun x => (h (fst x), h (snd x))) l)
  | SpFile s => SpFile s
  | SpBlackbody a b => SpBlackbody (h a) (h b)
  end.
Definition map_ps (s : ParamSet F) : ParamSet G :=
  match s with
  | mkPS bs is fs p2 v2 p3 v3 n3 sp ss ts =>
      mkPS bs is (map (map_param h) fs) (map (map_param map_p2) p2) (map (map_param map_v2) v2) (map (map_param map_p3) p3)
        (map (map_param map_v3) v3) (map (map_param map_n3) n3) (map (map_param map_spectrum) sp) ss ts
  end.
Definition map_ds (d : DirectiveStruct F) : DirectiveStruct G := mkDS (ds_ty d) (ds_pos d) (map_ps (ds_params d)).
Definition map_ts (d : TextureStruct F) : TextureStruct G :=
  mkTS (ts_name d) (ts_ty d) (ts_class d) (ts_pos d) (map_ps (ts_params d)).
Fixpoint map_dir (d : Directive F) : Directive G :=
  match d with
  | DMaterial d => DMaterial (map_ds d)
  | DShape d => DShape (map_ds d)
  | DLightSource d => DLightSource (map_ds d)
  | DAreaLightSource d => DAreaLightSource (map_ds d)
  | DAttribute p l => DAttribute p (map map_dir l)
  | DTransform p l => DTransform p (map map_dir l)
  | DWorld p l => DWorld p (map map_dir l)
  | DInclude p s => DInclude p s
  | DTexture t => DTexture (map_ts t)
  end.
Definition map_pre (d : PreDirective F) : PreDirective G :=
  match d with
  | PIdentity p => PIdentity p
  | PTranslate p v => PTranslate p (map_v3 v)
  | PScale p v => PScale p (map_v3 v)
  | PRotate p a v => PRotate p (h a) (map_v3 v)
  | PLookAt p m => PLookAt p (map_m3 m)
  | PCoordinateSystem p s => PCoordinateSystem p s
  | PCoordSysTransform p s => PCoordSysTransform p s
  | PTransform p m => PTransform p (map_m3 m)
  | PConcatTransform p m => PConcatTransform p (map_m3 m)
  | PActiveTransform p s => PActiveTransform p s
  | PTransformTimes p a b => PTransformTimes p (h a) (h b)
  | PCamera d => PCamera (map_ds d)
  | PSampler d => PSampler (map_ds d)
  | PFilm d => PFilm (map_ds d)
  | PFilter d => PFilter (map_ds d)
  | PIntegrator d => PIntegrator (map_ds d)
  | PAccelerator d => PAccelerator (map_ds d)
  | PInclude p s => PInclude p s
  end.
Definition map_scene (x : list (PreDirective F) * Directive F) : list (PreDirective G) * Directive G :=
  (map map_pre (fst x), map_dir (snd x)).
(** A result, an error or a panic. *)
Definition map_outcome {A B} (g : A -> B) (x : out (result A (error F))) : out (result B (error G)) :=
  match x with
  | Done (Ok a) => Done (Ok (g a))
  | Done (Err e) => Done (Err (map_error e))
  | Panic => Panic
  | OutOfFuel => OutOfFuel
  end.
End Map.

(** The value of a symbolic float: literals, products, powers of ten and converted integers. *)
Fixpoint eval {F} (fo : FloatOps F) (x : sfloat) : F :=
  match x with
  | SDec neg m k => f_dec fo neg m k
  | SMul a b => f_mul fo (eval fo a) (eval fo b)
  | SPow10 a => f_powf10 fo (eval fo a)
  | SInt z => f_of_isize fo z
  end.
(** The result without its floats. *)
Definition shape {F} (x : out (result (list (PreDirective F) * Directive F) (error F))) :=
  map_outcome (fun _ => tt) (map_scene (fun _ => tt)) x.

(** Two character tables that say the same about the characters of a text. *)
Definition agree_on (cc cc' : CharClass) (s : str) : Prop :=
  Forall (fun c => is_numeric cc c = is_numeric cc' c /\ is_alphabetic cc c = is_alphabetic cc' c) s.
