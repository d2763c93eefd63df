(** Inputs and results that are alike: the same keywords in the same order, with related places, numbers and strings. *)
From Verif Require Import Base TokModel ParModel SceneSpec.

Section Like.
Context {F G : Type}.
(** How places, integers, floats, strings and names of parameters may differ. *)
Context (Rp : Pos -> Pos -> Prop) (Ri : Z -> Z -> Prop) (Rf : F -> G -> Prop) (Rs Rn : str -> str -> Prop).

Inductive like_ty : TokenType F -> TokenType G -> Prop :=
| ly_ident : forall w, like_ty (TIdent w) (TIdent w)
| ly_int : forall i j, Ri i j -> like_ty (TInt i) (TInt j)
| ly_float : forall x y, Rf x y -> like_ty (TFloat x) (TFloat y)
| ly_str : forall s t, Rs s t -> like_ty (TStr s) (TStr t)
| ly_lbracket : like_ty TLBracket TLBracket
| ly_rbracket : like_ty TRBracket TRBracket.
Definition like_tok (t : Token F) (t' : Token G) : Prop := Rp (tok_pos t) (tok_pos t') /\ like_ty (tok_ty t) (tok_ty t').

(** Messages with the same words; what they quote is alike. *)
Inductive like_error : error F -> error G -> Prop :=
| le_eof : like_error EEof EEof
| le_str : forall l l', Forall2 like_piece l l' -> like_error (EStr l) (EStr l')
with like_piece : piece F -> piece G -> Prop :=
| lp_text : forall s, like_piece (PText s) (PText s)
| lp_pos : forall p q, Rp p q -> like_piece (PPos p) (PPos q)
| lp_char : forall c, like_piece (PChar c) (PChar c)
| lp_ident : forall s, like_piece (PStr s) (PStr s)
| lp_string : forall s t, Rs s t -> like_piece (PStrDbg s) (PStrDbg t)
| lp_nat : forall n, like_piece (PNat n) (PNat n)
| lp_tok : forall t t', like_ty t t' -> like_piece (PTok t) (PTok t')
| lp_err : forall e e', like_error e e' -> like_piece (PErr e) (PErr e')
| lp_errdbg : forall e e', like_error e e' -> like_piece (PErrDbg e) (PErrDbg e').

Definition like_p2 (a : Point2f F) (b : Point2f G) : Prop := Rf (p2_x _ a) (p2_x _ b) /\ Rf (p2_y _ a) (p2_y _ b).
Definition like_v2 (a : Vector2f F) (b : Vector2f G) : Prop := Rf (v2_x _ a) (v2_x _ b) /\ Rf (v2_y _ a) (v2_y _ b).
Definition like_v3 (a : Vector3f F) (b : Vector3f G) : Prop :=
  Rf (v3_x _ a) (v3_x _ b) /\ Rf (v3_y _ a) (v3_y _ b) /\ Rf (v3_z _ a) (v3_z _ b).
Definition like_row (a : F * F * F) (b : G * G * G) : Prop :=
  match a, b with (x, y, z), (x', y', z') => Rf x x' /\ Rf y y' /\ Rf z z' end.
Definition like_m3 (a : Matrix3f F) (b : Matrix3f G) : Prop :=
  like_row (m3_r0 _ a) (m3_r0 _ b) /\ like_row (m3_r1 _ a) (m3_r1 _ b) /\ like_row (m3_r2 _ a) (m3_r2 _ b).
Inductive like_spectrum : Spectrum F -> Spectrum G -> Prop :=
| lsp_rgb : forall a b c a' b' c', Rf a a' -> Rf b b' -> Rf c c' -> like_spectrum (SpRgb a b c) (SpRgb a' b' c')
| lsp_xyz : forall a b c a' b' c', Rf a a' -> Rf b b' -> Rf c c' -> like_spectrum (SpXyz a b c) (SpXyz a' b' c')
| lsp_list : forall l l', Forall2 (fun x y => Rf (fst x) (fst y) /\ Rf (snd x) (snd y)) l l' -> like_spectrum (SpSpectrum l) (SpSpectrum l')
| lsp_file : forall s t, Rs s t -> like_spectrum (SpFile s) (SpFile t)
| lsp_blackbody : forall a b a' b', Rf a a' -> Rf b b' -> like_spectrum (SpBlackbody a b) (SpBlackbody a' b').
Definition like_param {A B} (R : A -> B -> Prop) (p : Param A) (q : Param B) : Prop :=
  Rn (par_name p) (par_name q) /\ Rp (par_pos p) (par_pos q) /\ Forall2 R (par_values p) (par_values q).
(** The lists that nothing is ever put into are equal to the empty list on both sides. *)
Record like_ps (a : ParamSet F) (b : ParamSet G) : Prop := {
  l_bools : Forall2 (like_param eq) (ps_bools a) (ps_bools b);
  l_ints : Forall2 (like_param Ri) (ps_ints a) (ps_ints b);
  l_floats : Forall2 (like_param Rf) (ps_floats a) (ps_floats b);
  l_point2fs : Forall2 (like_param like_p2) (ps_point2fs a) (ps_point2fs b);
  l_vector2fs : Forall2 (like_param like_v2) (ps_vector2fs a) (ps_vector2fs b);
  l_point3fs : ps_point3fs a = [] /\ ps_point3fs b = [];
  l_vector3fs : ps_vector3fs a = [] /\ ps_vector3fs b = [];
  l_normal3fs : ps_normal3fs a = [] /\ ps_normal3fs b = [];
  l_spectra : Forall2 (like_param like_spectrum) (ps_spectra a) (ps_spectra b);
  l_strings : Forall2 (like_param Rs) (ps_strings a) (ps_strings b);
  l_textures : Forall2 (like_param Rs) (ps_textures a) (ps_textures b) }.
Definition like_ds (a : DirectiveStruct F) (b : DirectiveStruct G) : Prop :=
  Rs (ds_ty a) (ds_ty b) /\ Rp (ds_pos a) (ds_pos b) /\ like_ps (ds_params a) (ds_params b).
Definition like_ts (a : TextureStruct F) (b : TextureStruct G) : Prop :=
  Rs (ts_name a) (ts_name b) /\ Rs (ts_ty a) (ts_ty b) /\ Rs (ts_class a) (ts_class b) /\ Rp (ts_pos a) (ts_pos b) /\
  like_ps (ts_params a) (ts_params b).
Inductive like_dir : Directive F -> Directive G -> Prop :=
| ld_material : forall a b, like_ds a b -> like_dir (DMaterial a) (DMaterial b)
| ld_shape : forall a b, like_ds a b -> like_dir (DShape a) (DShape b)
| ld_light : forall a b, like_ds a b -> like_dir (DLightSource a) (DLightSource b)
| ld_area : forall a b, like_ds a b -> like_dir (DAreaLightSource a) (DAreaLightSource b)
| ld_attribute : forall p q l l', Rp p q -> Forall2 like_dir l l' -> like_dir (DAttribute p l) (DAttribute q l')
| ld_transform : forall p q l l', Rp p q -> Forall2 like_dir l l' -> like_dir (DTransform p l) (DTransform q l')
| ld_world : forall p q l l', Rp p q -> Forall2 like_dir l l' -> like_dir (DWorld p l) (DWorld q l')
| ld_include : forall p q s t, Rp p q -> Rs s t -> like_dir (DInclude p s) (DInclude q t)
| ld_texture : forall a b, like_ts a b -> like_dir (DTexture a) (DTexture b).
Inductive like_pre : PreDirective F -> PreDirective G -> Prop :=
| lr_identity : forall p q, Rp p q -> like_pre (PIdentity p) (PIdentity q)
| lr_translate : forall p q v w, Rp p q -> like_v3 v w -> like_pre (PTranslate p v) (PTranslate q w)
| lr_scale : forall p q v w, Rp p q -> like_v3 v w -> like_pre (PScale p v) (PScale q w)
| lr_rotate : forall p q a b v w, Rp p q -> Rf a b -> like_v3 v w -> like_pre (PRotate p a v) (PRotate q b w)
| lr_lookat : forall p q m m', Rp p q -> like_m3 m m' -> like_pre (PLookAt p m) (PLookAt q m')
| lr_coordsys : forall p q s t, Rp p q -> Rs s t -> like_pre (PCoordinateSystem p s) (PCoordinateSystem q t)
| lr_coordtrans : forall p q s t, Rp p q -> Rs s t -> like_pre (PCoordSysTransform p s) (PCoordSysTransform q t)
| lr_transform : forall p q m m', Rp p q -> like_m3 m m' -> like_pre (PTransform p m) (PTransform q m')
| lr_concat : forall p q m m', Rp p q -> like_m3 m m' -> like_pre (PConcatTransform p m) (PConcatTransform q m')
| lr_active : forall p q w, Rp p q -> like_pre (PActiveTransform p w) (PActiveTransform q w)
| lr_times : forall p q a b c d, Rp p q -> Rf a c -> Rf b d -> like_pre (PTransformTimes p a b) (PTransformTimes q c d)
| lr_camera : forall a b, like_ds a b -> like_pre (PCamera a) (PCamera b)
| lr_sampler : forall a b, like_ds a b -> like_pre (PSampler a) (PSampler b)
| lr_film : forall a b, like_ds a b -> like_pre (PFilm a) (PFilm b)
| lr_filter : forall a b, like_ds a b -> like_pre (PFilter a) (PFilter b)
| lr_integrator : forall a b, like_ds a b -> like_pre (PIntegrator a) (PIntegrator b)
| lr_accelerator : forall a b, like_ds a b -> like_pre (PAccelerator a) (PAccelerator b)
| lr_include : forall p q s t, Rp p q -> Rs s t -> like_pre (PInclude p s) (PInclude q t).
Definition like_scene (x : list (PreDirective F) * Directive F) (y : list (PreDirective G) * Directive G) : Prop :=
  Forall2 like_pre (fst x) (fst y) /\ like_dir (snd x) (snd y).
(** Both accepted, both rejected, or both a panic. *)
Definition like_outcome (x : out (result (list (PreDirective F) * Directive F) (error F)))
    (y : out (result (list (PreDirective G) * Directive G) (error G))) : Prop :=
  match x, y with
  | Done (Ok a), Done (Ok b) => like_scene a b
  | Done (Err e), Done (Err e') => like_error e e'
  | Panic, Panic => True
  | OutOfFuel, OutOfFuel => True
  | _, _ => False
  end.
End Like.

(** Strings that may be exchanged: both or neither is "true", "false" or a parameter header, the latter with the same type. *)
Definition exchangeable (Rn : str -> str -> Prop) (s t : str) : Prop :=
  (s = s2l "true" <-> t = s2l "true") /\ (s = s2l "false" <-> t = s2l "false") /\
  (forall ty name, header s ty name -> exists name', header t ty name' /\ Rn name name') /\
  (forall ty name', header t ty name' -> exists name, header s ty name).
(** Neither "true" nor "false" nor a parameter header. *)
Definition plain_string (s : str) : Prop := s <> s2l "true" /\ s <> s2l "false" /\ forall ty name, ~ header s ty name.
Definition any {A B} (x : A) (y : B) : Prop := True.
