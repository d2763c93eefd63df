(** Observations on token lists and on parse results, used to state the properties of the parser.
    Nothing here refers to the functions of the parser model. *)
From Verif Require Import Base TokModel ParModel LexSpec SceneSpec.

Section Obs.
Context {F : Type}.
Notation toks := (list (Token F)).

(** ** Token lists *)
Definition is_ident (t : Token F) : bool := match tok_ty t with TIdent _ => true | _ => false end.
Definition is_kw (w : str) (t : Token F) : Prop := tok_ty t = TIdent w.
Definition is_closer_tok (t : Token F) : Prop := exists id, tok_ty t = TIdent id /\ In id closers.
Definition kinds (s : toks) : list (TokenType F) := map tok_ty s.

(** The identifiers that start a pre-directive: all but the argument of ActiveTransform. *)
Fixpoint starters (s : toks) : toks :=
  match s with
  | [] => []
  | t :: s' =>
      match tok_ty t with
      | TIdent id => if str_eqb id (s2l "ActiveTransform")
                     then match s' with u :: s'' => t :: starters s'' | [] => [t] end
                     else t :: starters s'
      | _ => starters s'
      end
  end.

(** [subseq a b]: [a] is obtained from [b] by leaving elements out. *)
Inductive subseq {A} : list A -> list A -> Prop :=
| ss_nil : subseq [] []
| ss_skip : forall x a b, subseq a b -> subseq a (x :: b)
| ss_take : forall x a b, subseq a b -> subseq (x :: a) (x :: b).

(** ** Results *)
Definition children (d : Directive F) : list (Directive F) :=
  match d with DAttribute _ l | DTransform _ l | DWorld _ l => l | _ => [] end.
(** All directives of a tree, in document order. *)
Fixpoint nodes (d : Directive F) : list (Directive F) :=
  d :: match d with
       | DAttribute _ l | DTransform _ l | DWorld _ l => flat_map nodes l
       | _ => []
       end.
Definition dir_pos (d : Directive F) : Pos :=
  match d with
  | DMaterial s | DShape s | DLightSource s | DAreaLightSource s => ds_pos s
  | DAttribute p _ | DTransform p _ | DWorld p _ | DInclude p _ => p
  | DTexture t => ts_pos t
  end.
Definition dir_params (d : Directive F) : option (ParamSet F) :=
  match d with
  | DMaterial s | DShape s | DLightSource s | DAreaLightSource s => Some (ds_params s)
  | DTexture t => Some (ts_params t)
  | _ => None
  end.
Definition pre_pos (d : PreDirective F) : Pos :=
  match d with
  | PIdentity p | PTranslate p _ | PScale p _ | PRotate p _ _ | PLookAt p _ | PCoordinateSystem p _
  | PCoordSysTransform p _ | PTransform p _ | PConcatTransform p _ | PActiveTransform p _ | PTransformTimes p _ _
  | PInclude p _ => p
  | PCamera s | PSampler s | PFilm s | PFilter s | PIntegrator s | PAccelerator s => ds_pos s
  end.
Definition pre_params (d : PreDirective F) : option (ParamSet F) :=
  match d with
  | PCamera s | PSampler s | PFilm s | PFilter s | PIntegrator s | PAccelerator s => Some (ds_params s)
  | _ => None
  end.
(** Every ParamSet of a result. *)
Definition all_params (x : list (PreDirective F) * Directive F) (ps : ParamSet F) : Prop :=
  (exists d, In d (fst x) /\ pre_params d = Some ps) \/ (exists d, In d (nodes (snd x)) /\ dir_params d = Some ps).

(** ** Forgetting positions *)
Definition pos0 : Pos := mkPos 0 0.
Definition erase_param {T} (p : Param T) : Param T := mkParam (par_name p) pos0 (par_values p).
Definition erase_ps (s : ParamSet F) : ParamSet F :=
  mkPS (map erase_param (ps_bools s)) (map erase_param (ps_ints s)) (map erase_param (ps_floats s))
       (map erase_param (ps_point2fs s)) (map erase_param (ps_vector2fs s)) (map erase_param (ps_point3fs s))
       (map erase_param (ps_vector3fs s)) (map erase_param (ps_normal3fs s)) (map erase_param (ps_spectra s))
       (map erase_param (ps_strings s)) (map erase_param (ps_textures s)).
Definition erase_ds (d : DirectiveStruct F) : DirectiveStruct F := mkDS (ds_ty d) pos0 (erase_ps (ds_params d)).
Definition erase_ts (t : TextureStruct F) : TextureStruct F :=
  mkTS (ts_name t) (ts_ty t) (ts_class t) pos0 (erase_ps (ts_params t)).
Fixpoint erase_dir (d : Directive F) : Directive F :=
  match d with
  | DMaterial s => DMaterial (erase_ds s)
  | DShape s => DShape (erase_ds s)
  | DLightSource s => DLightSource (erase_ds s)
  | DAreaLightSource s => DAreaLightSource (erase_ds s)
  | DAttribute _ l => DAttribute pos0 (map erase_dir l)
  | DTransform _ l => DTransform pos0 (map erase_dir l)
  | DWorld _ l => DWorld pos0 (map erase_dir l)
  | DInclude _ w => DInclude pos0 w
  | DTexture t => DTexture (erase_ts t)
  end.
Definition erase_pre (d : PreDirective F) : PreDirective F :=
  match d with
  | PIdentity _ => PIdentity pos0
  | PTranslate _ v => PTranslate pos0 v
  | PScale _ v => PScale pos0 v
  | PRotate _ a v => PRotate pos0 a v
  | PLookAt _ m => PLookAt pos0 m
  | PCoordinateSystem _ w => PCoordinateSystem pos0 w
  | PCoordSysTransform _ w => PCoordSysTransform pos0 w
  | PTransform _ m => PTransform pos0 m
  | PConcatTransform _ m => PConcatTransform pos0 m
  | PActiveTransform _ w => PActiveTransform pos0 w
  | PTransformTimes _ a b => PTransformTimes pos0 a b
  | PCamera s => PCamera (erase_ds s)
  | PSampler s => PSampler (erase_ds s)
  | PFilm s => PFilm (erase_ds s)
  | PFilter s => PFilter (erase_ds s)
  | PIntegrator s => PIntegrator (erase_ds s)
  | PAccelerator s => PAccelerator (erase_ds s)
  | PInclude _ w => PInclude pos0 w
  end.
Definition erase_scene (x : list (PreDirective F) * Directive F) : list (PreDirective F) * Directive F :=
  (map erase_pre (fst x), erase_dir (snd x)).

(** Outcomes up to positions: messages are not compared. *)
Definition same_outcome (o1 o2 : out (result (list (PreDirective F) * Directive F) (error F))) : Prop :=
  match o1, o2 with
  | Done (Ok x), Done (Ok y) => erase_scene x = erase_scene y
  | Done (Err EEof), Done (Err EEof) => True
  | Done (Err (EStr _)), Done (Err (EStr _)) => True
  | Panic, Panic => True
  | _, _ => False
  end.

(** ** Well-formed parameters *)
Definition some_values {T} (p : Param T) : Prop := par_values p <> [] /\ word (par_name p).
Definition one_value {T} (p : Param T) : Prop := length (par_values p) = 1 /\ word (par_name p).
(** A sampled spectrum has at least one sample. *)
Definition sampled (p : Param (Spectrum F)) : Prop := ~ In (SpSpectrum []) (par_values p).
Definition wf_params (s : ParamSet F) : Prop :=
  Forall some_values (ps_bools s) /\ Forall some_values (ps_ints s) /\ Forall some_values (ps_floats s) /\
  Forall some_values (ps_point2fs s) /\ Forall some_values (ps_vector2fs s) /\ Forall some_values (ps_strings s) /\
  Forall one_value (ps_spectra s) /\ Forall one_value (ps_textures s) /\
  ps_point3fs s = [] /\ ps_vector3fs s = [] /\ ps_normal3fs s = [] /\ Forall sampled (ps_spectra s).

(** [written fo s d]: the directive [d] (without its children) is what the tokens [s] say somewhere. *)
Inductive written (fo : FloatOps F) (s : toks) : Directive F -> Prop :=
| wr_struct : forall a p id mkD q ty b l r, struct_kw id mkD ->
    s = a ++ mkTok p (TIdent id) :: mkTok q (TStr ty) :: b -> params fo b l r ->
    written fo s (mkD (mkDS ty p (collect l)))
| wr_block : forall a p id mkB b ch, block_kw id mkB -> s = a ++ mkTok p (TIdent id) :: b -> written fo s (mkB p ch)
| wr_include : forall a p q path b, s = a ++ mkTok p (TIdent (s2l "Include")) :: mkTok q (TStr path) :: b ->
    written fo s (DInclude p path)
| wr_texture : forall a p q1 name q2 ty q3 class b l r,
    s = a ++ mkTok p (TIdent (s2l "Texture")) :: mkTok q1 (TStr name) :: mkTok q2 (TStr ty) :: mkTok q3 (TStr class) :: b ->
    params fo b l r -> written fo s (DTexture (mkTS name ty class p (collect l))).

(** Document-order positions of a directive with its parameters: there is an order of its parameters, refining the
    order inside each vector of its ParamSet, in which they were written. *)
Inductive dir_trace : Directive F -> list Pos -> Prop :=
| dt_params : forall d l, dir_params d = Some (collect l) -> dir_trace d (dir_pos d :: map pi_pos l)
| dt_none : forall d, dir_params d = None -> dir_trace d [dir_pos d].
Inductive pre_trace : PreDirective F -> list Pos -> Prop :=
| pt_params : forall d l, pre_params d = Some (collect l) -> pre_trace d (pre_pos d :: map pi_pos l)
| pt_none : forall d, pre_params d = None -> pre_trace d [pre_pos d].

End Obs.

(** A place, while the tokens [s] are read, where a directive or a closer has to follow. *)
Inductive reaches {F} (fo : FloatOps F) (s : list (Token F)) : list (Token F) -> Prop :=
| re_world : forall pres p s', predirectives fo s pres (mkTok p (TIdent (s2l "WorldBegin")) :: s') -> reaches fo s s'
| re_open : forall p id mkB s', block_kw (F := F) id mkB -> reaches fo s (mkTok p (TIdent id) :: s') -> reaches fo s s'
| re_next : forall s1 d s2, reaches fo s s1 -> directive fo s1 d s2 -> reaches fo s s2.

(** A place where a pre-directive (or WorldBegin) has to follow. *)
Inductive pre_reaches {F} (fo : FloatOps F) (s : list (Token F)) : list (PreDirective F) -> list (Token F) -> Prop :=
| pr_start : pre_reaches fo s [] s
| pr_next : forall ds s1 d s2, pre_reaches fo s ds s1 -> predirective fo s1 d s2 -> pre_reaches fo s (ds ++ [d]) s2.

(** ** Number arguments of pre-directives *)
Definition number_kws : list (str * nat) :=
  [(s2l "Translate", 3); (s2l "Scale", 3); (s2l "Rotate", 4); (s2l "LookAt", 9); (s2l "Transform", 9);
   (s2l "ConcatTransform", 9); (s2l "TransformTimes", 2)].
Inductive num_value {F} (fo : FloatOps F) : Token F -> F -> Prop :=
| nv_float : forall p x, num_value fo (mkTok p (TFloat x)) x
| nv_int : forall p i, num_value fo (mkTok p (TInt i)) (f_of_isize fo i).

(** [some_params s l r]: well-formed parameters [l], with anything allowed to follow. *)
Inductive some_params {F} (fo : FloatOps F) : list (Token F) -> list (pitem (F := F)) -> list (Token F) -> Prop :=
| sp_nil : forall s, some_params fo s [] s
| sp_cons : forall s i s' l r, param fo s i s' -> some_params fo s' l r -> some_params fo s (i :: l) r.
(** The beginning of a directive with parameters, up to the first parameter. *)
Inductive dir_head {F} : list (Token F) -> list (Token F) -> Prop :=
| dh_struct : forall p id mkD q ty s, struct_kw (F := F) id mkD -> dir_head (mkTok p (TIdent id) :: mkTok q (TStr ty) :: s) s
| dh_texture : forall p q1 name q2 ty q3 class s,
    dir_head (mkTok p (TIdent (s2l "Texture")) :: mkTok q1 (TStr name) :: mkTok q2 (TStr ty) :: mkTok q3 (TStr class) :: s) s.
Inductive pre_head {F} : list (Token F) -> list (Token F) -> Prop :=
| ph_struct : forall p id mkD q ty s, pstruct_kw (F := F) id mkD -> pre_head (mkTok p (TIdent id) :: mkTok q (TStr ty) :: s) s.
(** [at_param s s1]: while the tokens [s] are read, a directive or pre-directive is met whose well-formed parameters end,
    or are interrupted, in front of [s1]. *)
Inductive at_param {F} (fo : FloatOps F) (s : list (Token F)) : list (Token F) -> Prop :=
| ap_dir : forall s0 b l s1, reaches fo s s0 -> dir_head s0 b -> some_params fo b l s1 -> at_param fo s s1
| ap_pre : forall ds s0 b l s1, pre_reaches fo s ds s0 -> pre_head s0 b -> some_params fo b l s1 -> at_param fo s s1.

(** ** Layout: white space and closed comments *)
Inductive layout : str -> Prop :=
| ly_nil : layout []
| ly_space : forall c w, is_whitespace c = true -> layout w -> layout (c :: w)
| ly_comment : forall body w, ~ In c_lf body -> layout w -> layout (c_hash :: body ++ c_lf :: w).
