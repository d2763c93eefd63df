(** Model of the derived [PartialEq] of the types of the program ([#[derive(PartialEq)]]): the variants must be the same and
    the fields are compared in the order of declaration, those of a [Vec] after the lengths.
    A [PathBuf] is compared by its components, as the standard library does on Unix. *)
From Verif Require Import Base TokModel ParModel RenderModel Elem GeoModel MatModel.

(** ** [PathBuf]. Components of a path (std::path on Unix). *)
Inductive component := CRoot | CCurDir | CParentDir | CNormal (s : str).
Definition c_slash : char := 47%N.
(** The pieces between the separators. *)
Fixpoint split_slash (s : str) : list str :=
  match s with
  | [] => [[]]
  | c :: t => if (c =? c_slash)%N then [] :: split_slash t
              else match split_slash t with h :: r => (c :: h) :: r | [] => [[c]] end
  end.
(** Empty pieces and "." are skipped. *)
Definition component_of (s : str) : list component :=
  if str_eqb s [] then [] else if str_eqb s (s2l ".") then [] else if str_eqb s (s2l "..") then [CParentDir] else [CNormal s].
(** [Path::has_root] *)
Definition has_root (s : str) : bool := match s with c :: _ => (c =? c_slash)%N | [] => false end.
(** [Components::include_cur_dir]: a "." is kept at the beginning only. *)
Definition include_cur_dir (s : str) : bool :=
  match s with
  | [c] => (c =? c_dot)%N
  | c :: d :: _ => ((c =? c_dot) && (d =? c_slash))%N
  | [] => false
  end.
Definition components (s : str) : list component :=
  (if has_root s then [CRoot] else if include_cur_dir s then [CCurDir] else []) ++ flat_map component_of (split_slash s).
Definition component_eq (a b : component) : bool :=
  match a, b with
  | CRoot, CRoot | CCurDir, CCurDir | CParentDir, CParentDir => true
  | CNormal s, CNormal t => str_eqb s t
  | _, _ => false
  end.

(** [Vec<T>] *)
Section Vec.
  Context {A : Type} (eq : A -> A -> bool).
  Fixpoint vec_eq (a b : list A) : bool :=
    match a, b with
    | [], [] => true
    | x :: a', y :: b' => eq x y && vec_eq a' b'
    | _, _ => false
    end.
End Vec.
Definition path_eq (s t : str) : bool := vec_eq component_eq (components s) (components t).

(** ** Scenes. [feq] is [==] of Float. *)
Section Scenes.
  Context {F : Type} (feq : F -> F -> bool).

  (** parser.rs 6 *)
  Definition pos_eq (p q : Pos) : bool := Nat.eqb (pos_r p) (pos_r q) && Nat.eqb (pos_c p) (pos_c q).
  (** parser.rs 195 and 24 *)
  Definition token_type_eq (a b : TokenType F) : bool :=
    match a, b with
    | TIdent s, TIdent t => str_eqb s t
    | TInt i, TInt j => Z.eqb i j
    | TFloat x, TFloat y => feq x y
    | TStr s, TStr t => str_eqb s t
    | TLBracket, TLBracket => true
    | TRBracket, TRBracket => true
    | _, _ => false
    end.
  Definition token_eq (a b : Token F) : bool := pos_eq (tok_pos a) (tok_pos b) && token_type_eq (tok_ty a) (tok_ty b).
  (** point.rs 5 and 21, vector.rs 5 and 40, normal.rs 4, matrix.rs 4 *)
  Definition p2f_eq (a b : Point2f F) : bool := feq (p2_x _ a) (p2_x _ b) && feq (p2_y _ a) (p2_y _ b).
  Definition v2f_eq (a b : Vector2f F) : bool := feq (v2_x _ a) (v2_x _ b) && feq (v2_y _ a) (v2_y _ b).
  Definition p3f_eq (a b : Point3f F) : bool := feq (p3_x _ a) (p3_x _ b) && feq (p3_y _ a) (p3_y _ b) && feq (p3_z _ a) (p3_z _ b).
  Definition v3f_eq (a b : Vector3f F) : bool := feq (v3_x _ a) (v3_x _ b) && feq (v3_y _ a) (v3_y _ b) && feq (v3_z _ a) (v3_z _ b).
  Definition n3f_eq (a b : Normal3f F) : bool := feq (n3_x _ a) (n3_x _ b) && feq (n3_y _ a) (n3_y _ b) && feq (n3_z _ a) (n3_z _ b).
  Definition row_eq (a b : F * F * F) : bool :=
    match a, b with (x, y, z), (x', y', z') => feq x x' && feq y y' && feq z z' end.
  Definition m3f_eq (a b : Matrix3f F) : bool :=
    row_eq (m3_r0 _ a) (m3_r0 _ b) && row_eq (m3_r1 _ a) (m3_r1 _ b) && row_eq (m3_r2 _ a) (m3_r2 _ b).
  (** mod.rs 123 *)
  Definition spectrum_eq (a b : Spectrum F) : bool :=
    match a, b with
    | SpRgb x y z, SpRgb x' y' z' => feq x x' && feq y y' && feq z z'
    | SpXyz x y z, SpXyz x' y' z' => feq x x' && feq y y' && feq z z'
    | SpSpectrum l, SpSpectrum l' => vec_eq (fun u v => feq (fst u) (fst v) && feq (snd u) (snd v)) l l'
    | SpFile s, SpFile t => path_eq s t
    | SpBlackbody x y, SpBlackbody x' y' => feq x x' && feq y y'
    | _, _ => false
    end.
  (** parser.rs 178 *)
  Definition param_eq {A} (eq : A -> A -> bool) (a b : Param A) : bool :=
    str_eqb (par_name a) (par_name b) && pos_eq (par_pos a) (par_pos b) && vec_eq eq (par_values a) (par_values b).
  (** parser.rs 63 *)
  Definition param_set_eq (a b : ParamSet F) : bool :=
    vec_eq (param_eq Bool.eqb) (ps_bools a) (ps_bools b) && vec_eq (param_eq Z.eqb) (ps_ints a) (ps_ints b) &&
    vec_eq (param_eq feq) (ps_floats a) (ps_floats b) && vec_eq (param_eq p2f_eq) (ps_point2fs a) (ps_point2fs b) &&
    vec_eq (param_eq v2f_eq) (ps_vector2fs a) (ps_vector2fs b) && vec_eq (param_eq p3f_eq) (ps_point3fs a) (ps_point3fs b) &&
    vec_eq (param_eq v3f_eq) (ps_vector3fs a) (ps_vector3fs b) && vec_eq (param_eq n3f_eq) (ps_normal3fs a) (ps_normal3fs b) &&
    vec_eq (param_eq spectrum_eq) (ps_spectra a) (ps_spectra b) && vec_eq (param_eq str_eqb) (ps_strings a) (ps_strings b) &&
    vec_eq (param_eq str_eqb) (ps_textures a) (ps_textures b).
  (** parser.rs 156 and 163 *)
  Definition directive_struct_eq (a b : DirectiveStruct F) : bool :=
    str_eqb (ds_ty a) (ds_ty b) && pos_eq (ds_pos a) (ds_pos b) && param_set_eq (ds_params a) (ds_params b).
  Definition texture_struct_eq (a b : TextureStruct F) : bool :=
    str_eqb (ts_name a) (ts_name b) && str_eqb (ts_ty a) (ts_ty b) && str_eqb (ts_class a) (ts_class b) &&
    pos_eq (ts_pos a) (ts_pos b) && param_set_eq (ts_params a) (ts_params b).
  (** parser.rs 143, with [BlockStruct] (172) *)
  Fixpoint directive_eq (a b : Directive F) : bool :=
    match a, b with
    | DMaterial x, DMaterial y => directive_struct_eq x y
    | DShape x, DShape y => directive_struct_eq x y
    | DLightSource x, DLightSource y => directive_struct_eq x y
    | DAreaLightSource x, DAreaLightSource y => directive_struct_eq x y
    | DAttribute p l, DAttribute q l' => pos_eq p q && vec_eq directive_eq l l'
    | DTransform p l, DTransform q l' => pos_eq p q && vec_eq directive_eq l l'
    | DWorld p l, DWorld q l' => pos_eq p q && vec_eq directive_eq l l'
    | DInclude p s, DInclude q t => pos_eq p q && path_eq s t
    | DTexture x, DTexture y => texture_struct_eq x y
    | _, _ => false
    end.
  (** parser.rs 36 *)
  Definition predirective_eq (a b : PreDirective F) : bool :=
    match a, b with
    | PIdentity p, PIdentity q => pos_eq p q
    | PTranslate p v, PTranslate q w => pos_eq p q && v3f_eq v w
    | PScale p v, PScale q w => pos_eq p q && v3f_eq v w
    | PRotate p x v, PRotate q y w => pos_eq p q && feq x y && v3f_eq v w
    | PLookAt p m, PLookAt q m' => pos_eq p q && m3f_eq m m'
    | PCoordinateSystem p s, PCoordinateSystem q t => pos_eq p q && str_eqb s t
    | PCoordSysTransform p s, PCoordSysTransform q t => pos_eq p q && str_eqb s t
    | PTransform p m, PTransform q m' => pos_eq p q && m3f_eq m m'
    | PConcatTransform p m, PConcatTransform q m' => pos_eq p q && m3f_eq m m'
    | PActiveTransform p s, PActiveTransform q t => pos_eq p q && str_eqb s t
    | PTransformTimes p x y, PTransformTimes q x' y' => pos_eq p q && feq x x' && feq y y'
    | PCamera x, PCamera y => directive_struct_eq x y
    | PSampler x, PSampler y => directive_struct_eq x y
    | PFilm x, PFilm y => directive_struct_eq x y
    | PFilter x, PFilter y => directive_struct_eq x y
    | PIntegrator x, PIntegrator y => directive_struct_eq x y
    | PAccelerator x, PAccelerator y => directive_struct_eq x y
    | PInclude p s, PInclude q t => pos_eq p q && path_eq s t
    | _, _ => false
    end.
  (** The result of [Parser::parse] (parser.rs 1358): a pair. *)
  Definition scene_eq (x y : list (PreDirective F) * Directive F) : bool :=
    vec_eq predirective_eq (fst x) (fst y) && directive_eq (snd x) (snd y).
  (** parser.rs 221 and 227: the texts of the messages are compared. *)
  Definition error_eq (dd : DebugOps F) (a b : error F) : bool :=
    match a, b with
    | EStr m, EStr m' => str_eqb (fmt_msg dd m) (fmt_msg dd m')
    | EEof, EEof => true
    | _, _ => false
    end.
  (** [Result<(Vec<PreDirective>, Directive), ParserError>] *)
  Definition result_eq (dd : DebugOps F) (a b : result (list (PreDirective F) * Directive F) (error F)) : bool :=
    match a, b with
    | Ok x, Ok y => scene_eq x y
    | Err e, Err e' => error_eq dd e e'
    | _, _ => false
    end.
End Scenes.

(** ** Geometry: point.rs 5 and 21, vector.rs 5 and 40, normal.rs 4, transform.rs 3 (the equality of matrices is in MatModel). *)
Section Geometry.
  Context {T : Type} (E : Elem T).
  Definition point2_eq (a b : Point2 T) : bool := e_eq E (p2x a) (p2x b) && e_eq E (p2y a) (p2y b).
  Definition point3_eq (a b : Point3 T) : bool := e_eq E (px a) (px b) && e_eq E (py a) (py b) && e_eq E (pz a) (pz b).
  Definition vector2_eq (a b : Vector2 T) : bool := e_eq E (v2x a) (v2x b) && e_eq E (v2y a) (v2y b).
  Definition vector3_eq (a b : Vector3 T) : bool := e_eq E (vx a) (vx b) && e_eq E (vy a) (vy b) && e_eq E (vz a) (vz b).
  Definition normal3_eq (a b : Normal3 T) : bool := e_eq E (nx a) (nx b) && e_eq E (ny a) (ny b) && e_eq E (nz a) (nz b).
  Definition transform_eq (a b : Transform T) : bool := m4_eq E (t_m a) (t_m b) && m4_eq E (t_inv a) (t_inv b).
End Geometry.
