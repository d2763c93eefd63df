(** Declarative grammar of token lists accepted by the parser. Only data types are shared with the model. *)
From Verif Require Import Base TokModel ParModel.

(** A parameter header: two words separated and optionally surrounded by white space. *)
Definition word (w : str) : Prop := w <> [] /\ Forall (fun c => is_whitespace c = false) w.
Definition blanks (w : str) : Prop := Forall (fun c => is_whitespace c = true) w.
Definition header (h ty name : str) : Prop :=
  word ty /\ word name /\
  exists a b c, blanks a /\ blanks b /\ b <> [] /\ blanks c /\ h = a ++ ty ++ b ++ name ++ c.

(** The parameter types. *)
Definition known_types : list str :=
  map s2l ["integer"; "float"; "point2"; "vector2"; "bool"; "string"; "rgb"; "xyz"; "spectrum"; "blackbody"; "texture"]%string.
Definition known (ty : str) : Prop := In ty known_types.

Definition closers : list str := map s2l ["AttributeEnd"; "TransformEnd"; "WorldEnd"]%string.

Section Grammar.
Context {F : Type} (fo : FloatOps F).
Notation toks := (list (Token F)).

(** [quiet s]: the input ends here or an identifier follows; the only places where a parameter list may stop. *)
Definition quiet (s : toks) : Prop :=
  match s with [] => True | mkTok _ (TIdent _) :: _ => True | _ => False end.

(** ** Values. [item s v r]: a value [v] is read from the front of [s], leaving [r]. *)
Inductive int_item : toks -> Z -> toks -> Prop :=
| ii : forall p i r, int_item (mkTok p (TInt i) :: r) i r.
Inductive str_item : toks -> str -> toks -> Prop :=
| si : forall p w r, str_item (mkTok p (TStr w) :: r) w r.
Inductive bool_item : toks -> bool -> toks -> Prop :=
| bi_true : forall p r, bool_item (mkTok p (TStr (s2l "true")) :: r) true r
| bi_false : forall p r, bool_item (mkTok p (TStr (s2l "false")) :: r) false r.
Inductive float_item : toks -> F -> toks -> Prop :=
| fi_float : forall p x r, float_item (mkTok p (TFloat x) :: r) x r
| fi_int : forall p i r, float_item (mkTok p (TInt i) :: r) (f_of_isize fo i) r.
Inductive point2_item : toks -> Point2f F -> toks -> Prop :=
| pi2 : forall s a s' b r, float_item s a s' -> float_item s' b r -> point2_item s (mkP2 a b) r.
Inductive vector2_item : toks -> Vector2f F -> toks -> Prop :=
| vi2 : forall s a s' b r, float_item s a s' -> float_item s' b r -> vector2_item s (mkV2 a b) r.

Section Items.
Context {T : Type} (item : toks -> T -> toks -> Prop).
(** One or more values. *)
Inductive items : toks -> list T -> toks -> Prop :=
| it_one : forall s v r, item s v r -> items s [v] r
| it_more : forall s v s' vs r, item s v s' -> items s' vs r -> items s (v :: vs) r.
(** A bracketed list of one or more values. *)
Inductive bracketed : toks -> list T -> toks -> Prop :=
| br : forall p s vs q r, items s vs (mkTok q TRBracket :: r) -> bracketed (mkTok p TLBracket :: s) vs r.
(** A single value or a bracketed list. *)
Inductive one_or_list : toks -> list T -> toks -> Prop :=
| ol_one : forall s v r, item s v r -> one_or_list s [v] r
| ol_list : forall s vs r, bracketed s vs r -> one_or_list s vs r.
End Items.

Fixpoint unpair {A} (l : list (A * A)) : list A :=
  match l with [] => [] | (a, b) :: t => a :: b :: unpair t end.

(** ** Parameters *)
Inductive pval : Type :=
| VInts (l : list Z) | VFloats (l : list F) | VPoints (l : list (Point2f F)) | VVectors (l : list (Vector2f F))
| VBools (l : list bool) | VStrings (l : list str) | VSpectrum (s : Spectrum F) | VTexture (s : str).
Record pitem := mkPI { pi_name : str; pi_pos : Pos; pi_val : pval }.

(** [value ty s v r]: the value of a parameter of type [ty]. *)
Inductive value : str -> toks -> pval -> toks -> Prop :=
| va_int : forall s l r, one_or_list int_item s l r -> value (s2l "integer") s (VInts l) r
| va_float : forall s l r, one_or_list float_item s l r -> value (s2l "float") s (VFloats l) r
| va_point2 : forall s l r, bracketed point2_item s l r -> value (s2l "point2") s (VPoints l) r
| va_vector2 : forall s l r, bracketed vector2_item s l r -> value (s2l "vector2") s (VVectors l) r
| va_bool : forall s l r, one_or_list bool_item s l r -> value (s2l "bool") s (VBools l) r
| va_string : forall s l r, one_or_list str_item s l r -> value (s2l "string") s (VStrings l) r
| va_rgb : forall s a b c r, bracketed float_item s [a; b; c] r -> value (s2l "rgb") s (VSpectrum (SpRgb a b c)) r
| va_xyz : forall s a b c r, bracketed float_item s [a; b; c] r -> value (s2l "xyz") s (VSpectrum (SpXyz a b c)) r
| va_spectrum : forall s l r, bracketed float_item s (unpair l) r -> value (s2l "spectrum") s (VSpectrum (SpSpectrum l)) r
| va_file : forall s w r, str_item s w r -> value (s2l "spectrum") s (VSpectrum (SpFile w)) r
| va_blackbody : forall s a b r, bracketed float_item s [a; b] r -> value (s2l "blackbody") s (VSpectrum (SpBlackbody a b)) r
| va_texture : forall s w r, str_item s w r -> value (s2l "texture") s (VTexture w) r.

Inductive param : toks -> pitem -> toks -> Prop :=
| pa : forall p h ty name s v r, header h ty name -> value ty s v r ->
    param (mkTok p (TStr h) :: s) (mkPI name p v) r.

(** Values that may stand between an opening bracket and the place where a list of type [ty] is abandoned. *)
Inductive open_items : str -> toks -> toks -> Prop :=
| oi_int : forall s l r, items int_item s l r -> open_items (s2l "integer") s r
| oi_float : forall s l r, items float_item s l r -> open_items (s2l "float") s r
| oi_point2 : forall s l r, items point2_item s l r -> open_items (s2l "point2") s r
| oi_vector2 : forall s l r, items vector2_item s l r -> open_items (s2l "vector2") s r
| oi_bool : forall s l r, items bool_item s l r -> open_items (s2l "bool") s r
| oi_string : forall s l r, items str_item s l r -> open_items (s2l "string") s r
| oi_rgb : forall s a b c r, items float_item s [a; b; c] r -> open_items (s2l "rgb") s r
| oi_xyz : forall s a b c r, items float_item s [a; b; c] r -> open_items (s2l "xyz") s r
| oi_spectrum : forall s l r, items float_item s l r -> open_items (s2l "spectrum") s r
| oi_blackbody : forall s a b r, items float_item s [a; b] r -> open_items (s2l "blackbody") s r.

(** The malformed parameters that are skipped without an error: [dropped s r]. In all of them [r] is quiet. *)
Inductive dropped : toks -> toks -> Prop :=
| dr_no_value : forall p h ty name r,           (* "integer n" Shape *)
    header h ty name -> known ty -> quiet r -> dropped (mkTok p (TStr h) :: r) r
| dr_empty : forall p q h ty name r,            (* "integer n" [ Shape *)
    header h ty name -> known ty -> ty <> s2l "texture" -> quiet r ->
    dropped (mkTok p (TStr h) :: mkTok q TLBracket :: r) r
| dr_open : forall p q h ty name s r,           (* "integer n" [ 1 2 Shape *)
    header h ty name -> open_items ty s r -> quiet r ->
    dropped (mkTok p (TStr h) :: mkTok q TLBracket :: s) r
| dr_odd : forall p h name s l r,               (* "spectrum L" [ 1 2 3 ] Shape *)
    header h (s2l "spectrum") name -> bracketed float_item s l r -> Nat.odd (length l) = true -> quiet r ->
    dropped (mkTok p (TStr h) :: s) r.

(** Parameters of a directive, up to where it ends. *)
Inductive params : toks -> list pitem -> toks -> Prop :=
| ps_end : forall s, quiet s -> params s [] s
| ps_drop : forall s r, dropped s r -> params s [] r
| ps_cons : forall s i s' l r, param s i s' -> params s' l r -> params s (i :: l) r.

(** The ParamSet of a list of parameters: each vector holds, in order, the parameters of its type. *)
Definition pick {T} (sel : pval -> option (list T)) (l : list pitem) : list (Param T) :=
  flat_map (fun i => match sel (pi_val i) with Some v => [mkParam (pi_name i) (pi_pos i) v] | None => [] end) l.
Definition collect (l : list pitem) : ParamSet F :=
  mkPS (pick (fun v => match v with VBools l => Some l | _ => None end) l)
       (pick (fun v => match v with VInts l => Some l | _ => None end) l)
       (pick (fun v => match v with VFloats l => Some l | _ => None end) l)
       (pick (fun v => match v with VPoints l => Some l | _ => None end) l)
       (pick (fun v => match v with VVectors l => Some l | _ => None end) l)
       [] [] []
       (pick (fun v => match v with VSpectrum s => Some [s] | _ => None end) l)
       (pick (fun v => match v with VStrings l => Some l | _ => None end) l)
       (pick (fun v => match v with VTexture s => Some [s] | _ => None end) l).

(** ** Directives *)
Inductive struct_kw : str -> (DirectiveStruct F -> Directive F) -> Prop :=
| sk_material : struct_kw (s2l "Material") DMaterial
| sk_shape : struct_kw (s2l "Shape") DShape
| sk_light : struct_kw (s2l "LightSource") DLightSource
| sk_area : struct_kw (s2l "AreaLightSource") DAreaLightSource.
Inductive block_kw : str -> (Pos -> list (Directive F) -> Directive F) -> Prop :=
| bk_attribute : block_kw (s2l "AttributeBegin") DAttribute
| bk_transform : block_kw (s2l "TransformBegin") DTransform
| bk_world : block_kw (s2l "WorldBegin") DWorld.

Inductive directive : toks -> Directive F -> toks -> Prop :=
| di_struct : forall p id mkD q ty s l r,
    struct_kw id mkD -> params s l r ->
    directive (mkTok p (TIdent id) :: mkTok q (TStr ty) :: s) (mkD (mkDS ty p (collect l))) r
| di_block : forall p id mkB s ds r,
    block_kw id mkB -> directives s ds r ->
    directive (mkTok p (TIdent id) :: s) (mkB p ds) r
| di_include : forall p q path r,
    directive (mkTok p (TIdent (s2l "Include")) :: mkTok q (TStr path) :: r) (DInclude p path) r
| di_texture : forall p q1 name q2 ty q3 class s l r,
    params s l r ->
    directive (mkTok p (TIdent (s2l "Texture")) :: mkTok q1 (TStr name) :: mkTok q2 (TStr ty) :: mkTok q3 (TStr class) :: s)
              (DTexture (mkTS name ty class p (collect l))) r
(** The children of a block: up to, and not including, any closer. *)
with directives : toks -> list (Directive F) -> toks -> Prop :=
| ds_close : forall p id s, In id closers -> directives (mkTok p (TIdent id) :: s) [] (mkTok p (TIdent id) :: s)
| ds_cons : forall s d s' ds r, directive s d s' -> directives s' ds r -> directives s (d :: ds) r.

(** ** Pre-directives *)
Definition not_number (s : toks) : Prop :=
  match s with mkTok _ (TInt _) :: _ => False | mkTok _ (TFloat _) :: _ => False | _ => True end.

Inductive pstruct_kw : str -> (DirectiveStruct F -> PreDirective F) -> Prop :=
| pk_camera : pstruct_kw (s2l "Camera") PCamera
| pk_sampler : pstruct_kw (s2l "Sampler") PSampler
| pk_film : pstruct_kw (s2l "Film") PFilm
| pk_filter : pstruct_kw (s2l "Filter") PFilter
| pk_integrator : pstruct_kw (s2l "Integrator") PIntegrator
| pk_accelerator : pstruct_kw (s2l "Accelerator") PAccelerator.
Inductive pstr_kw : str -> (Pos -> str -> PreDirective F) -> Prop :=
| pn_coordsys : pstr_kw (s2l "CoordinateSystem") PCoordinateSystem
| pn_coordsystr : pstr_kw (s2l "CoordSysTransform") PCoordSysTransform
| pn_include : pstr_kw (s2l "Include") PInclude.
(** [numbers_kw id p fl d]: keyword [id] at position [p] with exactly the numbers [fl] means [d]. *)
Inductive numbers_kw : str -> Pos -> list F -> PreDirective F -> Prop :=
| nk_translate : forall p a b c, numbers_kw (s2l "Translate") p [a; b; c] (PTranslate p (mkV3 a b c))
| nk_scale : forall p a b c, numbers_kw (s2l "Scale") p [a; b; c] (PScale p (mkV3 a b c))
| nk_rotate : forall p a b c d, numbers_kw (s2l "Rotate") p [a; b; c; d] (PRotate p a (mkV3 b c d))
| nk_lookat : forall p a b c d e f g h i, numbers_kw (s2l "LookAt") p [a; b; c; d; e; f; g; h; i]
    (PLookAt p (mkM3 (a, b, c) (d, e, f) (g, h, i)))
| nk_transform : forall p a b c d e f g h i, numbers_kw (s2l "Transform") p [a; b; c; d; e; f; g; h; i]
    (PTransform p (mkM3 (a, b, c) (d, e, f) (g, h, i)))
| nk_concat : forall p a b c d e f g h i, numbers_kw (s2l "ConcatTransform") p [a; b; c; d; e; f; g; h; i]
    (PConcatTransform p (mkM3 (a, b, c) (d, e, f) (g, h, i)))
| nk_times : forall p a b, numbers_kw (s2l "TransformTimes") p [a; b] (PTransformTimes p a b).

Inductive predirective : toks -> PreDirective F -> toks -> Prop :=
| pd_identity : forall p r, predirective (mkTok p (TIdent (s2l "Identity")) :: r) (PIdentity p) r
| pd_numbers : forall p id fl d s r, numbers_kw id p fl d -> items float_item s fl r -> not_number r ->
    predirective (mkTok p (TIdent id) :: s) d r
| pd_str : forall p id mkP q w r, pstr_kw id mkP ->
    predirective (mkTok p (TIdent id) :: mkTok q (TStr w) :: r) (mkP p w) r
| pd_active : forall p q w r,
    predirective (mkTok p (TIdent (s2l "ActiveTransform")) :: mkTok q (TIdent w) :: r) (PActiveTransform p w) r
| pd_struct : forall p id mkP q ty s l r, pstruct_kw id mkP -> params s l r ->
    predirective (mkTok p (TIdent id) :: mkTok q (TStr ty) :: s) (mkP (mkDS ty p (collect l))) r.

Inductive predirectives : toks -> list (PreDirective F) -> toks -> Prop :=
| pds_world : forall p s, predirectives (mkTok p (TIdent (s2l "WorldBegin")) :: s) [] (mkTok p (TIdent (s2l "WorldBegin")) :: s)
| pds_cons : forall s d s' ds r, predirective s d s' -> predirectives s' ds r -> predirectives s (d :: ds) r.

(** ** Scenes: pre-directives, then the world block. Whatever follows the first closer is not looked at. *)
Inductive scene : toks -> list (PreDirective F) * Directive F -> Prop :=
| sc : forall s pres s' w r, predirectives s pres s' -> directive s' w r -> scene s (pres, w).

(** ** Running out of tokens where a pre-directive, directive or closer has to follow *)
Inductive dir_eof : toks -> Prop :=
| de_block : forall p id mkB s, block_kw id mkB -> dirs_eof s -> dir_eof (mkTok p (TIdent id) :: s)
with dirs_eof : toks -> Prop :=
| dse_nil : dirs_eof []
| dse_in : forall s, dir_eof s -> dirs_eof s
| dse_cons : forall s d s', directive s d s' -> dirs_eof s' -> dirs_eof s.
Inductive pre_eof : toks -> Prop :=
| pe_nil : pre_eof []
| pe_cons : forall s d s', predirective s d s' -> pre_eof s' -> pre_eof s.
Inductive scene_eof : toks -> Prop :=
| se_pre : forall s, pre_eof s -> scene_eof s
| se_world : forall s pres s', predirectives s pres s' -> dir_eof s' -> scene_eof s.

End Grammar.
