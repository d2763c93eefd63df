(** Declarative specification of syntax errors: which token lists are rejected and with which message. Like SceneSpec,
    only data types are shared with the model. *)
From Verif Require Import Base TokModel ParModel SceneSpec.

Section SynErr.
Context {F : Type} (fo : FloatOps F).
Notation toks := (list (Token F)).
Notation msg := (list (piece F)).

(** ** Where the reading of parameters stops
    A malformed parameter is no error by itself: reading stops inside it, and what follows has to be the next directive.
    [..._fail s r]: a value (of the kind given) read from [s] is given up in front of [r]. *)
Definition no_item {T} (item : toks -> T -> toks -> Prop) (s : toks) : Prop := forall v r, ~ item s v r.

(** Exactly [n] values. *)
Inductive n_items {T} (item : toks -> T -> toks -> Prop) : nat -> toks -> list T -> toks -> Prop :=
| ni_O : forall s, n_items item 0 s [] s
| ni_S : forall n s v s' vs r, item s v s' -> n_items item n s' vs r -> n_items item (S n) s (v :: vs) r.
Definition no_n {T} (item : toks -> T -> toks -> Prop) n s : Prop := forall vs r, ~ n_items item n s vs r.

Section Lists.
Context {T : Type} (item : toks -> T -> toks -> Prop).
(** A bracketed list. *)
Inductive list_fail : toks -> toks -> Prop :=
| lf_none : forall s, (forall q s', s <> mkTok q TLBracket :: s') -> list_fail s s
| lf_first : forall q s, no_item item s -> list_fail (mkTok q TLBracket :: s) s
| lf_close : forall q s vs r, items item s vs r -> no_item item r -> (forall q s', r <> mkTok q TRBracket :: s') ->
    list_fail (mkTok q TLBracket :: s) r.
(** One value or a bracketed list. *)
Inductive one_fail : toks -> toks -> Prop :=
| of_one : forall s, (forall q s', s <> mkTok q TLBracket :: s') -> no_item item s -> one_fail s s
| of_list : forall q s r, list_fail (mkTok q TLBracket :: s) r -> one_fail (mkTok q TLBracket :: s) r.
(** A bracketed list of exactly [S n] values. With fewer values the reader goes back to just after the bracket. *)
Inductive n_fail (n : nat) : toks -> toks -> Prop :=
| nf_none : forall s, (forall q s', s <> mkTok q TLBracket :: s') -> n_fail n s s
| nf_few : forall q s, no_n item (S n) s -> n_fail n (mkTok q TLBracket :: s) s
| nf_close : forall q s vs r, n_items item (S n) s vs r -> (forall q s', r <> mkTok q TRBracket :: s') ->
    n_fail n (mkTok q TLBracket :: s) r.
End Lists.

(** A spectrum: a bracketed list of an even number of values, or a file name. *)
Inductive spectrum_fail : toks -> toks -> Prop :=
| sf_none : forall s, (forall q s', s <> mkTok q TLBracket :: s') -> no_item str_item s -> spectrum_fail s s
| sf_list : forall q s r, list_fail (float_item fo) (mkTok q TLBracket :: s) r -> spectrum_fail (mkTok q TLBracket :: s) r
| sf_odd : forall s l r, bracketed (float_item fo) s l r -> Nat.odd (length l) = true -> spectrum_fail s r.

Inductive value_fail : str -> toks -> toks -> Prop :=
| vf_int : forall s r, one_fail int_item s r -> value_fail (s2l "integer") s r
| vf_float : forall s r, one_fail (float_item fo) s r -> value_fail (s2l "float") s r
| vf_point2 : forall s r, list_fail (point2_item fo) s r -> value_fail (s2l "point2") s r
| vf_vector2 : forall s r, list_fail (vector2_item fo) s r -> value_fail (s2l "vector2") s r
| vf_bool : forall s r, one_fail bool_item s r -> value_fail (s2l "bool") s r
| vf_string : forall s r, one_fail str_item s r -> value_fail (s2l "string") s r
| vf_rgb : forall s r, n_fail (float_item fo) 2 s r -> value_fail (s2l "rgb") s r
| vf_xyz : forall s r, n_fail (float_item fo) 2 s r -> value_fail (s2l "xyz") s r
| vf_spectrum : forall s r, spectrum_fail s r -> value_fail (s2l "spectrum") s r
| vf_blackbody : forall s r, n_fail (float_item fo) 1 s r -> value_fail (s2l "blackbody") s r
| vf_texture : forall s, no_item str_item s -> value_fail (s2l "texture") s s.

Inductive param_fail : toks -> toks -> Prop :=
| pf_none : forall s, (forall p h s', s <> mkTok p (TStr h) :: s') -> param_fail s s
| pf_header : forall p h s, (forall ty name, ~ header h ty name) -> param_fail (mkTok p (TStr h) :: s) (mkTok p (TStr h) :: s)
| pf_type : forall p h ty name s, header h ty name -> ~ known ty -> param_fail (mkTok p (TStr h) :: s) (mkTok p (TStr h) :: s)
| pf_value : forall p h ty name s r, header h ty name -> value_fail ty s r -> param_fail (mkTok p (TStr h) :: s) r.

(** All parameters of a directive: [params_run s l r]: the well-formed parameters [l] are read, reading stops at [r]. *)
Inductive params_run : toks -> list pitem -> toks -> Prop :=
| pr_end : forall s r, param_fail s r -> params_run s [] r
| pr_more : forall s i s' l r, param fo s i s' -> params_run s' l r -> params_run s (i :: l) r.

(** ** Messages *)
(** A string, or an identifier, was required at [s]. *)
Inductive string_error : toks -> msg -> Prop :=
| se_end : string_error [] [PText "parse_string(): EOF while processing string"]
| se_other : forall p ty s, (forall w, ty <> TStr w) ->
    string_error (mkTok p ty :: s) [PPos p; PText " parse_string(): expected string but got "; PTok ty].
Inductive ident_error : toks -> msg -> Prop :=
| ide_end : ident_error [] [PText "parse_identifier(): EOF while processing identifier"]
| ide_other : forall p ty s, (forall w, ty <> TIdent w) ->
    ident_error (mkTok p ty :: s) [PPos p; PText " parse_identifier(): expected identifier but got "; PTok ty].
(** Numbers were required at [s] and there are none. *)
Inductive number_error : toks -> msg -> Prop :=
| nre_end : number_error [] [PText "parse_float(): EOF while parsing float"]
| nre_other : forall p ty s, not_number (mkTok p ty :: s) ->
    number_error (mkTok p ty :: s) [PPos p; PText " parse_float(): expected float but got "; PTok ty].

(** ** Pre-directives *)
Inductive count_kw : string -> nat -> Prop :=
| ck_translate : count_kw "Translate" 3
| ck_scale : count_kw "Scale" 3
| ck_rotate : count_kw "Rotate" 4
| ck_lookat : count_kw "LookAt" 9
| ck_transform : count_kw "Transform" 9
| ck_concat : count_kw "ConcatTransform" 9
| ck_times : count_kw "TransformTimes" 2.

Definition pre_keywords : list str := map s2l
  ["Identity"; "Translate"; "Scale"; "Rotate"; "LookAt"; "CoordinateSystem"; "CoordSysTransform"; "Transform";
   "ConcatTransform"; "ActiveTransform"; "TransformTimes"; "Camera"; "Sampler"; "Film"; "Filter"; "Integrator";
   "Accelerator"; "Include"]%string.

(** [pre_error s m]: the pre-directive that starts [s] is malformed. *)
Inductive pre_error : toks -> msg -> Prop :=
| pre_struct : forall p id mkP s m, pstruct_kw (F := F) id mkP -> string_error s m -> pre_error (mkTok p (TIdent id) :: s) m
| pre_str : forall p id mkP s m, pstr_kw (F := F) id mkP -> string_error s m -> pre_error (mkTok p (TIdent id) :: s) m
| pre_active : forall p s m, ident_error s m -> pre_error (mkTok p (TIdent (s2l "ActiveTransform")) :: s) m
| pre_no_number : forall p what n s m, count_kw what n -> number_error s m ->
    pre_error (mkTok p (TIdent (s2l what)) :: s)
      [PText "parse_many_"; PText "float"; PText "s(): error while processing "; PText "float"; PText "s:
  "; PErr (EStr m)]
| pre_count : forall p what n s fl r, count_kw what n -> items (float_item fo) s fl r -> not_number r -> length fl <> n ->
    pre_error (mkTok p (TIdent (s2l what)) :: s)
      [PPos p; PText " parse_predirective(): "; PText what; PText " expects "; PNat n; PText " floats but was given ";
       PNat (length fl)]
| pre_unknown : forall p id s, id <> s2l "WorldBegin" -> ~ In id pre_keywords ->
    pre_error (mkTok p (TIdent id) :: s) [PPos p; PText " parse_predirective(): Unknown predirective: "; PStr id].

(** [pres_error s m]: some pre-directive from [s] on is malformed, or is followed by something else than an identifier. *)
Inductive pres_error : toks -> msg -> Prop :=
| pres_token : forall p ty s, (forall w, ty <> TIdent w) ->
    pres_error (mkTok p ty :: s) [PPos p; PText " parse_predirectives(): expected predirective but got "; PTok ty]
| pres_stuck : forall p id mkP q w s l p' ty r, pstruct_kw (F := F) id mkP -> params_run s l (mkTok p' ty :: r) ->
    (forall w, ty <> TIdent w) ->
    pres_error (mkTok p (TIdent id) :: mkTok q (TStr w) :: s)
      [PPos p'; PText " parse_predirectives(): expected predirective but got "; PTok ty]
| pres_here : forall s m, pre_error s m -> pres_error s m
| pres_cons : forall s d s' m, predirective fo s d s' -> pres_error s' m -> pres_error s m.

(** ** Directives *)
Definition dir_keywords : list str := map s2l
  ["Material"; "Shape"; "LightSource"; "AreaLightSource"; "AttributeBegin"; "TransformBegin"; "WorldBegin"; "Include";
   "Texture"]%string.

Inductive dir_error : toks -> msg -> Prop :=
| dir_struct : forall p id mkD s m, struct_kw (F := F) id mkD -> string_error s m -> dir_error (mkTok p (TIdent id) :: s) m
| dir_include : forall p s m, string_error s m -> dir_error (mkTok p (TIdent (s2l "Include")) :: s) m
| dir_texture1 : forall p s m, string_error s m -> dir_error (mkTok p (TIdent (s2l "Texture")) :: s) m
| dir_texture2 : forall p q w s m, string_error s m ->
    dir_error (mkTok p (TIdent (s2l "Texture")) :: mkTok q (TStr w) :: s) m
| dir_texture3 : forall p q w q' w' s m, string_error s m ->
    dir_error (mkTok p (TIdent (s2l "Texture")) :: mkTok q (TStr w) :: mkTok q' (TStr w') :: s) m
| dir_block : forall p id mkB s m, block_kw (F := F) id mkB -> dirs_error s m -> dir_error (mkTok p (TIdent id) :: s) m
| dir_unknown : forall p id s, ~ In id closers -> ~ In id dir_keywords ->
    dir_error (mkTok p (TIdent id) :: s) [PPos p; PText " parse_directive(): unknown identifier "; PStr id]
with dirs_error : toks -> msg -> Prop :=
| dirs_token : forall p ty s, (forall w, ty <> TIdent w) ->
    dirs_error (mkTok p ty :: s) [PPos p; PText " parse_directives(): expected identifier or block close but got "; PTok ty]
| dirs_stuck : forall p id mkD q w s l p' ty r, struct_kw (F := F) id mkD -> params_run s l (mkTok p' ty :: r) ->
    (forall w, ty <> TIdent w) ->
    dirs_error (mkTok p (TIdent id) :: mkTok q (TStr w) :: s)
      [PPos p'; PText " parse_directives(): expected identifier or block close but got "; PTok ty]
| dirs_stuck_texture : forall p q1 w1 q2 w2 q3 w3 s l p' ty r, params_run s l (mkTok p' ty :: r) ->
    (forall w, ty <> TIdent w) ->
    dirs_error (mkTok p (TIdent (s2l "Texture")) :: mkTok q1 (TStr w1) :: mkTok q2 (TStr w2) :: mkTok q3 (TStr w3) :: s)
      [PPos p'; PText " parse_directives(): expected identifier or block close but got "; PTok ty]
| dirs_here : forall s m, dir_error s m -> dirs_error s m
| dirs_cons : forall s d s' m, directive fo s d s' -> dirs_error s' m -> dirs_error s m.

(** ** Scenes *)
Inductive scene_error : toks -> msg -> Prop :=
| sce_pre : forall s m, pres_error s m -> scene_error s m
| sce_world : forall s pres s' m, predirectives fo s pres s' -> dir_error s' m -> scene_error s m.

End SynErr.
