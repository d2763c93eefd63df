(** Declarative specification of the functions that read values: what they accept, which errors they return and where they
    stop. Only data types are shared with the model. *)
From Verif Require Import Base TokModel ParModel SceneSpec SynErrSpec.

Section Values.
Context {F : Type} (fo : FloatOps F).
Notation toks := (list (Token F)).
Notation msg := (list (piece F)).

(** [behaves p ok bad]: in front of the tokens [s], whatever was read before, [p] returns [v] and stops in front of [r] if
    and only if [ok s v r]; it returns the error [e] and stops in front of [r] if and only if [bad s e r]; it does nothing
    else, and the tokens stay as they are. *)
Definition behaves {T} (p : M (@parser F) (result T (error F))) (ok : toks -> T -> toks -> Prop)
  (bad : toks -> error F -> toks -> Prop) : Prop :=
  forall pre s, let start := mkPr (pre ++ s) (length pre) in
    (forall v st, p start = Done (Ok v, st) <->
       exists c r, s = c ++ r /\ st = mkPr (pre ++ s) (length (pre ++ c)) /\ ok s v r) /\
    (forall e st, p start = Done (Err e, st) <->
       exists c r, s = c ++ r /\ st = mkPr (pre ++ s) (length (pre ++ c)) /\ bad s e r) /\
    p start <> Panic /\ p start <> OutOfFuel.
(** The error leaves the reader where it was. *)
Definition stays (err : toks -> msg -> Prop) : toks -> error F -> toks -> Prop :=
  fun s e r => exists m, e = EStr m /\ err s m /\ r = s.

(** ** Single values *)
Inductive int_error : toks -> msg -> Prop :=
| ine_end : int_error [] [PText "parse_int(): EOF while parsing int"]
| ine_other : forall p ty s, (forall i, ty <> TInt i) ->
    int_error (mkTok p ty :: s) [PPos p; PText " parse_int(): expected int but got "; PTok ty].
Inductive bool_error : toks -> msg -> Prop :=
| boe_end : bool_error [] [PText "parse_bool(): EOF while parsing bool"]
| boe_string : forall p w s, w <> s2l "true" -> w <> s2l "false" ->
    bool_error (mkTok p (TStr w) :: s) [PPos p; PText " parse_bool(): expected bool but got "; PStrDbg w]
| boe_other : forall p ty s, (forall w, ty <> TStr w) ->
    bool_error (mkTok p ty :: s) [PPos p; PText " parse_bool(): expected int but got "; PTok ty].
Inductive float_error : toks -> msg -> Prop :=
| fle_end : float_error [] [PText "parse_float(): EOF while parsing float"]
| fle_other : forall p ty s, (forall i, ty <> TInt i) -> (forall x, ty <> TFloat x) ->
    float_error (mkTok p ty :: s) [PPos p; PText " parse_float(): expected float but got "; PTok ty].
Inductive ident_item : toks -> str -> toks -> Prop :=
| idi : forall p w r, ident_item (mkTok p (TIdent w) :: r) w r.

(** ** Sequences of values of one kind *)
Section Items.
Context {T : Type} (item : toks -> T -> toks -> Prop) (err : toks -> msg -> Prop) (name : string).
(** As many values as there are, at least one. *)
Inductive many_items : toks -> list T -> toks -> Prop :=
| mi : forall s vs r m, items item s vs r -> err r m -> many_items s vs r.
Inductive many_error : toks -> msg -> Prop :=
| me : forall s m, err s m -> many_error s
    [PText "parse_many_"; PText name; PText "s(): error while processing "; PText name; PText "s:
  "; PErr (EStr m)].
(** Exactly [n] values. *)
Inductive n_error (n : nat) : toks -> msg -> Prop :=
| nie : forall k s vs s' m, k < n -> n_items item k s vs s' -> err s' m -> n_error n s
    [PText "parse_"; PNat n; PText "_"; PText name; PText "s(): error while processing "; PText name; PText "s:
  "; PErrDbg (EStr m)].
(** A list in brackets. *)
Inductive list_error : toks -> error F -> toks -> Prop :=
| lie_end : list_error [] (EStr [PText "parse_list_"; PText name; PText "(): EOF while processing list"]) []
| lie_open : forall p ty s, ty <> TLBracket -> list_error (mkTok p ty :: s)
    (EStr [PPos p; PText " parse_list_"; PText name; PText "(): expected '[' but got "; PTok ty]) (mkTok p ty :: s)
| lie_first : forall p s m, many_error s m -> list_error (mkTok p TLBracket :: s) (EStr m) s
| lie_unclosed : forall p s vs, items item s vs [] -> list_error (mkTok p TLBracket :: s)
    (EStr [PText "parse_list_"; PText name; PText "(): EOF while processing list"]) []
| lie_close : forall p s vs q ty r, many_items s vs (mkTok q ty :: r) -> ty <> TRBracket -> list_error (mkTok p TLBracket :: s)
    (EStr [PPos q; PText " parse_list_"; PText name; PText "(): expected ']' but got "; PTok ty]) (mkTok q ty :: r).
(** A list of [n] values in brackets; with too few values the reader goes back to just after the bracket. *)
Inductive list_n_error (n : nat) : toks -> error F -> toks -> Prop :=
| lne_end : list_n_error n [] (EStr [PText "parse_list_of_n_"; PText name; PText "(): EOF while processing list"]) []
| lne_open : forall p ty s, ty <> TLBracket -> list_n_error n (mkTok p ty :: s)
    (EStr [PPos p; PText " parse_list_of_n_"; PText name; PText "s(): expected '[' but got "; PTok ty]) (mkTok p ty :: s)
| lne_few : forall p s m, n_error n s m -> list_n_error n (mkTok p TLBracket :: s) (EStr m) s
| lne_unclosed : forall p s vs, n_items item n s vs [] -> list_n_error n (mkTok p TLBracket :: s)
    (EStr [PText "parse_list_of_n_"; PText name; PText "s(): EOF while processing list"]) []
| lne_close : forall p s vs q ty r, n_items item n s vs (mkTok q ty :: r) -> ty <> TRBracket ->
    list_n_error n (mkTok p TLBracket :: s)
    (EStr [PPos q; PText " parse_list_of_"; PNat n; PText "_"; PText name; PText "s(): expected ']' but got "; PTok ty]) (mkTok q ty :: r).
(** A value or a list in brackets. *)
Inductive one_error : toks -> error F -> toks -> Prop :=
| one_end : one_error [] (EStr [PText "parse_one_or_list_"; PText name; PText "(): EOF while processing list"]) []
| one_list : forall p s e r, list_error (mkTok p TLBracket :: s) e r -> one_error (mkTok p TLBracket :: s) e r
| one_value : forall p ty s m, ty <> TLBracket -> err (mkTok p ty :: s) m -> one_error (mkTok p ty :: s) (EStr m) (mkTok p ty :: s).
End Items.

(** ** Pairs: two floats *)
Definition pair_error : toks -> msg -> Prop := n_error (float_item fo) float_error "float" 2.

(** ** Spectra *)
Inductive spectrum_item : toks -> Spectrum F -> toks -> Prop :=
| spi_list : forall s l r, bracketed (float_item fo) s (unpair l) r -> spectrum_item s (SpSpectrum l) r
| spi_file : forall s w r, str_item s w r -> spectrum_item s (SpFile w) r.
Inductive spectrum_error : toks -> error F -> toks -> Prop :=
| spe_end : spectrum_error [] (EStr [PText "parse_spectrum(): EOF while processing spectrum"]) []
| spe_other : forall p ty s, ty <> TLBracket -> (forall w, ty <> TStr w) -> spectrum_error (mkTok p ty :: s)
    (EStr [PPos p; PText " parse_spectrum(): expected '[' or string but got "; PTok ty]) (mkTok p ty :: s)
| spe_list : forall p s e r, list_error (float_item fo) float_error "float" (mkTok p TLBracket :: s) e r ->
    spectrum_error (mkTok p TLBracket :: s) e r
| spe_odd : forall p s l r, bracketed (float_item fo) (mkTok p TLBracket :: s) l r -> Nat.odd (length l) = true ->
    spectrum_error (mkTok p TLBracket :: s)
      (EStr [PPos p; PText " parse_spectrum(): Expected an even number of floats but got "; PNat (length l)]) r.

(** ** Parameters: a header and a value *)
Inductive value_error : str -> toks -> error F -> toks -> Prop :=
| vee_int : forall s e r, one_error int_item int_error "int" s e r -> value_error (s2l "integer") s e r
| vee_float : forall s e r, one_error (float_item fo) float_error "float" s e r -> value_error (s2l "float") s e r
| vee_point2 : forall s e r, list_error (point2_item fo) pair_error "point2f" s e r -> value_error (s2l "point2") s e r
| vee_vector2 : forall s e r, list_error (vector2_item fo) pair_error "vector2f" s e r -> value_error (s2l "vector2") s e r
| vee_bool : forall s e r, one_error bool_item bool_error "bool" s e r -> value_error (s2l "bool") s e r
| vee_string : forall s e r, one_error str_item string_error "string" s e r -> value_error (s2l "string") s e r
| vee_rgb : forall s e r, list_n_error (float_item fo) float_error "float" 3 s e r -> value_error (s2l "rgb") s e r
| vee_xyz : forall s e r, list_n_error (float_item fo) float_error "float" 3 s e r -> value_error (s2l "xyz") s e r
| vee_spectrum : forall s e r, spectrum_error s e r -> value_error (s2l "spectrum") s e r
| vee_blackbody : forall s e r, list_n_error (float_item fo) float_error "float" 2 s e r -> value_error (s2l "blackbody") s e r
| vee_texture : forall s m, string_error s m -> value_error (s2l "texture") s (EStr m) s.
Inductive param_error : toks -> error F -> toks -> Prop :=
| pae_end : param_error [] (EStr [PText "parse_param_list(): EOF while processing param list"]) []
| pae_other : forall p ty s, (forall w, ty <> TStr w) -> param_error (mkTok p ty :: s)
    (EStr [PPos p; PText " parse_param_list(): expected param list, got "; PTok ty]) (mkTok p ty :: s)
| pae_header : forall p h s, (forall ty name, ~ header h ty name) -> param_error (mkTok p (TStr h) :: s)
    (EStr [PPos p; PText " parse_param_list(): expecting a string with two arguments but got "; PStr h]) (mkTok p (TStr h) :: s)
| pae_type : forall p h ty name s, header h ty name -> ~ known ty -> param_error (mkTok p (TStr h) :: s)
    (EStr [PPos p; PText " parse_param_list(): expecting a type but got "; PStr ty]) (mkTok p (TStr h) :: s)
| pae_value : forall p h ty name s e r, header h ty name -> value_error ty s e r -> param_error (mkTok p (TStr h) :: s) e r.

(** The functions that read one value, what they accept and how they fail. *)
Inductive reader : forall T, M (@parser F) (result T (error F)) -> (toks -> T -> toks -> Prop) -> (toks -> msg -> Prop) -> Prop :=
| rd_int : reader Z parse_int int_item int_error
| rd_string : reader str parse_string str_item string_error
| rd_bool : reader bool parse_bool bool_item bool_error
| rd_float : reader F (parse_float fo) (float_item fo) float_error
| rd_point2 : reader (Point2f F) (parse_point2f fo) (point2_item fo) pair_error
| rd_vector2 : reader (Vector2f F) (parse_vector2f fo) (vector2_item fo) pair_error.

(** The parameter set with one more parameter, filed last under its type. *)
Definition filed (ps : ParamSet F) (i : pitem) : ParamSet F :=
  let add {T} (l : list (Param T)) (v : list T) := l ++ [mkParam (pi_name i) (pi_pos i) v] in
  match ps with
  | mkPS bs is fs p2 v2 p3 v3 n3 sp ss ts =>
      match pi_val i with
      | VBools l => mkPS (add bs l) is fs p2 v2 p3 v3 n3 sp ss ts
      | VInts l => mkPS bs (add is l) fs p2 v2 p3 v3 n3 sp ss ts
      | VFloats l => mkPS bs is (add fs l) p2 v2 p3 v3 n3 sp ss ts
      | VPoints l => mkPS bs is fs (add p2 l) v2 p3 v3 n3 sp ss ts
      | VVectors l => mkPS bs is fs p2 (add v2 l) p3 v3 n3 sp ss ts
      | VSpectrum s => mkPS bs is fs p2 v2 p3 v3 n3 (add sp [s]) ss ts
      | VStrings l => mkPS bs is fs p2 v2 p3 v3 n3 sp (add ss l) ts
      | VTexture s => mkPS bs is fs p2 v2 p3 v3 n3 sp ss (add ts [s])
      end
  end.
End Values.
