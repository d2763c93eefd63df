(** Model of the parser: /repo/src/parser.rs lines 36-193, 213-261 and 522-1362. *)
From Verif Require Import Base TokModel.
Open Scope mon_scope.

(** src/core/point.rs 5-9, vector.rs 5-9, 40-45, matrix.rs 4-7: the value types the parser builds. *)
Record Point2f (F : Type) := mkP2 { p2_x : F; p2_y : F }.
Record Vector2f (F : Type) := mkV2 { v2_x : F; v2_y : F }.
Record Point3f (F : Type) := mkP3 { p3_x : F; p3_y : F; p3_z : F }.
Record Vector3f (F : Type) := mkV3 { v3_x : F; v3_y : F; v3_z : F }.
Record Normal3f (F : Type) := mkN3 { n3_x : F; n3_y : F; n3_z : F }.
(** [[f; 3]; 3], row by row. *)
Record Matrix3f (F : Type) := mkM3 { m3_r0 : F * F * F; m3_r1 : F * F * F; m3_r2 : F * F * F }.
Arguments mkP2 {F}. Arguments mkV2 {F}. Arguments mkP3 {F}. Arguments mkV3 {F}. Arguments mkN3 {F}. Arguments mkM3 {F}.

(** src/core/mod.rs 123-130 [enum Spectrum]; a [PathBuf] is its string. *)
Inductive Spectrum (F : Type) : Type :=
| SpRgb (a b c : F)
| SpXyz (a b c : F)
| SpSpectrum (l : list (F * F))
| SpFile (path : str)
| SpBlackbody (a b : F).
Arguments SpRgb {F}. Arguments SpXyz {F}. Arguments SpSpectrum {F}. Arguments SpFile {F}. Arguments SpBlackbody {F}.

(** parser.rs 178-193 [struct Param<T>]. *)
Record Param (T : Type) := mkParam { par_name : str; par_pos : Pos; par_values : list T }.
Arguments mkParam {T}. Arguments par_name {T}. Arguments par_pos {T}. Arguments par_values {T}.

(** parser.rs 63-76 [struct ParamSet]. *)
Record ParamSet (F : Type) := mkPS {
  ps_bools : list (Param bool);
  ps_ints : list (Param Z);
  ps_floats : list (Param F);
  ps_point2fs : list (Param (Point2f F));
  ps_vector2fs : list (Param (Vector2f F));
  ps_point3fs : list (Param (Point3f F));
  ps_vector3fs : list (Param (Vector3f F));
  ps_normal3fs : list (Param (Normal3f F));
  ps_spectra : list (Param (Spectrum F));
  ps_strings : list (Param str);
  ps_textures : list (Param str)
}.
Arguments mkPS {F}. Arguments ps_bools {F}. Arguments ps_ints {F}. Arguments ps_floats {F}.
Arguments ps_point2fs {F}. Arguments ps_vector2fs {F}. Arguments ps_point3fs {F}. Arguments ps_vector3fs {F}.
Arguments ps_normal3fs {F}. Arguments ps_spectra {F}. Arguments ps_strings {F}. Arguments ps_textures {F}.

(** parser.rs 78-94 [ParamSet::default]. *)
Definition ps_empty {F} : ParamSet F := mkPS [] [] [] [] [] [] [] [] [] [] [].

(** [param_set.<vector>.push(..)] for the vectors the parser pushes to (parser.rs 584-670). *)
Definition ps_push_bool {F} (s : ParamSet F) p := mkPS (ps_bools s ++ [p]) (ps_ints s) (ps_floats s) (ps_point2fs s) (ps_vector2fs s) (ps_point3fs s) (ps_vector3fs s) (ps_normal3fs s) (ps_spectra s) (ps_strings s) (ps_textures s).
Definition ps_push_int {F} (s : ParamSet F) p := mkPS (ps_bools s) (ps_ints s ++ [p]) (ps_floats s) (ps_point2fs s) (ps_vector2fs s) (ps_point3fs s) (ps_vector3fs s) (ps_normal3fs s) (ps_spectra s) (ps_strings s) (ps_textures s).
Definition ps_push_float {F} (s : ParamSet F) p := mkPS (ps_bools s) (ps_ints s) (ps_floats s ++ [p]) (ps_point2fs s) (ps_vector2fs s) (ps_point3fs s) (ps_vector3fs s) (ps_normal3fs s) (ps_spectra s) (ps_strings s) (ps_textures s).
Definition ps_push_point2 {F} (s : ParamSet F) p := mkPS (ps_bools s) (ps_ints s) (ps_floats s) (ps_point2fs s ++ [p]) (ps_vector2fs s) (ps_point3fs s) (ps_vector3fs s) (ps_normal3fs s) (ps_spectra s) (ps_strings s) (ps_textures s).
Definition ps_push_vector2 {F} (s : ParamSet F) p := mkPS (ps_bools s) (ps_ints s) (ps_floats s) (ps_point2fs s) (ps_vector2fs s ++ [p]) (ps_point3fs s) (ps_vector3fs s) (ps_normal3fs s) (ps_spectra s) (ps_strings s) (ps_textures s).
Definition ps_push_spectrum {F} (s : ParamSet F) p := mkPS (ps_bools s) (ps_ints s) (ps_floats s) (ps_point2fs s) (ps_vector2fs s) (ps_point3fs s) (ps_vector3fs s) (ps_normal3fs s) (ps_spectra s ++ [p]) (ps_strings s) (ps_textures s).
Definition ps_push_string {F} (s : ParamSet F) p := mkPS (ps_bools s) (ps_ints s) (ps_floats s) (ps_point2fs s) (ps_vector2fs s) (ps_point3fs s) (ps_vector3fs s) (ps_normal3fs s) (ps_spectra s) (ps_strings s ++ [p]) (ps_textures s).
Definition ps_push_texture {F} (s : ParamSet F) p := mkPS (ps_bools s) (ps_ints s) (ps_floats s) (ps_point2fs s) (ps_vector2fs s) (ps_point3fs s) (ps_vector3fs s) (ps_normal3fs s) (ps_spectra s) (ps_strings s) (ps_textures s ++ [p]).

(** parser.rs 156-161 [struct DirectiveStruct]. *)
Record DirectiveStruct (F : Type) := mkDS { ds_ty : str; ds_pos : Pos; ds_params : ParamSet F }.
Arguments mkDS {F}. Arguments ds_ty {F}. Arguments ds_pos {F}. Arguments ds_params {F}.

(** parser.rs 163-170 [struct TextureStruct]. *)
Record TextureStruct (F : Type) := mkTS {
  ts_name : str; ts_ty : str; ts_class : str; ts_pos : Pos; ts_params : ParamSet F }.
Arguments mkTS {F}. Arguments ts_name {F}. Arguments ts_ty {F}. Arguments ts_class {F}. Arguments ts_pos {F}. Arguments ts_params {F}.

(** parser.rs 143-154 [enum Directive], with [BlockStruct] (172-176) inlined as position and children. *)
Inductive Directive (F : Type) : Type :=
| DMaterial (d : DirectiveStruct F)
| DShape (d : DirectiveStruct F)
| DLightSource (d : DirectiveStruct F)
| DAreaLightSource (d : DirectiveStruct F)
| DAttribute (p : Pos) (children : list (Directive F))
| DTransform (p : Pos) (children : list (Directive F))
| DWorld (p : Pos) (children : list (Directive F))
| DInclude (p : Pos) (path : str)
| DTexture (t : TextureStruct F).
Arguments DMaterial {F}. Arguments DShape {F}. Arguments DLightSource {F}. Arguments DAreaLightSource {F}.
Arguments DAttribute {F}. Arguments DTransform {F}. Arguments DWorld {F}. Arguments DInclude {F}. Arguments DTexture {F}.

(** parser.rs 36-61 [enum PreDirective]. *)
Inductive PreDirective (F : Type) : Type :=
| PIdentity (p : Pos)
| PTranslate (p : Pos) (v : Vector3f F)
| PScale (p : Pos) (v : Vector3f F)
| PRotate (p : Pos) (a : F) (v : Vector3f F)
| PLookAt (p : Pos) (m : Matrix3f F)
| PCoordinateSystem (p : Pos) (s : str)
| PCoordSysTransform (p : Pos) (s : str)
| PTransform (p : Pos) (m : Matrix3f F)
| PConcatTransform (p : Pos) (m : Matrix3f F)
| PActiveTransform (p : Pos) (s : str)
| PTransformTimes (p : Pos) (a b : F)
| PCamera (d : DirectiveStruct F)
| PSampler (d : DirectiveStruct F)
| PFilm (d : DirectiveStruct F)
| PFilter (d : DirectiveStruct F)
| PIntegrator (d : DirectiveStruct F)
| PAccelerator (d : DirectiveStruct F)
| PInclude (p : Pos) (path : str).
Arguments PIdentity {F}. Arguments PTranslate {F}. Arguments PScale {F}. Arguments PRotate {F}. Arguments PLookAt {F}.
Arguments PCoordinateSystem {F}. Arguments PCoordSysTransform {F}. Arguments PTransform {F}. Arguments PConcatTransform {F}.
Arguments PActiveTransform {F}. Arguments PTransformTimes {F}. Arguments PCamera {F}. Arguments PSampler {F}. Arguments PFilm {F}.
Arguments PFilter {F}. Arguments PIntegrator {F}. Arguments PAccelerator {F}. Arguments PInclude {F}.

(** [str::split_whitespace] (used by parser.rs 574): the maximal runs of non-white-space characters. *)
Fixpoint split_ws_from (cur : str) (s : str) : list str :=
  match s with
  | [] => match cur with [] => [] | _ => [cur] end
  | c :: t => if is_whitespace c
              then match cur with [] => split_ws_from [] t | _ => cur :: split_ws_from [] t end
              else split_ws_from (cur ++ [c]) t
  end.
Definition split_whitespace (s : str) : list str := split_ws_from [] s.

(** [slice.chunks(2)] with both elements read (parser.rs 1336); an odd rest would be indexed out of range and panic. *)
Fixpoint chunks2 {A} (l : list A) : out (list (A * A)) :=
  match l with
  | [] => Done []
  | [_] => Panic
  | a :: b :: t => obind (chunks2 t) (fun r => Done ((a, b) :: r))
  end.

Section Parser.
Context {F : Type} (fo : FloatOps F).

(** parser.rs 213-216 [struct Parser]. *)
Record parser := mkPr { pr_tokens : list (Token F); pr_index : nat }.

Notation err := (error F).
Notation PM A := (M parser (result A (error F))).

(** parser.rs 547-549 [Parser::is_empty]. *)
Definition pr_is_empty (p : parser) : bool := List.length (pr_tokens p) <=? pr_index p.

(** parser.rs 530-536 [Parser::peek]. *)
Definition pr_peek : PM (Token F) :=
  fun p => if negb (pr_is_empty p)
           then match nth_error (pr_tokens p) (pr_index p) with
                | Some t => Done (Ok t, p)
                | None => Panic
                end
           else Done (Err EEof, p).

(** parser.rs 538-545 [Parser::next]. *)
Definition pr_next : PM (Token F) :=
  fun p => if pr_is_empty p then Done (Err EEof, p)
           else match nth_error (pr_tokens p) (pr_index p) with
                | Some t => Done (Ok t, mkPr (pr_tokens p) (pr_index p + 1))
                | None => Panic
                end.

(** parser.rs 551-557 [Parser::pos]. *)
Definition pr_pos : PM Pos :=
  fun p => if List.length (pr_tokens p) <=? pr_index p then Done (Err EEof, p)
           else match nth_error (pr_tokens p) (pr_index p) with
                | Some t => Done (Ok (tok_pos t), p)
                | None => Panic
                end.

(** parser.rs 559-561 [Parser::set_index]. *)
Definition set_index (i : nat) : M parser unit := fun p => Done (tt, mkPr (pr_tokens p) i).

(** Indexing [v[i]] of a Vec: panics out of range. *)
Definition vidx {A} (v : list A) (i : nat) : M parser A :=
  match nth_error v i with Some a => ret a | None => panic end.

(** parser.rs 823-841 [Parser::parse_int]. *)
Definition parse_int : PM Z :=
  r <- pr_peek ;;
  match r with
  | Ok (mkTok pos ty) =>
      match ty with
      | TInt i => _ <- pr_next ;; ret (Ok i)
      | _ => ret (Err (EStr [PPos pos; PText " parse_int(): expected int but got "; PTok ty]))
      end
  | Err EEof => ret (Err (EStr [PText "parse_int(): EOF while parsing int"]))
  | Err e => ret (Err e)
  end.

(** parser.rs 843-861 [Parser::parse_string]. *)
Definition parse_string : PM str :=
  r <- pr_peek ;;
  match r with
  | Ok (mkTok pos ty) =>
      match ty with
      | TStr s => _ <- pr_next ;; ret (Ok s)
      | _ => ret (Err (EStr [PPos pos; PText " parse_string(): expected string but got "; PTok ty]))
      end
  | Err EEof => ret (Err (EStr [PText "parse_string(): EOF while processing string"]))
  | Err e => ret (Err e)
  end.

(** parser.rs 863-881 [Parser::parse_identifier]. *)
Definition parse_identifier : PM str :=
  r <- pr_peek ;;
  match r with
  | Ok (mkTok pos ty) =>
      match ty with
      | TIdent s => _ <- pr_next ;; ret (Ok s)
      | _ => ret (Err (EStr [PPos pos; PText " parse_identifier(): expected identifier but got "; PTok ty]))
      end
  | Err EEof => ret (Err (EStr [PText "parse_identifier(): EOF while processing identifier"]))
  | Err e => ret (Err e)
  end.

(** parser.rs 883-911 [Parser::parse_bool]. *)
Definition parse_bool : PM bool :=
  r <- pr_peek ;;
  match r with
  | Ok (mkTok pos ty) =>
      match ty with
      | TStr s =>
          if str_eqb s (s2l "true") then _ <-? pr_next ;; ret (Ok true)
          else if str_eqb s (s2l "false") then _ <-? pr_next ;; ret (Ok false)
          else ret (Err (EStr [PPos pos; PText " parse_bool(): expected bool but got "; PStrDbg s]))
      | _ => ret (Err (EStr [PPos pos; PText " parse_bool(): expected int but got "; PTok ty]))
      end
  | Err EEof => ret (Err (EStr [PText "parse_bool(): EOF while parsing bool"]))
  | Err e => ret (Err e)
  end.

(** parser.rs 913-938 [Parser::parse_float]. *)
Definition parse_float : PM F :=
  r <- pr_peek ;;
  match r with
  | Ok (mkTok pos ty) =>
      match ty with
      | TFloat f => _ <-? pr_next ;; ret (Ok f)
      | TInt i => _ <-? pr_next ;; ret (Ok (f_of_isize fo i))
      | _ => ret (Err (EStr [PPos pos; PText " parse_float(): expected float but got "; PTok ty]))
      end
  | Err EEof => ret (Err (EStr [PText "parse_float(): EOF while parsing float"]))
  | Err e => ret (Err e)
  end.

(** parser.rs 949-965: the loop of [parse_many]. *)
Fixpoint parse_many_loop {T} (p : PM T) (name : string) (fuel : nat) (values : list T) : PM (list T) :=
  match fuel with
  | 0 => out_of_fuel
  | S n =>
      r <- p ;;
      match r with
      | Ok i => parse_many_loop p name n (values ++ [i])
      | Err e =>
          match values with
          | [] => ret (Err (EStr [PText "parse_many_"; PText name; PText "s(): error while processing ";
                                  PText name; PText "s:
  "; PErr e]))
          | _ => ret (Ok values)
          end
      end
  end.

(** Fuel of the token loops: more than the number of tokens. *)
Definition pr_fuel (p : parser) : nat := S (List.length (pr_tokens p)).

(** parser.rs 944-966 [Parser::parse_many]. *)
Definition parse_many {T} (p : PM T) (name : string) : PM (list T) :=
  st <- get ;; parse_many_loop p name (pr_fuel st) [].

(** parser.rs 940-942 [Parser::parse_floats]. *)
Definition parse_floats : PM (list F) := parse_many parse_float "float".

(** parser.rs 977-991: the loop of [parse_n]; [n] is the value of the argument (for the message), [k] iterations remain. *)
Fixpoint parse_n_loop {T} (p : PM T) (n : nat) (name : string) (start_index : nat) (k : nat) (values : list T)
  : PM (list T) :=
  match k with
  | 0 => ret (Ok values)
  | S k' =>
      r <- p ;;
      match r with
      | Ok i => parse_n_loop p n name start_index k' (values ++ [i])
      | Err e =>
          _ <- set_index start_index ;;
          ret (Err (EStr [PText "parse_"; PNat n; PText "_"; PText name; PText "s(): error while processing ";
                          PText name; PText "s:
  "; PErrDbg e]))
      end
  end.

(** parser.rs 968-992 [Parser::parse_n], with its assertion. *)
Definition parse_n {T} (p : PM T) (n : nat) (name : string) : PM (list T) :=
  if 0 <? n then
    st <- get ;; parse_n_loop p n name (pr_index st) n []
  else panic.

(** parser.rs 692-744 [Parser::parse_list]. *)
Definition parse_list {T} (p : PM T) (name : string) : PM (list T) :=
  r <- pr_peek ;;
  match r with
  | Ok (mkTok start_pos ty0) =>
      match ty0 with
      | TLBracket =>
          _ <- pr_next ;;
          values <-? parse_many p name ;;
          r2 <- pr_peek ;;
          match r2 with
          | Ok (mkTok pos ty) =>
              match ty with
              | TRBracket =>
                  match values with
                  | [] => ret (Err (EStr [PPos start_pos; PText " parse_list_"; PText name; PText "(): parsed empty list"]))
                  | _ => _ <-? pr_next ;; ret (Ok values)
                  end
              | _ => ret (Err (EStr [PPos pos; PText " parse_list_"; PText name; PText "(): expected ']' but got "; PTok ty]))
              end
          | Err EEof => ret (Err (EStr [PText "parse_list_"; PText name; PText "(): EOF while processing list"]))
          | Err e => ret (Err e)
          end
      | _ => ret (Err (EStr [PPos start_pos; PText " parse_list_"; PText name; PText "(): expected '[' but got "; PTok ty0]))
      end
  | Err EEof => ret (Err (EStr [PText "parse_list_"; PText name; PText "(): EOF while processing list"]))
  | Err e => ret (Err e)
  end.

(** parser.rs 746-802 [Parser::parse_list_of_n]. *)
Definition parse_list_of_n {T} (p : PM T) (n : nat) (name : string) : PM (list T) :=
  r <- pr_peek ;;
  match r with
  | Ok (mkTok start_pos ty0) =>
      match ty0 with
      | TLBracket =>
          _ <- pr_next ;;
          values <-? parse_n p n name ;;
          r2 <- pr_peek ;;
          match r2 with
          | Ok (mkTok pos ty) =>
              match ty with
              | TRBracket =>
                  match values with
                  | [] => ret (Err (EStr [PPos start_pos; PText " parse_list_of_"; PNat n; PText "_"; PText name; PText "s(): parsed empty list"]))
                  | _ => _ <-? pr_next ;; ret (Ok values)
                  end
              | _ => ret (Err (EStr [PPos pos; PText " parse_list_of_"; PNat n; PText "_"; PText name; PText "s(): expected ']' but got "; PTok ty]))
              end
          | Err EEof => ret (Err (EStr [PText "parse_list_of_n_"; PText name; PText "s(): EOF while processing list"]))
          | Err e => ret (Err e)
          end
      | _ => ret (Err (EStr [PPos start_pos; PText " parse_list_of_n_"; PText name; PText "s(): expected '[' but got "; PTok ty0]))
      end
  | Err EEof => ret (Err (EStr [PText "parse_list_of_n_"; PText name; PText "(): EOF while processing list"]))
  | Err e => ret (Err e)
  end.

(** parser.rs 804-821 [Parser::parse_one_or_list]. *)
Definition parse_one_or_list {T} (p : PM T) (name : string) : PM (list T) :=
  r <- pr_peek ;;
  match r with
  | Ok (mkTok _ ty) =>
      match ty with
      | TLBracket => parse_list p name
      | _ => v <-? p ;; ret (Ok [v])
      end
  | Err EEof => ret (Err (EStr [PText "parse_one_or_list_"; PText name; PText "(): EOF while processing list"]))
  | Err e => ret (Err e)
  end.

(** parser.rs 994-997 [Parser::parse_point2f]. *)
Definition parse_point2f : PM (Point2f F) :=
  floats <-? parse_n parse_float 2 "float" ;;
  a <- vidx floats 0 ;; b <- vidx floats 1 ;;
  ret (Ok (mkP2 a b)).

(** parser.rs 999-1002 [Parser::parse_vector2f]. *)
Definition parse_vector2f : PM (Vector2f F) :=
  floats <-? parse_n parse_float 2 "float" ;;
  a <- vidx floats 0 ;; b <- vidx floats 1 ;;
  ret (Ok (mkV2 a b)).

(** parser.rs 1321-1356 [Parser::parse_spectrum]. *)
Definition parse_spectrum : PM (Spectrum F) :=
  r <- pr_peek ;;
  match r with
  | Ok (mkTok pos ty) =>
      match ty with
      | TLBracket =>
          floats <-? parse_list parse_float "float" ;;
          if negb (Nat.eqb (Nat.modulo (List.length floats) 2) 0) then
            ret (Err (EStr [PPos pos; PText " parse_spectrum(): Expected an even number of floats but got "; PNat (List.length floats)]))
          else
            l <- lift (chunks2 floats) ;; ret (Ok (SpSpectrum l))
      | TStr s => _ <-? pr_next ;; ret (Ok (SpFile s))
      | _ => ret (Err (EStr [PPos pos; PText " parse_spectrum(): expected '[' or string but got "; PTok ty]))
      end
  | Err EEof => ret (Err (EStr [PText "parse_spectrum(): EOF while processing spectrum"]))
  | Err e => ret (Err e)
  end.

(** parser.rs 568-689 [Parser::parse_param_list]. The [&mut ParamSet] argument becomes an argument and a result;
    every [?] is evaluated before the [push], so on [Err] the set is unchanged and only [Ok] returns it. *)
Definition parse_param_list (ps : ParamSet F) : PM (ParamSet F) :=
  r <- pr_peek ;;
  match r with
  | Ok (mkTok pos tyt) =>
      match tyt with
      | TStr s =>
          match split_whitespace s with
          | [ty; var] =>
              if str_eqb ty (s2l "integer") then
                _ <-? pr_next ;;
                v <-? parse_one_or_list parse_int "int" ;;
                ret (Ok (ps_push_int ps (mkParam var pos v)))
              else if str_eqb ty (s2l "float") then
                _ <-? pr_next ;;
                v <-? parse_one_or_list parse_float "float" ;;
                ret (Ok (ps_push_float ps (mkParam var pos v)))
              else if str_eqb ty (s2l "point2") then
                _ <-? pr_next ;;
                v <-? parse_list parse_point2f "point2f" ;;
                ret (Ok (ps_push_point2 ps (mkParam var pos v)))
              else if str_eqb ty (s2l "vector2") then
                _ <-? pr_next ;;
                v <-? parse_list parse_vector2f "vector2f" ;;
                ret (Ok (ps_push_vector2 ps (mkParam var pos v)))
              else if str_eqb ty (s2l "bool") then
                _ <-? pr_next ;;
                v <-? parse_one_or_list parse_bool "bool" ;;
                ret (Ok (ps_push_bool ps (mkParam var pos v)))
              else if str_eqb ty (s2l "string") then
                _ <-? pr_next ;;
                v <-? parse_one_or_list parse_string "string" ;;
                ret (Ok (ps_push_string ps (mkParam var pos v)))
              else if str_eqb ty (s2l "rgb") then
                _ <-? pr_next ;;
                rgb <-? parse_list_of_n parse_float 3 "float" ;;
                a <- vidx rgb 0 ;; b <- vidx rgb 1 ;; c <- vidx rgb 2 ;;
                ret (Ok (ps_push_spectrum ps (mkParam var pos [SpRgb a b c])))
              else if str_eqb ty (s2l "xyz") then
                _ <-? pr_next ;;
                rgb <-? parse_list_of_n parse_float 3 "float" ;;
                a <- vidx rgb 0 ;; b <- vidx rgb 1 ;; c <- vidx rgb 2 ;;
                ret (Ok (ps_push_spectrum ps (mkParam var pos [SpXyz a b c])))
              else if str_eqb ty (s2l "spectrum") then
                _ <-? pr_next ;;
                sp <-? parse_spectrum ;;
                ret (Ok (ps_push_spectrum ps (mkParam var pos [sp])))
              else if str_eqb ty (s2l "blackbody") then
                _ <-? pr_next ;;
                rgb <-? parse_list_of_n parse_float 2 "float" ;;
                a <- vidx rgb 0 ;; b <- vidx rgb 1 ;;
                ret (Ok (ps_push_spectrum ps (mkParam var pos [SpBlackbody a b])))
              else if str_eqb ty (s2l "texture") then
                _ <-? pr_next ;;
                t <-? parse_string ;;
                ret (Ok (ps_push_texture ps (mkParam var pos [t])))
              else
                ret (Err (EStr [PPos pos; PText " parse_param_list(): expecting a type but got "; PStr ty]))
          | _ => ret (Err (EStr [PPos pos; PText " parse_param_list(): expecting a string with two arguments but got "; PStr s]))
          end
      | _ => ret (Err (EStr [PPos pos; PText " parse_param_list(): expected param list, got "; PTok tyt]))
      end
  | Err EEof => ret (Err (EStr [PText "parse_param_list(): EOF while processing param list"]))
  | Err e => ret (Err e)
  end.

(** parser.rs 564: [while self.parse_param_list(param_set).is_ok() {}]; errors are swallowed,
    the parser stays where the failed attempt left it. *)
Fixpoint parse_param_lists_loop (fuel : nat) (ps : ParamSet F) : M parser (ParamSet F) :=
  match fuel with
  | 0 => out_of_fuel
  | S n => r <- parse_param_list ps ;;
           match r with
           | Ok ps' => parse_param_lists_loop n ps'
           | Err _ => ret ps
           end
  end.

(** parser.rs 563-566 [Parser::parse_param_lists]. *)
Definition parse_param_lists (ps : ParamSet F) : PM (ParamSet F) :=
  st <- get ;; ps' <- parse_param_lists_loop (pr_fuel st) ps ;; ret (Ok ps').

(** The shared shape of parser.rs 1009-1044 and 1232-1285: a string, then parameters. *)
Definition parse_struct (start_pos : Pos) : PM (DirectiveStruct F) :=
  ty <-? parse_string ;;
  ps <-? parse_param_lists ps_empty ;;
  ret (Ok (mkDS ty start_pos ps)).

(** parser.rs 1089: the three closing identifiers. *)
Definition is_closer (s : str) : bool :=
  str_eqb s (s2l "AttributeEnd") || str_eqb s (s2l "TransformEnd") || str_eqb s (s2l "WorldEnd").

(** parser.rs 1004-1079 [Parser::parse_directive]; [block] stands for [self.parse_directives()]. *)
Definition parse_directive_body (block : PM (list (Directive F))) : PM (Directive F) :=
  start_pos <-? pr_pos ;;
  id <-? parse_identifier ;;
  if str_eqb id (s2l "Material") then d <-? parse_struct start_pos ;; ret (Ok (DMaterial d))
  else if str_eqb id (s2l "Shape") then d <-? parse_struct start_pos ;; ret (Ok (DShape d))
  else if str_eqb id (s2l "LightSource") then d <-? parse_struct start_pos ;; ret (Ok (DLightSource d))
  else if str_eqb id (s2l "AreaLightSource") then d <-? parse_struct start_pos ;; ret (Ok (DAreaLightSource d))
  else if str_eqb id (s2l "AttributeBegin") then ch <-? block ;; ret (Ok (DAttribute start_pos ch))
  else if str_eqb id (s2l "TransformBegin") then ch <-? block ;; ret (Ok (DTransform start_pos ch))
  else if str_eqb id (s2l "WorldBegin") then ch <-? block ;; ret (Ok (DWorld start_pos ch))
  else if str_eqb id (s2l "Include") then s <-? parse_string ;; ret (Ok (DInclude start_pos s))
  else if str_eqb id (s2l "Texture") then
    name <-? parse_string ;;
    ty <-? parse_string ;;
    class <-? parse_string ;;
    ps <-? parse_param_lists ps_empty ;;
    ret (Ok (DTexture (mkTS name ty class start_pos ps)))
  else ret (Err (EStr [PPos start_pos; PText " parse_directive(): unknown identifier "; PStr id])).

(** parser.rs 1081-1103 [Parser::parse_directives] (the loop, with its accumulator). *)
Fixpoint parse_directives_loop (fuel : nat) (directives : list (Directive F)) : PM (list (Directive F)) :=
  match fuel with
  | 0 => out_of_fuel
  | S n =>
      t <-? pr_peek ;;
      match tok_ty t with
      | TIdent s =>
          if is_closer s then ret (Ok directives)
          else d <-? parse_directive_body (parse_directives_loop n []) ;;
               parse_directives_loop n (directives ++ [d])
      | ty => ret (Err (EStr [PPos (tok_pos t); PText " parse_directives(): expected identifier or block close but got "; PTok ty]))
      end
  end.

Definition parse_directives : PM (list (Directive F)) :=
  st <- get ;; parse_directives_loop (pr_fuel st) [].

Definition parse_directive : PM (Directive F) := parse_directive_body parse_directives.

(** [Vector3f::new(floats[i], floats[i+1], floats[i+2])]. *)
Definition vec3_at (floats : list F) (i : nat) : M parser (Vector3f F) :=
  a <- vidx floats i ;; b <- vidx floats (i + 1) ;; c <- vidx floats (i + 2) ;; ret (mkV3 a b c).

(** parser.rs 1164-1168 (and 1190-1194, 1208-1212): nine floats, row by row. *)
Definition mat3_of (fl : list F) : M parser (Matrix3f F) :=
  a <- vidx fl 0 ;; b <- vidx fl 1 ;; c <- vidx fl 2 ;;
  d <- vidx fl 3 ;; e <- vidx fl 4 ;; f <- vidx fl 5 ;;
  g <- vidx fl 6 ;; h <- vidx fl 7 ;; i <- vidx fl 8 ;;
  ret (mkM3 (a, b, c) (d, e, f) (g, h, i)).

(** parser.rs 1111-1118 and the like: [parse_floats] followed by the length check. *)
Definition floats_exactly (start_pos : Pos) (what : string) (n : nat) : PM (list F) :=
  floats <-? parse_floats ;;
  if negb (Nat.eqb (List.length floats) n) then
    ret (Err (EStr [PPos start_pos; PText " parse_predirective(): "; PText what; PText " expects "; PNat n;
                    PText " floats but was given "; PNat (List.length floats)]))
  else ret (Ok floats).

(** parser.rs 1105-1295 [Parser::parse_predirective]. *)
Definition parse_predirective : PM (PreDirective F) :=
  start_pos <-? pr_pos ;;
  id <-? parse_identifier ;;
  if str_eqb id (s2l "Identity") then ret (Ok (PIdentity start_pos))
  else if str_eqb id (s2l "Translate") then
    fl <-? floats_exactly start_pos "Translate" 3 ;; v <- vec3_at fl 0 ;; ret (Ok (PTranslate start_pos v))
  else if str_eqb id (s2l "Scale") then
    fl <-? floats_exactly start_pos "Scale" 3 ;; v <- vec3_at fl 0 ;; ret (Ok (PScale start_pos v))
  else if str_eqb id (s2l "Rotate") then
    fl <-? floats_exactly start_pos "Rotate" 4 ;;
    a <- vidx fl 0 ;; v <- vec3_at fl 1 ;; ret (Ok (PRotate start_pos a v))
  else if str_eqb id (s2l "LookAt") then
    fl <-? floats_exactly start_pos "LookAt" 9 ;; m <- mat3_of fl ;; ret (Ok (PLookAt start_pos m))
  else if str_eqb id (s2l "CoordinateSystem") then
    s <-? parse_string ;; ret (Ok (PCoordinateSystem start_pos s))
  else if str_eqb id (s2l "CoordSysTransform") then
    s <-? parse_string ;; ret (Ok (PCoordSysTransform start_pos s))
  else if str_eqb id (s2l "Transform") then
    fl <-? floats_exactly start_pos "Transform" 9 ;; m <- mat3_of fl ;; ret (Ok (PTransform start_pos m))
  else if str_eqb id (s2l "ConcatTransform") then
    fl <-? floats_exactly start_pos "ConcatTransform" 9 ;; m <- mat3_of fl ;; ret (Ok (PConcatTransform start_pos m))
  else if str_eqb id (s2l "ActiveTransform") then
    s <-? parse_identifier ;; ret (Ok (PActiveTransform start_pos s))
  else if str_eqb id (s2l "TransformTimes") then
    fl <-? floats_exactly start_pos "TransformTimes" 2 ;;
    a <- vidx fl 0 ;; b <- vidx fl 1 ;; ret (Ok (PTransformTimes start_pos a b))
  else if str_eqb id (s2l "Camera") then d <-? parse_struct start_pos ;; ret (Ok (PCamera d))
  else if str_eqb id (s2l "Sampler") then d <-? parse_struct start_pos ;; ret (Ok (PSampler d))
  else if str_eqb id (s2l "Film") then d <-? parse_struct start_pos ;; ret (Ok (PFilm d))
  else if str_eqb id (s2l "Filter") then d <-? parse_struct start_pos ;; ret (Ok (PFilter d))
  else if str_eqb id (s2l "Integrator") then d <-? parse_struct start_pos ;; ret (Ok (PIntegrator d))
  else if str_eqb id (s2l "Accelerator") then d <-? parse_struct start_pos ;; ret (Ok (PAccelerator d))
  else if str_eqb id (s2l "Include") then s <-? parse_string ;; ret (Ok (PInclude start_pos s))
  else ret (Err (EStr [PPos start_pos; PText " parse_predirective(): Unknown predirective: "; PStr id])).

(** parser.rs 1297-1319 [Parser::parse_predirectives] (the loop, with its accumulator). *)
Fixpoint parse_predirectives_loop (fuel : nat) (predirectives : list (PreDirective F)) : PM (list (PreDirective F)) :=
  match fuel with
  | 0 => out_of_fuel
  | S n =>
      t <-? pr_peek ;;
      match tok_ty t with
      | TIdent s =>
          if str_eqb s (s2l "WorldBegin") then ret (Ok predirectives)
          else d <-? parse_predirective ;; parse_predirectives_loop n (predirectives ++ [d])
      | ty => ret (Err (EStr [PPos (tok_pos t); PText " parse_predirectives(): expected predirective but got "; PTok ty]))
      end
  end.

Definition parse_predirectives : PM (list (PreDirective F)) :=
  st <- get ;; parse_predirectives_loop (pr_fuel st) [].

(** parser.rs 1360: the two parsing phases on the token list of [Parser::new]. *)
Definition parse_tokens_m : PM (list (PreDirective F) * Directive F) :=
  pres <-? parse_predirectives ;;
  d <-? parse_directive ;;
  ret (Ok (pres, d)).

Definition parse_tokens (toks : list (Token F)) : out (result (list (PreDirective F) * Directive F) (error F)) :=
  match parse_tokens_m (mkPr toks 0) with
  | Done (r, _) => Done r
  | Panic => Panic
  | OutOfFuel => OutOfFuel
  end.

(** parser.rs 254-261 [From<TokenizerError> for ParserError]. *)
Definition parser_error_of (e : error F) : error F :=
  match e with EStr s => EStr s | EEof => EEof end.

(** parser.rs 522-528 [Parser::new] and 1358-1361 [Parser::parse]. *)
Definition parse (cc : CharClass) (chk : bool) (input : str)
  : out (result (list (PreDirective F) * Directive F) (error F)) :=
  match tokenize fo cc chk input with
  | Done (Ok toks) => parse_tokens toks
  | Done (Err e) => Done (Err (parser_error_of e))
  | Panic => Panic
  | OutOfFuel => OutOfFuel
  end.

End Parser.
