(** The unit tests of the program, run on the model: parser.rs 1364-1891 and matrix.rs 162-210.
    Floats are f32. They are compared as [spec_float]s, which carry no proofs; [pow] stands for Float::powf(10.0, _). *)
From Coq Require Import ZArith SpecFloat.
From Flocq Require Import Core.Core IEEE754.BinarySingleNaN.
From Verif Require Import Base TokModel ParModel Elem FloatInst FloatLit MatModel.

Definition fo_test (pow : spec_float -> spec_float) : FloatOps spec_float := {|
  f_dec neg m k := B2SF (f_dec_ieee F32 neg m k);
  f_mul := SFmul 24 128;
  f_powf10 := pow;
  f_of_isize z := B2SF (f_of_int F32 z)
|}.
Definition fo1 := fo_test (fun x => x).
(** The Rust literal m * 10^-k. *)
Definition lit (m : N) (k : nat) : spec_float := B2SF (f_dec_ieee F32 false m k).
Definition tokens (pow : spec_float -> spec_float) (s : string) := tokenize (fo_test pow) cc_ascii true (s2l s).
Definition one (ty : TokenType spec_float) := Done (Ok (E := error spec_float) [mkTok (mkPos 1 1) ty]).
Definition is_err {A E} (o : out (result A E)) : Prop := match o with Done (Err _) => True | _ => False end.

Section Tokens.
Variable pow : spec_float -> spec_float.
Notation tokens := (tokens pow).
(** 1372-1375 *)
Example test_tokenize_whitespace : tokens "   " = Done (Ok []). Proof. vm_compute. reflexivity. Qed.
(** 1377-1386 *)
Example test_tokenize_comment : tokens "  # comment
123" = Done (Ok [mkTok (mkPos 2 1) (TInt 123)]). Proof. vm_compute. reflexivity. Qed.
(** 1388-1397 *)
Example test_tokenize_positive_int : tokens "123" = one (TInt 123). Proof. vm_compute. reflexivity. Qed.
(** 1399-1408 *)
Example test_tokenize_negative_int : tokens "-123" = one (TInt (-123)). Proof. vm_compute. reflexivity. Qed.
(** 1410-1419 *)
Example test_tokenize_negative_float : tokens "-1.23" = one (TFloat (SFopp (lit 123 2))). Proof. vm_compute. reflexivity. Qed.
(** 1421-1430 *)
Example test_tokenize_positive_float : tokens "1.23" = one (TFloat (lit 123 2)). Proof. vm_compute. reflexivity. Qed.
(** 1432-1441 *)
Example test_tokenize_exp1 : tokens "1.23e12" = one (TFloat (SFmul 24 128 (lit 123 2) (pow (lit 120 1)))). Proof. vm_compute. reflexivity. Qed.
(** 1443-1452 *)
Example test_tokenize_exp2 : tokens "1.23e-12" = one (TFloat (SFmul 24 128 (lit 123 2) (pow (SFopp (lit 120 1))))). Proof. vm_compute. reflexivity. Qed.
(** 1454-1463 *)
Example test_tokenize_exp3 : tokens "1e12" = one (TInt (10 ^ 12)). Proof. vm_compute. reflexivity. Qed.
(** 1465-1473 *)
Example test_tokenize_exp4 : tokens "1ed12" = Done (Err (EStr [PPos (mkPos 1 3); PText " tokenize_num(): no number"])). Proof. vm_compute. reflexivity. Qed.
(** 1475-1507 *)
Example test_tokenize1 : tokens "Accelerator ""kdtree"" ""float emptybonus"" [0.1]" = Done (Ok
  [mkTok (mkPos 1 1) (TIdent (s2l "Accelerator")); mkTok (mkPos 1 13) (TStr (s2l "kdtree"));
   mkTok (mkPos 1 22) (TStr (s2l "float emptybonus")); mkTok (mkPos 1 41) TLBracket;
   mkTok (mkPos 1 42) (TFloat (lit 1 1)); mkTok (mkPos 1 45) TRBracket]). Proof. vm_compute. reflexivity. Qed.
End Tokens.

(** Run a function of the parser on a text. *)
Definition on {A} (p : M (parser (F := spec_float)) (result A (error spec_float))) (s : string) : out (result A (error spec_float)) :=
  match tokens (fun x => x) s with
  | Done (Ok toks) => match p (mkPr toks 0) with Done (r, _) => Done r | Panic => Panic | OutOfFuel => OutOfFuel end
  | Done (Err e) => Done (Err e) | Panic => Panic | OutOfFuel => OutOfFuel
  end.
Notation ints := (parse_one_or_list parse_int "int").
Notation bools := (parse_one_or_list parse_bool "bool").
Notation floats := (parse_one_or_list (parse_float fo1) "float").
Notation points := (parse_one_or_list (parse_point2f fo1) "point2f").

(** 1509-1516 *)
Example test_parse_one_int : on ints "1" = Done (Ok [1%Z]). Proof. vm_compute. reflexivity. Qed.
(** 1518-1525 *)
Example test_parse_ints : on ints "[1 2 3]" = Done (Ok [1; 2; 3]%Z). Proof. vm_compute. reflexivity. Qed.
(** 1527-1531 *)
Example test_parse_ints_err1 : is_err (on ints "[1 2 3.0]"). Proof. vm_compute. exact I. Qed.
(** 1533-1537 *)
Example test_parse_ints_err2 : is_err (on ints "[]"). Proof. vm_compute. exact I. Qed.
(** 1539-1546 *)
Example test_parse_one_bool : on bools "[""true""]" = Done (Ok [true]). Proof. vm_compute. reflexivity. Qed.
(** 1548-1555 *)
Example test_parse_bools : on bools "[""true"" ""false"" ""true""]" = Done (Ok [true; false; true]). Proof. vm_compute. reflexivity. Qed.
(** 1557-1565 *)
Example test_parse_bools_err : is_err (on bools "[""true"" ""false"" 3.0]"). Proof. vm_compute. exact I. Qed.
(** 1567-1574 *)
Example test_parse_one_float : on floats "1.0" = Done (Ok [lit 10 1]). Proof. vm_compute. reflexivity. Qed.
(** 1576-1583 *)
Example test_parse_floats : on floats "[1 2.0 3]" = Done (Ok [lit 10 1; lit 20 1; lit 30 1]). Proof. vm_compute. reflexivity. Qed.
(** 1585-1593 *)
Example test_parse_floats_err : is_err (on floats "[1 test 2]"). Proof. vm_compute. exact I. Qed.
(** 1595-1602 *)
Example test_parse_one_point2 : on points "1.0 2.0" = Done (Ok [mkP2 (lit 10 1) (lit 20 1)]). Proof. vm_compute. reflexivity. Qed.
(** 1604-1615 *)
Example test_parse_point2s : on points "[1 2.0 3 4 5 6]" =
  Done (Ok [mkP2 (lit 10 1) (lit 20 1); mkP2 (lit 30 1) (lit 40 1); mkP2 (lit 50 1) (lit 60 1)]). Proof. vm_compute. reflexivity. Qed.
(** 1617-1623 *)
Example test_parse_point2s_err : is_err (on points "[1 2.0 3]"). Proof. vm_compute. exact I. Qed.

(** A parameter list read into an empty set, and one field of the set. *)
Definition params {A} (field : ParamSet spec_float -> A) (s : string) : out (result A (error spec_float)) :=
  match on (parse_param_list fo1 ps_empty) s with
  | Done (Ok ps) => Done (Ok (field ps)) | Done (Err e) => Done (Err e) | Panic => Panic | OutOfFuel => OutOfFuel
  end.
(** 1625-1634 *)
Example test_parse_param_list1 : params ps_floats """float fov"" [30]" = Done (Ok [mkParam (s2l "fov") (mkPos 1 1) [lit 300 1]]).
Proof. vm_compute. reflexivity. Qed.
(** 1636-1653 *)
Example test_parse_param_list2 : params ps_point2fs """point2 points"" [1 2 3 4 5 6]" =
  Done (Ok [mkParam (s2l "points") (mkPos 1 1)
    [mkP2 (lit 10 1) (lit 20 1); mkP2 (lit 30 1) (lit 40 1); mkP2 (lit 50 1) (lit 60 1)]]).
Proof. vm_compute. reflexivity. Qed.
(** 1655-1668 *)
Example test_parse_param_list_rgb : params ps_spectra """rgb Kd"" [.2 .5 .3]" =
  Done (Ok [mkParam (s2l "Kd") (mkPos 1 1) [SpRgb (lit 2 1) (lit 5 1) (lit 3 1)]]).
Proof. vm_compute. reflexivity. Qed.
(** 1670-1679 *)
Example test_parse_param_list_rgb_err : is_err (params ps_spectra """rgb Kd"" [.2 .5]") /\ is_err (params ps_spectra """rgb Kd"" [.2 .5 .3 .4]").
Proof. vm_compute. split; exact I. Qed.
(** 1681-1694 *)
Example test_parse_param_list_spectrum : params ps_spectra """spectrum Kd"" [300 .3 400 .6]" =
  Done (Ok [mkParam (s2l "Kd") (mkPos 1 1) [SpSpectrum [(lit 3000 1, lit 3 1); (lit 4000 1, lit 6 1)]]]).
Proof. vm_compute. reflexivity. Qed.
(** 1696-1709 *)
Example test_parse_param_list_spectrum_file : params ps_spectra """spectrum Kd"" ""filename""" =
  Done (Ok [mkParam (s2l "Kd") (mkPos 1 1) [SpFile (s2l "filename")]]).
Proof. vm_compute. reflexivity. Qed.

(** ParamSet::default() with floats, ints, spectra, strings, textures added. *)
Notation set_of fs is sp ss ts := (mkPS [] is fs [] [] [] [] [] sp ss ts).
Definition par {T} (n : string) (r c : nat) (v : T) : Param T := mkParam (s2l n) (mkPos r c) [v].
(** 1711-1726 *)
Example test_parse_directive : on (parse_directive fo1) "Shape ""sphere"" ""float radius"" 1" =
  Done (Ok (DShape (mkDS (s2l "sphere") (mkPos 1 1) (set_of [par "radius" 1 16 (lit 10 1)] [] [] [] [])))).
Proof. vm_compute. reflexivity. Qed.
(** 1728-1738 *)
Example test_parse_transform : on (parse_predirective fo1) "Translate 1 0 0" =
  Done (Ok (PTranslate (mkPos 1 1) (mkV3 (lit 10 1) (lit 0 1) (lit 0 1)))).
Proof. vm_compute. reflexivity. Qed.
(** 1740-1775, parser_tests/block.pbrt *)
Example test_parse_block : on (parse_directive fo1) "WorldBegin
    AttributeBegin
        Material ""glass""
        Shape ""sphere"" ""float radius"" 1
    AttributeEnd
WorldEnd
" = Done (Ok (DWorld (mkPos 1 1) [DAttribute (mkPos 2 5)
      [DMaterial (mkDS (s2l "glass") (mkPos 3 9) ps_empty);
       DShape (mkDS (s2l "sphere") (mkPos 4 9) (set_of [par "radius" 4 24 (lit 10 1)] [] [] [] []))]])).
Proof. vm_compute. reflexivity. Qed.
(** 1777-1889, parser_tests/test1.pbrt *)
Definition test1_text : string := "Include ""file1.pbrt""

LookAt 3 4 1.5  # eye
       .5 .5 0  # look at point
       0 0 1    # up vector
Camera ""perspective"" ""float fov"" 45

Sampler ""halton"" ""integer pixelsamples"" 128
Integrator ""path""
Film ""image"" ""string filename"" ""simple.png""
     ""integer xresolution"" [400] ""integer yresolution"" [400]

WorldBegin
LightSource ""infinite"" ""rgb L"" [.4 .45 .5]

AttributeBegin
  Texture ""checks"" ""spectrum"" ""checkerboard""
          ""float uscale"" [8] ""float vscale"" [8]
          ""rgb tex1"" [.1 .1 .1] ""rgb tex2"" [.8 .8 .8]
  Material ""matte"" ""texture Kd"" ""checks""
  Shape ""sphere"" ""float radius"" 1
AttributeEnd
WorldEnd
".
Example test_parse1 : parse fo1 cc_ascii true (s2l test1_text) = Done (Ok (
  [PInclude (mkPos 1 1) (s2l "file1.pbrt");
   PLookAt (mkPos 3 1) (mkM3 (lit 30 1, lit 40 1, lit 15 1) (lit 5 1, lit 5 1, lit 0 1) (lit 0 1, lit 0 1, lit 10 1));
   PCamera (mkDS (s2l "perspective") (mkPos 6 1) (set_of [par "fov" 6 22 (lit 450 1)] [] [] [] []));
   PSampler (mkDS (s2l "halton") (mkPos 8 1) (set_of [] [par "pixelsamples" 8 18 128%Z] [] [] []));
   PIntegrator (mkDS (s2l "path") (mkPos 9 1) ps_empty);
   PFilm (mkDS (s2l "image") (mkPos 10 1) (set_of [] [par "xresolution" 11 6 400%Z; par "yresolution" 11 34 400%Z] []
     [par "filename" 10 14 (s2l "simple.png")] []))],
  DWorld (mkPos 13 1)
    [DLightSource (mkDS (s2l "infinite") (mkPos 14 1) (set_of [] [] [par "L" 14 24 (SpRgb (lit 4 1) (lit 45 2) (lit 5 1))] [] []));
     DAttribute (mkPos 16 1)
       [DTexture (mkTS (s2l "checks") (s2l "spectrum") (s2l "checkerboard") (mkPos 17 3)
          (set_of [par "uscale" 18 11 (lit 80 1); par "vscale" 18 30 (lit 80 1)] []
             [par "tex1" 19 11 (SpRgb (lit 1 1) (lit 1 1) (lit 1 1)); par "tex2" 19 33 (SpRgb (lit 8 1) (lit 8 1) (lit 8 1))] [] []));
        DMaterial (mkDS (s2l "matte") (mkPos 20 3) (set_of [] [] [] [] [par "Kd" 20 20 (s2l "checks")]));
        DShape (mkDS (s2l "sphere") (mkPos 21 3) (set_of [par "radius" 21 18 (lit 10 1)] [] [] [] []))]])).
Proof. vm_compute. reflexivity. Qed.

(** ** matrix.rs *)
Local Open Scope Z_scope.
(** 166-190 *)
Example test_mul : m4_mul (i64 true)
  (W4 (W4 (-1) 0 4 (-1)) (W4 5 (-1) (-8) (-9)) (W4 7 (-4) 5 (-4)) (W4 (-2) (-10) 1 4))
  (W4 (W4 (-10) 10 (-8) (-3)) (W4 2 6 0 (-9)) (W4 7 (-1) 10 9) (W4 (-8) (-2) (-4) 5)) = Done
  (W4 (W4 46 (-12) 52 34) (W4 (-36) 70 (-84) (-123)) (W4 (-11) 49 10 40) (W4 (-25) (-89) 10 125)).
Proof. vm_compute. reflexivity. Qed.
(** 192-209. The matrices are compared with == of floats. *)
Definition f32 (z : Z) : flt F32 := f_of_int F32 z.
Definition q (n d : Z) : flt F32 := f_div (f32 n) (f32 d).
Example test_inverse : match m4_inverse (f_elem F32)
  (W4 (W4 (f32 4) (f32 0) (f32 0) (f32 0)) (W4 (f32 0) (f32 0) (f32 2) (f32 0))
      (W4 (f32 0) (f32 1) (f32 2) (f32 0)) (W4 (f32 1) (f32 0) (f32 0) (f32 1))) with
  | Done r => m4_eq (f_elem F32) r
      (W4 (W4 (q 1 4) (f32 0) (f32 0) (f32 0)) (W4 (f32 0) (f32 (-1)) (f32 1) (f32 0))
          (W4 (f32 0) (q 1 2) (f32 0) (f32 0)) (W4 (q (-1) 4) (f32 0) (f32 0) (f32 1)))
  | _ => false
  end = true.
Proof. vm_compute. reflexivity. Qed.
