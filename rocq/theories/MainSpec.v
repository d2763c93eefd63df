(** Specification for C135: the lines that the program pbrt prints, and the inverse of its matrix. *)
From Coq Require Import ZArith List.
From Verif Require Import Base MatModel.
Import ListNotations.

Definition unlines (ls : list str) : str := flat_map (fun l => l ++ [c_lf]) ls.
Definition row_lines {F} (show : F -> str) (r : vec4 F) : list str :=
  [s2l "        ["; s2l "            " ++ show (w0 r) ++ s2l ","; s2l "            " ++ show (w1 r) ++ s2l ",";
   s2l "            " ++ show (w2 r) ++ s2l ","; s2l "            " ++ show (w3 r) ++ s2l ","; s2l "        ],"].
Definition printed {F} (show : F -> str) (m : Matrix4 F) : list str :=
  [s2l "Matrix4 {"; s2l "    mat: ["] ++ row_lines show (w0 m) ++ row_lines show (w1 m) ++ row_lines show (w2 m) ++ row_lines show (w3 m) ++
  [s2l "    ],"; s2l "}"].
(** 39 times the inverse of the matrix in pbrt.rs. *)
Definition inv39 : Matrix4 Z :=
  (W4 (W4 6 9 (-15) 6) (W4 58 35 (-236) 162) (W4 51 18 (-186) 129) (W4 (-104) (-52) 403 (-273)))%Z.
Definition one_line (s : str) : Prop := ~ In c_lf s.
