(** Property theorems about what the program prints: C135. Nothing but statements, examples and [Print Assumptions]. *)
From Coq Require Import ZArith Reals List.
From Flocq Require Import Core.Core IEEE754.BinarySingleNaN.
From Verif Require Import Base Elem FloatInst MatModel MainModel MainSpec FloatErrSpec MainProofs.
Import ListNotations.
Local Open Scope R_scope.

(** ** C135: the program prints the inverse of its matrix, and a matrix as printed can be read back *)
(** If a float is written in one line, the program writes these 28 lines, and the numbers in them are those of the inverse. *)
Theorem C135_main : forall f (show : flt f -> str), (forall x, one_line (show x)) ->
  exists b, main_out (f_elem f) (f_of_int f) show = Done (unlines (printed show b)) /\
  forall r c, Rabs (39 * B2R (mget b r c) - IZR (mget inv39 r c)) <= match f with F32 => 900 | F64 => 13000 end * half_ulp f.
Proof. exact main_text. Qed.
Print Assumptions C135_main.
(** [inv39] is 39 times the inverse. *)
Theorem C135_inverse : forall r c,
  (mget main_mat r I0 * mget inv39 I0 c + mget main_mat r I1 * mget inv39 I1 c + mget main_mat r I2 * mget inv39 I2 c + mget main_mat r I3 * mget inv39 I3 c)%Z =
  match r, c with I0, I0 | I1, I1 | I2, I2 | I3, I3 => 39%Z | _, _ => 0%Z end.
Proof. exact inv39_right. Qed.
Print Assumptions C135_inverse.
Theorem C135_lines : forall F (show : F -> str), (forall x, one_line (show x)) -> forall m, dbg_m4 show m ++ [c_lf] = unlines (printed show m).
Proof. exact @debug_lines. Qed.
Print Assumptions C135_lines.
Theorem C135_read_back : forall F (show : F -> str), (forall x, one_line (show x)) ->
  forall m n, dbg_m4 show m = dbg_m4 show n -> forall r c, show (mget m r c) = show (mget n r c).
Proof. exact @read_back. Qed.
Print Assumptions C135_read_back.
(** The matrix itself, with digits for numbers. *)
Example C135_example : let show := fun z => [(48 + Z.to_N z)%N] in
  dbg_m4 show (W4 (W4 7 1 9 5) (W4 4 5 2 4) (W4 3 7 8 8) (W4 1 9 8 9))%Z =
  removelast (unlines (map s2l ["Matrix4 {"; "    mat: [";
    "        ["; "            7,"; "            1,"; "            9,"; "            5,"; "        ],";
    "        ["; "            4,"; "            5,"; "            2,"; "            4,"; "        ],";
    "        ["; "            3,"; "            7,"; "            8,"; "            8,"; "        ],";
    "        ["; "            1,"; "            9,"; "            8,"; "            9,"; "        ],";
    "    ],"; "}"]%string)).
Proof. vm_compute. reflexivity. Qed.
Example C135_example_line : one_line (s2l "0.15384616").
Proof. apply s_line. reflexivity. Qed.
