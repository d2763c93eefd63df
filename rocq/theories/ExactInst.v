(** Exact arithmetic as an instance of the element operations: the code read over the real numbers (and, for code that
    takes no square roots, over the rationals). A division by zero or the root of a negative number has no exact value
    and is a [Panic] here, so a theorem that a function returns a value also says neither happens.
    There is no infinity: [max_value], [min_value] and [INFINITY] are arbitrary numbers, and no theorem about exact
    arithmetic uses them. *)
From Coq Require Import Reals QArith Qcanon.
From Flocq Require Import Core.Raux.
From Verif Require Import Base Elem.

Definition r_elem : Elem R := {|
  e_add a b := Done (a + b)%R;
  e_sub a b := Done (a - b)%R;
  e_mul a b := Done (a * b)%R;
  e_div a b := if Req_bool b 0 then Panic else Done (a / b)%R;
  e_neg a := Done (- a)%R;
  e_abs a := Done (Rabs a);
  e_lt := Rlt_bool;
  e_le := Rle_bool;
  e_eq := Req_bool;
  e_is_nan _ := false;
  e_max_value := 0%R;
  e_min_value := 0%R;
  e_from_int := IZR
|}.
Definition r_float : FloatT R := {|
  fl_elem := r_elem;
  fl_sqrt a := if Rlt_bool a 0 then Panic else Done (sqrt a);
  fl_floor a := IZR (Zfloor a);
  fl_ceil a := IZR (Zceil a);
  fl_infinity := 0%R;
  fl_0999 := (999 / 1000)%R;
  fl_1001 := (1001 / 1000)%R
|}.

(** Canonical rationals; square roots and infinity are not available. *)
Definition qc_le (a b : Qc) : bool := Qle_bool (this a) (this b).
Definition q_elem : Elem Qc := {|
  e_add a b := Done (a + b)%Qc;
  e_sub a b := Done (a - b)%Qc;
  e_mul a b := Done (a * b)%Qc;
  e_div a b := if Qc_eq_bool b (Q2Qc 0) then Panic else Done (a / b)%Qc;
  e_neg a := Done (- a)%Qc;
  e_abs a := Done (if qc_le (Q2Qc 0) a then a else - a)%Qc;
  e_lt a b := negb (qc_le b a);
  e_le := qc_le;
  e_eq := Qc_eq_bool;
  e_is_nan _ := false;
  e_max_value := Q2Qc 0;
  e_min_value := Q2Qc 0;
  e_from_int z := Q2Qc (inject_Z z)
|}.
