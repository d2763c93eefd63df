(** Property theorems about Matrix4::inverse and signs. Nothing but statements, examples and [Print Assumptions]. *)
From Coq Require Import ZArith Reals Bool.
From Flocq Require Import Core.Core IEEE754.BinarySingleNaN.
From Verif Require Import Base Elem FloatInst GeoModel MatModel GeoSpec ArithSpec MatSpec SignSpec FloatSign GaussEx SignEx.

(** ** C112: changing the signs of rows and columns of a matrix changes those of columns and rows of the inverse, and nothing else.
    [veq] is equality of floats, with NaN equal to NaN; 0 and -0 are equal. *)
Theorem C112_signs : forall f (p q : ix -> bool) (A A' : Matrix4 (flt f)),
  (forall r c, veq f (flip f (xorb (p r) (q c)) (mget A r c)) (mget A' r c)) ->
  (m4_inverse (f_elem f) A = Panic <-> m4_inverse (f_elem f) A' = Panic) /\
  forall B, m4_inverse (f_elem f) A = Done B -> (forall r c, is_nan (mget B r c) = false) ->
    exists B', m4_inverse (f_elem f) A' = Done B' /\ forall r c, veq f (flip f (xorb (q r) (p c)) (mget B r c)) (mget B' r c).
Proof. exact inverse_alike. Qed.
Print Assumptions C112_signs.
Theorem C112_negated : forall f (A A' : Matrix4 (flt f)), (forall r c, mget A' r c = Bopp (mget A r c)) ->
  (m4_inverse (f_elem f) A = Panic <-> m4_inverse (f_elem f) A' = Panic) /\
  forall B, m4_inverse (f_elem f) A = Done B -> (forall r c, is_nan (mget B r c) = false) ->
    exists B', m4_inverse (f_elem f) A' = Done B' /\ forall r c, veq f (mget B' r c) (Bopp (mget B r c)).
Proof. exact negated. Qed.
Print Assumptions C112_negated.
(** Equal matrices, in the sense of ==, have equal inverses: the signs of zeros do not matter. *)
Theorem C112_equal : forall f (A A' : Matrix4 (flt f)), m4_eq (f_elem f) A A' = true ->
  (m4_inverse (f_elem f) A = Panic <-> m4_inverse (f_elem f) A' = Panic) /\
  forall B, m4_inverse (f_elem f) A = Done B -> (forall r c, is_nan (mget B r c) = false) ->
    exists B', m4_inverse (f_elem f) A' = Done B' /\ m4_eq (f_elem f) B B' = true.
Proof. exact equal_matrices. Qed.
Print Assumptions C112_equal.
(** Not if there is NaN: then changing the sign of the first row can change an entry of the second column. *)
Theorem C112_nan_refuted : forall f, exists (A A' B B' : Matrix4 (flt f)),
  (forall c, mget A' I0 c = Bopp (mget A I0 c)) /\ (forall r c, r <> I0 -> mget A' r c = mget A r c) /\
  m4_inverse (f_elem f) A = Done B /\ m4_inverse (f_elem f) A' = Done B' /\
  is_nan (mget B I0 I1) = false /\ Beqb (mget B' I0 I1) (mget B I0 I1) = false.
Proof. exact with_nan. Qed.
Print Assumptions C112_nan_refuted.

(** The hypotheses are satisfiable: the matrix of ones and twos of C109 with the signs of the first row and the last column changed. *)
Example C112_case : forall f, let p r := ix_eqb r I0 in let q c := ix_eqb c I3 in
  (forall r c, veq f (flip f (xorb (p r) (q c)) (mget (shear f) r c)) (mget (shear_signs f) r c)) /\
  exists B, m4_inverse (f_elem f) (shear f) = Done B /\ forall r c, is_nan (mget B r c) = false.
Proof. exact shear_signs_ok. Qed.
(** A matrix of zeros panics, with all signs. *)
Example C112_panic_case : forall f, m4_inverse (f_elem f) (vconst (vconst (B754_zero true))) = Panic.
Proof. exact zeros_panic. Qed.
