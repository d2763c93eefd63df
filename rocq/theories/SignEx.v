(** Concrete cases for C112. *)
From Coq Require Import ZArith Bool.
From Flocq Require Import IEEE754.BinarySingleNaN.
From Verif Require Import Base Elem FloatInst GeoModel MatModel GeoSpec ArithSpec MatSpec SignSpec FloatCore GaussEx.

Definition shear_signs f : Matrix4 (flt f) :=
  let o := f_of_int f 0 in let i := f_of_int f 1 in let ii := f_of_int f 2 in let m x := f_of_int f (- x) in
  W4 (W4 (m 1%Z) (m 2%Z) o o) (W4 o i ii o) (W4 o o i (m 2%Z)) (W4 o o o (m 1%Z)).
Lemma shear_signs_ok f : let p r := ix_eqb r I0 in let q c := ix_eqb c I3 in
  (forall r c, veq f (flip f (xorb (p r) (q c)) (mget (shear f) r c)) (mget (shear_signs f) r c)) /\
  exists B, m4_inverse (f_elem f) (shear f) = Done B /\ forall r c, is_nan (mget B r c) = false.
Proof.
  split; [intros r c; left; destruct f, r, c; vm_compute; reflexivity|].
  exists (match m4_inverse (f_elem f) (shear f) with Done B => B | _ => shear f end). split.
  - assert (H : match m4_inverse (f_elem f) (shear f) with Done _ => true | _ => false end = true) by (destruct f; vm_compute; reflexivity).
    destruct (m4_inverse (f_elem f) (shear f)); [reflexivity|discriminate|discriminate].
  - intros r c. destruct f, r, c; vm_compute; reflexivity.
Qed.
Lemma zeros_panic f : m4_inverse (f_elem f) (vconst (vconst (B754_zero true))) = Panic.
Proof. destruct f; vm_compute; reflexivity. Qed.
