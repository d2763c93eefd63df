(** * C115: blocks that do not mix are not mixed by the inverse in floats. *)
From Coq Require Import ZArith Bool.
From Flocq Require Import IEEE754.BinarySingleNaN.
From Verif Require Import Base Elem FloatInst GeoModel MatModel GeoSpec ArithSpec MatSpec.
From Verif Require Import FloatBlocks.
Local Open Scope mon_scope.

(** [K] says which block a coordinate belongs to. An entry of the matrix with row and column in different blocks is zero; then it is zero in the
    inverse. A coordinate on its own is divided: its entry in the inverse is the rounded reciprocal. *)
Theorem C115_blocks : forall f (K : ix -> nat) (A C : Matrix4 (flt f)),
  (forall r c, K r <> K c -> Beqb (mget A r c) (f_of_int f 0) = true) ->
  m4_inverse (f_elem f) A = Done C -> (forall r c, is_nan (mget C r c) = false) ->
  (forall r c, K r <> K c -> Beqb (mget C r c) (f_of_int f 0) = true) /\
  (forall k, (forall r, K r = K k -> r = k) -> Beqb (mget C k k) (f_div (f_of_int f 1) (mget A k k)) = true).
Proof. exact inverse_blocks. Qed.
Print Assumptions C115_blocks.
(** A last row (0, 0, 0, w) is kept, as (0, 0, 0, 1/w), when no entry is larger than w. *)
Theorem C115_last_row : forall f (A C : Matrix4 (flt f)), (forall c, c <> I3 -> Beqb (mget A I3 c) (f_of_int f 0) = true) ->
  (forall r c, Bleb (Babs (mget A r c)) (Babs (mget A I3 I3)) = true) ->
  m4_inverse (f_elem f) A = Done C -> (forall r c, is_nan (mget C r c) = false) ->
  (forall c, c <> I3 -> Beqb (mget C I3 c) (f_of_int f 0) = true) /\ Beqb (mget C I3 I3) (f_div (f_of_int f 1) (mget A I3 I3)) = true.
Proof. exact affine_inverse. Qed.
Print Assumptions C115_last_row.
(** With larger entries it is not kept. *)
Theorem C115_far_refuted : exists A C : Matrix4 (flt F32), (forall c, c <> I3 -> Beqb (mget A I3 c) (f32 0) = true) /\ Beqb (mget A I3 I3) (f32 1) = true /\
  m4_inverse (f_elem F32) A = Done C /\ (forall r c, is_nan (mget C r c) = false) /\ Beqb (mget C I3 I0) (f32 0) = false /\ Beqb (mget C I3 I3) (f32 1) = false.
Proof. exact affine_far_case. Qed.
Print Assumptions C115_far_refuted.
(** An invertible matrix with blocks {0, 1}, {2}, {3}. *)
Example C115_blocks_case : (forall r c, blk3 r <> blk3 c -> Beqb (mget in_blocks r c) (f32 0) = true) /\
  (exists C, m4_inverse (f_elem F32) in_blocks = Done C /\ (forall r c, is_nan (mget C r c) = false)) /\
  (forall r, blk3 r = blk3 I2 -> r = I2) /\ (forall r, blk3 r = blk3 I3 -> r = I3).
Proof. exact blocks_case. Qed.
Example C115_last_row_case : (forall c, c <> I3 -> Beqb (mget near I3 c) (f32 0) = true) /\
  (forall r c, Bleb (Babs (mget near r c)) (Babs (mget near I3 I3)) = true) /\
  (exists C, m4_inverse (f_elem F32) near = Done C /\ (forall r c, is_nan (mget C r c) = false)).
Proof. exact affine_case. Qed.
