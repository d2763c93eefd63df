(** Property theorems about lengths of vectors of integers: C137. Nothing but statements, examples and [Print Assumptions]. *)
From Coq Require Import ZArith Reals.
From Flocq Require Import Core.Core IEEE754.BinarySingleNaN.
From Verif Require Import Base Elem FloatInst GeoModel GeoSpec ArithSpec OpsSpec FloatErrSpec IntLen.
Local Open Scope R_scope.

(** ** C137: the length of a vector of integers *)
(** With overflow checks, a panic exactly when the sum of the squares does not fit. *)
Theorem C137_panic : forall f v, v3_len (f_float f) (i64 true) (f_of_int f) v = Panic <-> (2 ^ 63 <= dotZ v v)%Z.
Proof. exact len_panic. Qed.
Print Assumptions C137_panic.
(** Otherwise the length is right up to two half units in the last place. *)
Theorem C137_near : forall f chk v, (dotZ v v < 2 ^ 63)%Z -> exists l, v3_len (f_float f) (i64 chk) (f_of_int f) v = Done l /\ is_finite l = true /\
  Rabs (B2R l - sqrt (IZR (dotZ v v))) <= 2 * half_ulp f * sqrt (IZR (dotZ v v)).
Proof. exact len_near. Qed.
Print Assumptions C137_near.
Example C137_near_example : (dotZ (V3 4097 1 1) (V3 4097 1 1) < 2 ^ 63)%Z.
Proof. reflexivity. Qed.
(** If it is a whole number of at most 2^24 (f32) or 2^53 (f64) it is exact, even if its square is no float. *)
Theorem C137_whole : forall f chk v k, (0 <= k)%Z -> dotZ v v = (k * k)%Z -> (k * k < 2 ^ 63)%Z -> (k <= 2 ^ fprec f)%Z ->
  exists l, v3_len (f_float f) (i64 chk) (f_of_int f) v = Done l /\ is_finite l = true /\ B2R l = IZR k.
Proof. exact len_whole. Qed.
Print Assumptions C137_whole.
Example C137_whole_example : (dotZ (V3 3000003 4000004 0) (V3 3000003 4000004 0) = 5000005 * 5000005)%Z /\
  (5000005 <= 2 ^ fprec F32)%Z /\ ~ (5000005 * 5000005 <= 2 ^ fprec F32)%Z.
Proof. split; [reflexivity|]. split; [vm_compute; discriminate|]. intros H. vm_compute in H. now apply H. Qed.
(** A longer vector is never found shorter. *)
Theorem C137_order : forall f chk v w, (dotZ v v <= dotZ w w < 2 ^ 63)%Z -> exists l m, v3_len (f_float f) (i64 chk) (f_of_int f) v = Done l /\
  v3_len (f_float f) (i64 chk) (f_of_int f) w = Done m /\ Bleb l m = true.
Proof. exact len_order. Qed.
Print Assumptions C137_order.
Example C137_order_example : (dotZ (V3 1 2 3) (V3 1 2 3) <= dotZ (V3 4 0 0) (V3 4 0 0) < 2 ^ 63)%Z.
Proof. split; [vm_compute; discriminate|reflexivity]. Qed.
(** Without overflow checks the squares are added modulo 2^64: NaN exactly when that is negative. *)
Theorem C137_wrapped : forall f v, vec_range v -> exists l, v3_len (f_float f) (i64 false) (f_of_int f) v = Done l /\
  if (wrap (dotZ v v) <? 0)%Z then is_nan l = true
  else is_finite l = true /\ B2R l = nearest f (sqrt (nearest f (IZR (wrap (dotZ v v))))).
Proof. exact len_wrapped. Qed.
Print Assumptions C137_wrapped.
Example C137_wrapped_example : vec_range (V3 3037000500 0 0)%Z /\ (wrap (dotZ (V3 3037000500 0 0) (V3 3037000500 0 0)) <? 0)%Z = true /\
  vec_range (V3 4294967296 0 1)%Z /\ wrap (dotZ (V3 4294967296 0 1)%Z (V3 4294967296 0 1)%Z) = 1%Z.
Proof. split; [intros []; reflexivity|]. split; [reflexivity|]. split; [intros []; reflexivity|reflexivity]. Qed.
(** Normals have the length of the vector with their components. *)
Theorem C137_normals : forall f chk n, n3_len (f_float f) (i64 chk) (f_of_int f) n = v3_len (f_float f) (i64 chk) (f_of_int f) (V3 (nx n) (ny n) (nz n)).
Proof. exact n_len. Qed.
Print Assumptions C137_normals.
(** The length need not be the nearest float: for (4097, 1, 1) there is a nearer one. *)
Theorem C137_nearest_refuted : exists v (l y : flt F32), vec_range v /\ (dotZ v v < 2 ^ 63)%Z /\
  v3_len (f_float F32) (i64 true) (f_of_int F32) v = Done l /\ is_finite l = true /\ is_finite y = true /\
  Rabs (B2R y - sqrt (IZR (dotZ v v))) < Rabs (B2R l - sqrt (IZR (dotZ v v))).
Proof. exact len_inexact. Qed.
Print Assumptions C137_nearest_refuted.
