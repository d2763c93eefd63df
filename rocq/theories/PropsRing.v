(** Property theorems about the laws of integer vectors. Nothing but statements, examples and [Print Assumptions]. *)
From Coq Require Import ZArith List.
From Verif Require Import Base Elem GeoModel GeoSpec ArithSpec RingSpec IntRing.
Local Open Scope mon_scope.
Local Open Scope Z_scope.

(** ** C141: the laws of integer vectors whatever overflows *)
Theorem C141_sums : forall u v w, vec_range u ->
  law (fun c => s <~ v3_add (i64 c) u v ;; v3_add (i64 c) s w) (fun c => s <~ v3_add (i64 c) v w ;; v3_add (i64 c) u s) /\
  law (fun c => v3_add (i64 c) u v) (fun c => v3_add (i64 c) v u) /\
  law (fun c => s <~ v3_add (i64 c) u v ;; v3_sub (i64 c) s v) (fun _ => Done u) /\
  law (fun c => s <~ v3_sub (i64 c) u v ;; v3_add (i64 c) s v) (fun _ => Done u) /\
  law (fun c => v3_sub (i64 c) u v) (fun c => n <~ v3_neg (i64 c) v ;; v3_add (i64 c) u n) /\
  law (fun c => n <~ v3_neg (i64 c) u ;; v3_neg (i64 c) n) (fun _ => Done u).
Proof. exact add_laws. Qed.
Print Assumptions C141_sums.
Theorem C141_points : forall p q v w, pt_range p -> pt_range q -> vec_range v ->
  law (fun c => d <~ p3_sub (i64 c) q p ;; p3_add (i64 c) p d) (fun _ => Done q) /\
  law (fun c => s <~ p3_add (i64 c) p v ;; p3_sub (i64 c) s p) (fun _ => Done v) /\
  law (fun c => s <~ p3_add (i64 c) p v ;; p3_sub_v (i64 c) s v) (fun _ => Done p) /\
  law (fun c => s <~ p3_add (i64 c) p v ;; p3_add (i64 c) s w) (fun c => s <~ v3_add (i64 c) v w ;; p3_add (i64 c) p s) /\
  law (fun c => n <~ v3_neg (i64 c) v ;; p3_add (i64 c) p n) (fun c => p3_sub_v (i64 c) p v).
Proof. exact point_laws. Qed.
Print Assumptions C141_points.
Theorem C141_scaling : forall u v j k,
  law (fun c => s <~ v3_add (i64 c) u v ;; v3_mul (i64 c) s k) (fun c => a <~ v3_mul (i64 c) u k ;; b <~ v3_mul (i64 c) v k ;; v3_add (i64 c) a b) /\
  law (fun c => s <~ e_add (i64 c) j k ;; v3_mul (i64 c) u s) (fun c => a <~ v3_mul (i64 c) u j ;; b <~ v3_mul (i64 c) u k ;; v3_add (i64 c) a b) /\
  law (fun c => a <~ v3_mul (i64 c) u j ;; v3_mul (i64 c) a k) (fun c => s <~ e_mul (i64 c) j k ;; v3_mul (i64 c) u s) /\
  law (fun c => v3_mul (i64 c) u (-1)) (fun c => v3_neg (i64 c) u).
Proof. exact scale_laws. Qed.
Print Assumptions C141_scaling.
Theorem C141_dot : forall u v w k,
  law (fun c => v3_dot (i64 c) u v) (fun c => v3_dot (i64 c) v u) /\
  law (fun c => v3_len_sq (i64 c) u) (fun c => v3_dot (i64 c) u u) /\
  law (fun c => s <~ v3_add (i64 c) u v ;; v3_dot (i64 c) s w) (fun c => a <~ v3_dot (i64 c) u w ;; b <~ v3_dot (i64 c) v w ;; e_add (i64 c) a b) /\
  law (fun c => s <~ v3_mul (i64 c) u k ;; v3_dot (i64 c) s v) (fun c => a <~ v3_dot (i64 c) u v ;; e_mul (i64 c) k a).
Proof. exact dot_laws. Qed.
Print Assumptions C141_dot.
(** The last two: the product is at right angles to its factors, and the triple product may be turned round. *)
Theorem C141_cross : forall u v w k,
  law (fun c => v3_cross (i64 c) u v) (fun c => x <~ v3_cross (i64 c) v u ;; v3_neg (i64 c) x) /\
  law (fun c => v3_cross (i64 c) u u) (fun _ => Done (V3 0 0 0)) /\
  law (fun c => s <~ v3_add (i64 c) u v ;; v3_cross (i64 c) s w) (fun c => a <~ v3_cross (i64 c) u w ;; b <~ v3_cross (i64 c) v w ;; v3_add (i64 c) a b) /\
  law (fun c => s <~ v3_mul (i64 c) u k ;; v3_cross (i64 c) s v) (fun c => a <~ v3_cross (i64 c) u v ;; v3_mul (i64 c) a k) /\
  law (fun c => x <~ v3_cross (i64 c) u v ;; v3_dot (i64 c) u x) (fun _ => Done 0) /\
  law (fun c => x <~ v3_cross (i64 c) u v ;; v3_dot (i64 c) x w) (fun c => x <~ v3_cross (i64 c) v w ;; v3_dot (i64 c) x u).
Proof. exact cross_laws. Qed.
Print Assumptions C141_cross.
(** Lagrange's identity, and the product of three vectors. *)
Theorem C141_lagrange : forall u v w,
  law (fun c => x <~ v3_cross (i64 c) u v ;; v3_len_sq (i64 c) x)
      (fun c => a <~ v3_len_sq (i64 c) u ;; b <~ v3_len_sq (i64 c) v ;; d <~ v3_dot (i64 c) u v ;; p <~ e_mul (i64 c) a b ;; q <~ e_mul (i64 c) d d ;; e_sub (i64 c) p q) /\
  law (fun c => x <~ v3_cross (i64 c) v w ;; v3_cross (i64 c) u x)
      (fun c => a <~ v3_dot (i64 c) u w ;; b <~ v3_dot (i64 c) u v ;; p <~ v3_mul (i64 c) v a ;; q <~ v3_mul (i64 c) w b ;; v3_sub (i64 c) p q).
Proof. exact lagrange_laws. Qed.
Print Assumptions C141_lagrange.
(** The same for normals. *)
Theorem C141_normals : forall (u v w : Normal3 Z) j k,
  (in_range (nx u) = true /\ in_range (ny u) = true /\ in_range (nz u) = true ->
   law (fun c => s <~ n3_add (i64 c) u v ;; n3_sub (i64 c) s v) (fun _ => Done u) /\
   law (fun c => s <~ n3_sub (i64 c) u v ;; n3_add (i64 c) s v) (fun _ => Done u) /\
   law (fun c => n <~ n3_neg (i64 c) u ;; n3_neg (i64 c) n) (fun _ => Done u)) /\
  law (fun c => s <~ n3_add (i64 c) u v ;; n3_add (i64 c) s w) (fun c => s <~ n3_add (i64 c) v w ;; n3_add (i64 c) u s) /\
  law (fun c => n3_sub (i64 c) u v) (fun c => n <~ n3_neg (i64 c) v ;; n3_add (i64 c) u n) /\
  law (fun c => s <~ n3_add (i64 c) u v ;; n3_mul (i64 c) s k) (fun c => a <~ n3_mul (i64 c) u k ;; b <~ n3_mul (i64 c) v k ;; n3_add (i64 c) a b) /\
  law (fun c => a <~ n3_mul (i64 c) u j ;; n3_mul (i64 c) a k) (fun c => s <~ e_mul (i64 c) j k ;; n3_mul (i64 c) u s) /\
  law (fun c => s <~ n3_add (i64 c) u v ;; n3_dot (i64 c) s w) (fun c => a <~ n3_dot (i64 c) u w ;; b <~ n3_dot (i64 c) v w ;; e_add (i64 c) a b) /\
  law (fun c => n3_cross (i64 c) u v) (fun c => x <~ n3_cross (i64 c) v u ;; n3_neg (i64 c) x) /\
  law (fun c => x <~ n3_cross (i64 c) u v ;; n3_dot (i64 c) u x) (fun _ => Done 0) /\
  law (fun c => x <~ n3_cross (i64 c) u v ;; n3_len_sq (i64 c) x)
      (fun c => a <~ n3_len_sq (i64 c) u ;; b <~ n3_len_sq (i64 c) v ;; d <~ n3_dot (i64 c) u v ;; p <~ e_mul (i64 c) a b ;; q <~ e_mul (i64 c) d d ;; e_sub (i64 c) p q).
Proof. exact normal_laws. Qed.
Print Assumptions C141_normals.
(** Laws that divide or compare need the checks. *)
Theorem C141_cancel : forall u k s w, k <> 0 -> vec_range u -> v3_mul (i64 true) u k = Done s -> v3_div (i64 true) s k = Done w -> w = u.
Proof. exact cancel_true. Qed.
Print Assumptions C141_cancel.
Theorem C141_cancel_refuted : exists u k s w, vec_range u /\ k <> 0 /\ v3_mul (i64 false) u k = Done s /\ v3_div (i64 false) s k = Done w /\ w <> u.
Proof. exact cancel_wraps. Qed.
Print Assumptions C141_cancel_refuted.
Theorem C141_zero : forall u, v3_len_sq (i64 true) u = Done 0 -> u = V3 0 0 0.
Proof. exact zero_true. Qed.
Print Assumptions C141_zero.
Theorem C141_zero_refuted : exists u, vec_range u /\ u <> V3 0 0 0 /\ v3_len_sq (i64 false) u = Done 0.
Proof. exact zero_wraps. Qed.
Print Assumptions C141_zero_refuted.
Theorem C141_face : forall u v w d, v3_face_forward (i64 true) u v = Done w -> v3_dot (i64 true) w v = Done d ->
  0 <= d /\ (w = u \/ w = V3 (- vx u) (- vy u) (- vz u)).
Proof. exact face_true. Qed.
Print Assumptions C141_face.
Theorem C141_face_refuted : exists u v w d, vec_range u /\ vec_range v /\ v3_face_forward (i64 false) u v = Done w /\ v3_dot (i64 false) w v = Done d /\ d < 0.
Proof. exact face_wraps. Qed.
Print Assumptions C141_face_refuted.
(** Vectors whose sums and products overflow: there and back, and at right angles all the same. *)
Example C141_example : let u := V3 int_max int_min 7 in let v := V3 int_max 5 int_min in
  vec_range u /\ vec_range v /\ v3_add (i64 true) u v = Panic /\ v3_add (i64 false) u v = Done (V3 (-2) (int_min + 5) (int_min + 7)) /\
  v3_sub (i64 false) (V3 (-2) (int_min + 5) (int_min + 7)) v = Done u /\ v3_cross (i64 true) u v = Panic /\
  v3_cross (i64 false) u v = Done (V3 (-35) (-7) (-5)) /\ v3_dot (i64 false) u (V3 (-35) (-7) (-5)) = Done 0.
Proof. repeat split; try (intros []; reflexivity); vm_compute; reflexivity. Qed.
Example C141_normals_example : let u := N3 int_max int_min 7 in let v := N3 int_max 5 int_min in
  in_range (nx u) = true /\ in_range (ny u) = true /\ in_range (nz u) = true /\ n3_add (i64 true) u v = Panic /\
  n3_cross (i64 false) u v = Done (N3 (-35) (-7) (-5)) /\ n3_dot (i64 false) u (N3 (-35) (-7) (-5)) = Done 0.
Proof. vm_compute. repeat split. Qed.
(** And with checks: small vectors. *)
Example C141_checked_example : let u := V3 1 2 3 in let v := V3 4 5 7 in
  v3_add (i64 true) u v = Done (V3 5 7 10) /\ v3_cross (i64 true) u v = Done (V3 (-1) 5 (-3)) /\ v3_dot (i64 true) u (V3 (-1) 5 (-3)) = Done 0 /\
  v3_mul (i64 true) u (-6) = Done (V3 (-6) (-12) (-18)) /\ v3_div (i64 true) (V3 (-6) (-12) (-18)) (-6) = Done u /\
  v3_face_forward (i64 true) u (V3 0 0 (-1)) = Done (V3 (-1) (-2) (-3)) /\ v3_dot (i64 true) (V3 (-1) (-2) (-3)) (V3 0 0 (-1)) = Done 3.
Proof. vm_compute. repeat split. Qed.
