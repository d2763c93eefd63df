(** Property theorems about derived equality: C125 and C126. Nothing but statements, examples and [Print Assumptions]. *)
From Coq Require Import ZArith.
From Flocq Require Import IEEE754.BinarySingleNaN.
From Verif Require Import GeoSpec Base TokModel ParModel RenderModel Elem FloatInst FloatLit GeoModel MatModel LexSpec SceneSpec SceneObs DecSpec BuildSpec EqModel EqSpec PropsLexLemmas DecExp EqProofs EqThms.
Local Open Scope mon_scope.

(** ** C125: equality of tokens, scenes and errors *)
(** Two paths are equal exactly when they differ only in doubled and final separators and in dots that are not at the beginning. *)
Theorem C125_paths : forall s t, path_eq s t = true <-> same_path s t.
Proof. exact path_eq_same. Qed.
Print Assumptions C125_paths.
(** Two scenes are equal exactly when they stand for one scene: positions, names, strings and integers are the same, floats have the same value and are not NaN, paths are the same. *)
Theorem C125_scenes : forall f (x y : list (PreDirective (flt f)) * Directive (flt f)), scene_eq Beqb x y = true <-> same_meaning x y.
Proof. exact scene_meaning. Qed.
Print Assumptions C125_scenes.
Theorem C125_symmetric : forall f (x y : list (PreDirective (flt f)) * Directive (flt f)), scene_eq Beqb x y = scene_eq Beqb y x.
Proof. exact scene_symmetric. Qed.
Print Assumptions C125_symmetric.
Theorem C125_transitive : forall f (x y z : list (PreDirective (flt f)) * Directive (flt f)),
  scene_eq Beqb x y = true -> scene_eq Beqb y z = true -> scene_eq Beqb x z = true.
Proof. exact scene_transitive. Qed.
Print Assumptions C125_transitive.
(** A parsed scene is equal to itself exactly when it has no NaN. *)
Theorem C125_self : forall f pw cc chk text x, parse (fo_ieee f pw) cc chk text = Done (Ok x) ->
  (scene_eq Beqb x x = true <-> Forall (fun v => is_nan v = false) (scene_floats x)).
Proof. exact parsed_self. Qed.
Print Assumptions C125_self.
(** That is so whenever no literal of the text is NaN. *)
Theorem C125_literals : forall f pw cc chk text ts x, tokenize (fo_ieee f pw) cc chk text = Done (Ok ts) ->
  Forall (fun t => forall v, tok_ty t = TFloat v -> is_nan v = false) ts -> parse (fo_ieee f pw) cc chk text = Done (Ok x) -> scene_eq Beqb x x = true.
Proof. exact literals_self. Qed.
Print Assumptions C125_literals.
(** Two tokens *)
Theorem C125_tokens : forall f (s t : Token (flt f)), token_eq Beqb s t = true <->
  tok_pos s = tok_pos t /\ match tok_ty s, tok_ty t with TFloat u, TFloat v => alike u v | a, b => a = b end.
Proof. exact token_alike. Qed.
Print Assumptions C125_tokens.
(** Two errors are equal exactly when they are displayed alike and both or none is the end of the file. *)
Theorem C125_errors : forall F (dd : DebugOps F) (a b : error F), error_eq dd a b = true <-> (a = EEof <-> b = EEof) /\ fmt_error dd a = fmt_error dd b.
Proof. intros F. exact (error_display (F := F)). Qed.
Print Assumptions C125_errors.
Theorem C125_error_laws : forall F (dd : DebugOps F), (forall a : error F, error_eq dd a a = true) /\ (forall a b : error F, error_eq dd a b = true -> error_eq dd b a = true) /\
  (forall a b c : error F, error_eq dd a b = true -> error_eq dd b c = true -> error_eq dd a c = true).
Proof. intros F. exact (error_equivalence (F := F)). Qed.
Print Assumptions C125_error_laws.
(** Two results of parsing are equal exactly when both are scenes that stand for one scene or both are errors that are equal. *)
Theorem C125_results : forall f (dd : DebugOps (flt f)) (a b : result (list (PreDirective (flt f)) * Directive (flt f)) (error (flt f))),
  result_eq Beqb dd a b = true <->
  match a, b with Ok x, Ok y => same_meaning x y | Err e, Err e' => (e = EEof <-> e' = EEof) /\ fmt_error dd e = fmt_error dd e' | _, _ => False end.
Proof. exact result_meaning. Qed.
Print Assumptions C125_results.
(** Not every parsed scene is equal to itself: a literal can be NaN. *)
Theorem C125_always_self_refuted : forall f pw cc, cc_ok cc -> forall chk, good_powf f pw ->
  exists text x, parse (fo_ieee f pw) cc chk text = Done (Ok x) /\ scene_eq Beqb x x = false.
Proof. exact not_self. Qed.
Print Assumptions C125_always_self_refuted.
(** Equal scenes need not be identical: both zeros, and two spellings of a path. *)
Definition eq_text (a b : string) : str := s2l "Include """ ++ s2l a ++ s2l """" ++ [10%N] ++ s2l "Translate 0 0 " ++ s2l b ++ [10%N] ++ s2l "WorldBegin WorldEnd".
Theorem C125_identical_refuted : exists x y, parse (fo_ieee F32 (powf_ref F32)) cc_ascii true (eq_text "a//b/" "-0.0") = Done (Ok x) /\
  parse (fo_ieee F32 (powf_ref F32)) cc_ascii true (eq_text "a/./b" "0.0") = Done (Ok y) /\ scene_eq Beqb x y = true /\ x <> y.
Proof.
  eexists. eexists. split; [vm_compute; reflexivity|]. split; [vm_compute; reflexivity|]. split; [vm_compute; reflexivity|]. intros E.
  apply (f_equal fst) in E. discriminate E.
Qed.
Print Assumptions C125_identical_refuted.
Example C125_paths_example : path_eq (s2l "a//b/./c/.") (s2l "a/b/c") = true /\ path_eq (s2l "./a") (s2l "a") = false /\
  path_eq (s2l "/a") (s2l "a") = false /\ path_eq (s2l "a/../b") (s2l "b") = false /\ path_eq (s2l "/.") (s2l "//") = true /\ path_eq [] (s2l ".") = false.
Proof. vm_compute. repeat split; reflexivity. Qed.
Example C125_example : exists x y, parse (fo_ieee F32 (powf_ref F32)) cc_ascii true (eq_text "a" "0.0") = Done (Ok x) /\
  parse (fo_ieee F32 (powf_ref F32)) cc_ascii true (eq_text "a" "00.00") = Done (Ok y) /\ scene_eq Beqb x y = true /\ scene_eq Beqb x x = true.
Proof. eexists. eexists. split; [vm_compute; reflexivity|]. split; [vm_compute; reflexivity|]. split; vm_compute; reflexivity. Qed.
Example C125_results_example : forall dd : DebugOps (flt F32), exists x,
  parse (fo_ieee F32 (powf_ref F32)) cc_ascii true (eq_text "a" "0.0") = Done (Ok x) /\ result_eq Beqb dd (Ok x) (Ok x) = true /\
  result_eq Beqb dd (Ok x) (Err EEof) = false /\ result_eq Beqb dd (Err EEof) (Ok x) = false /\ result_eq Beqb dd (Err EEof) (Err EEof) = true.
Proof. intros dd. eexists. split; [vm_compute; reflexivity|]. split; [vm_compute; reflexivity|]. repeat split; reflexivity. Qed.
Example C125_good : good_powf F32 (powf_ref F32) /\ cc_ok cc_ascii.
Proof. split; [apply powf_ref_good|exact cc_ascii_ok]. Qed.

(** ** C126: equality of points, vectors, normals, matrices and transforms *)
(** Integers: exactly when they are the same. *)
Theorem C126_integers : forall chk,
  (forall a b, point2_eq (i64 chk) a b = true <-> a = b) /\ (forall a b, point3_eq (i64 chk) a b = true <-> a = b) /\
  (forall a b, vector2_eq (i64 chk) a b = true <-> a = b) /\ (forall a b, vector3_eq (i64 chk) a b = true <-> a = b) /\
  (forall a b, normal3_eq (i64 chk) a b = true <-> a = b) /\ (forall a b, m4_eq (i64 chk) a b = true <-> a = b).
Proof. exact int_parts. Qed.
Print Assumptions C126_integers.
(** Floats: exactly when all coordinates stand for the same numbers. *)
Theorem C126_floats : forall f,
  (forall a b, point2_eq (f_elem f) a b = true <-> alike (p2x a) (p2x b) /\ alike (p2y a) (p2y b)) /\
  (forall a b, point3_eq (f_elem f) a b = true <-> alike (px a) (px b) /\ alike (py a) (py b) /\ alike (pz a) (pz b)) /\
  (forall a b, vector2_eq (f_elem f) a b = true <-> alike (v2x a) (v2x b) /\ alike (v2y a) (v2y b)) /\
  (forall a b, vector3_eq (f_elem f) a b = true <-> alike (vx a) (vx b) /\ alike (vy a) (vy b) /\ alike (vz a) (vz b)) /\
  (forall a b, normal3_eq (f_elem f) a b = true <-> alike (nx a) (nx b) /\ alike (ny a) (ny b) /\ alike (nz a) (nz b)).
Proof. exact float_parts. Qed.
Print Assumptions C126_floats.
Theorem C126_matrices : forall f (a b : Matrix4 (flt f)), m4_eq (f_elem f) a b = true <-> forall r c, alike (mget a r c) (mget b r c).
Proof. exact float_matrix. Qed.
Print Assumptions C126_matrices.
Theorem C126_transforms : forall f (a b : Transform (flt f)), transform_eq (f_elem f) a b = true <->
  forall r c, alike (mget (t_m a) r c) (mget (t_m b) r c) /\ alike (mget (t_inv a) r c) (mget (t_inv b) r c).
Proof. exact float_transform. Qed.
Print Assumptions C126_transforms.
(** Standing for the same number is symmetric and transitive; a float is not so related to itself exactly when it is NaN. *)
Theorem C126_laws : forall f, (forall u v : flt f, alike u v -> alike v u) /\ (forall u v w : flt f, alike u v -> alike v w -> alike u w) /\
  (forall u : flt f, alike u u <-> is_nan u = false).
Proof. exact alike_laws. Qed.
Print Assumptions C126_laws.
Theorem C126_inverse : forall f (a b : Transform (flt f)), transform_eq (f_elem f) (t_inverse a) (t_inverse b) = transform_eq (f_elem f) a b.
Proof. exact inverse_eq. Qed.
Print Assumptions C126_inverse.
Theorem C126_transpose : forall f (a b : Transform (flt f)), transform_eq (f_elem f) (t_transpose a) (t_transpose b) = transform_eq (f_elem f) a b.
Proof. exact transpose_eq. Qed.
Print Assumptions C126_transpose.
(** Two transforms that both are the identity need not be equal: scaling by 1 and translating by 0. *)
Theorem C126_identity_refuted : exists t u, t_scale (f_float F32) (f32 1) (f32 1) (f32 1) = Done t /\ t_translate (f_float F32) (V3 (f32 0) (f32 0) (f32 0)) = Done u /\
  t_is_identity (f_float F32) t = true /\ t_is_identity (f_float F32) u = true /\ transform_eq (f_elem F32) t u = false.
Proof. eexists. eexists. split; [reflexivity|]. split; [reflexivity|]. split; [vm_compute; reflexivity|]. split; vm_compute; reflexivity. Qed.
Print Assumptions C126_identity_refuted.
Example C126_example : let z := B754_zero true : flt F32 in let p := V3 z (f32 3) (B754_infinity true) in
  vector3_eq (f_elem F32) p (V3 (f32 0) (f32 3) (B754_infinity true)) = true /\ vector3_eq (f_elem F32) p (V3 (f32 0) (f32 3) (B754_infinity false)) = false /\
  vector3_eq (f_elem F32) (V3 B754_nan z z) (V3 B754_nan z z) = false.
Proof. vm_compute. repeat split; reflexivity. Qed.
