(** Theorems about derived equality: scenes, points and matrices. *)
From Coq Require Import Reals Lra.
From Flocq Require Import Core.Core IEEE754.BinarySingleNaN.
From Verif Require Import RenderProofs Base TokModel ParModel RenderModel Elem FloatInst FloatLit GeoModel MatModel LexSpec SceneSpec SceneObs DecSpec BuildSpec EqModel EqSpec EqProofs
  LexProofs TextThms DirProofs SceneThms PropsSceneLemmas DecThms DecExp DecConv DecProps PrintSpec MatSpec.
Close Scope R_scope.

(** ** Floats *)
Lemma feq_value f : rep (Beqb : flt f -> flt f -> bool) value (@Some EqSpec.ext).
Proof.
  intros x y.
  assert (V : forall z : flt f, is_finite z = true -> value z = Some (Fin (B2R z))) by (intros [s|s| |s m e B] H; try discriminate H; reflexivity).
  destruct (is_finite x) eqn:Fx, (is_finite y) eqn:Fy.
  - rewrite (Beqb_correct _ _ x y Fx Fy), (V x Fx), (V y Fy). split.
    + intros H. apply Req_bool_true_iff in H || (revert H; case Req_bool_spec; [intros H _|discriminate]). rewrite H. now exists (Fin (B2R y)).
    + intros (z & E & E'). injection E as <-. injection E' as E'. now apply Req_bool_true.
  - rewrite (V x Fx). destruct x as [s|s| |s m e B]; try discriminate Fx; destruct y as [t|t| |t n h B']; try discriminate Fy; cbn;
      (split; [intros H; try discriminate H; destruct s, t; discriminate H|intros (z & E & E'); try discriminate E'; injection E as <-; destruct t; discriminate E']).
  - rewrite (V y Fy). destruct x as [s|s| |s m e B]; try discriminate Fx; destruct y as [t|t| |t n h B']; try discriminate Fy; cbn;
      (split; [intros H; try discriminate H; destruct s, t; discriminate H|intros (z & E & E'); try discriminate E; injection E' as <-; destruct s; discriminate E]).
  - destruct x as [s|s| |s m e B]; try discriminate Fx; destruct y as [t|t| |t n h B']; try discriminate Fy; cbn.
    + destruct s, t; cbn; (split; [intros H; try discriminate H; eexists; split; reflexivity|intros (z & E & E'); first [reflexivity | congruence]]).
    + split; [destruct s; discriminate|intros (z & E & E'); discriminate E'].
    + split; [destruct t; discriminate|intros (z & E & E'); discriminate E].
    + split; [discriminate|intros (z & E & E'); discriminate E].
Qed.
Lemma feq_self f (x : flt f) : Beqb x x = negb (is_nan x).
Proof.
  apply eq_true_iff_eq. rewrite (feq_value f x x). destruct x; cbn; split; intros H; try reflexivity; try discriminate H; try (eexists; split; reflexivity).
  destruct H as (z & H & _). discriminate H.
Qed.

(** ** Changing the paths twice *)
Section Twice.
Context {F : Type} (g h : str -> str).
Lemma path_spectrum_twice (s : Spectrum F) : path_spectrum h (path_spectrum g s) = path_spectrum (fun p => h (g p)) s.
Proof. now destruct s. Qed.
Lemma path_ps_twice (s : ParamSet F) : path_ps h (path_ps g s) = path_ps (fun p => h (g p)) s.
Proof.
  destruct s. cbn. f_equal. rewrite map_map. apply map_ext. intros [a b l]. unfold map_param. cbn. f_equal. rewrite map_map. apply map_ext.
  intros x. apply path_spectrum_twice.
Qed.
Lemma path_ds_twice (s : DirectiveStruct F) : path_ds h (path_ds g s) = path_ds (fun p => h (g p)) s.
Proof. destruct s. unfold path_ds. cbn. now rewrite path_ps_twice. Qed.
Lemma path_ts_twice (s : TextureStruct F) : path_ts h (path_ts g s) = path_ts (fun p => h (g p)) s.
Proof. destruct s. unfold path_ts. cbn. now rewrite path_ps_twice. Qed.
Lemma path_dir_twice (d : Directive F) : path_dir h (path_dir g d) = path_dir (fun p => h (g p)) d.
Proof.
  assert (L : forall l : list (Directive F), Forall (fun d => path_dir h (path_dir g d) = path_dir (fun p => h (g p)) d) l ->
    map (path_dir h) (map (path_dir g) l) = map (path_dir (fun p => h (g p))) l).
  { intros l H. rewrite map_map. apply map_ext_in. now apply Forall_forall. }
  induction d as [d IH] using dir_rect'. destruct d; cbn [path_dir]; rewrite ?path_ds_twice, ?path_ts_twice; try reflexivity; f_equal; now apply L.
Qed.
Lemma path_pre_twice (d : PreDirective F) : path_pre h (path_pre g d) = path_pre (fun p => h (g p)) d.
Proof. destruct d; cbn [path_pre]; rewrite ?path_ds_twice; reflexivity. Qed.
Lemma path_scene_twice (x : list (PreDirective F) * Directive F) : path_scene h (path_scene g x) = path_scene (fun p => h (g p)) x.
Proof. destruct x. unfold path_scene. cbn [fst snd]. rewrite map_map, path_dir_twice. f_equal. apply map_ext, path_pre_twice. Qed.
End Twice.
Section Ext.
Context {F : Type} (g h : str -> str) (E : forall s, g s = h s).
Lemma path_ps_ext (s : ParamSet F) : path_ps g s = path_ps h s.
Proof.
  destruct s. cbn. f_equal. apply map_ext. intros [a b l]. unfold map_param. cbn. f_equal. apply map_ext. intros []; cbn; now rewrite ?E.
Qed.
Lemma path_dir_ext (d : Directive F) : path_dir g d = path_dir h d.
Proof.
  assert (L : forall l : list (Directive F), Forall (fun d => path_dir g d = path_dir h d) l -> map (path_dir g) l = map (path_dir h) l).
  { intros l H. apply map_ext_in. now apply Forall_forall. }
  induction d as [d IH] using dir_rect'. destruct d; cbn [path_dir]; unfold path_ds, path_ts; rewrite ?path_ps_ext, ?E; try reflexivity; f_equal; now apply L.
Qed.
Lemma path_scene_ext (x : list (PreDirective F) * Directive F) : path_scene g x = path_scene h x.
Proof.
  destruct x. unfold path_scene. cbn [fst snd]. rewrite path_dir_ext. f_equal. apply map_ext.
  intros []; cbn [path_pre]; unfold path_ds; rewrite ?path_ps_ext, ?E; reflexivity.
Qed.
End Ext.
Section Commute.
Context {F G : Type} (g : str -> str) (v : F -> G).
Lemma path_ps_map (s : ParamSet F) : path_ps g (map_ps v s) = map_ps v (path_ps g s).
Proof.
  destruct s. cbn. f_equal. rewrite !map_map. apply map_ext. intros [a b l]. unfold map_param. cbn. f_equal. rewrite !map_map. apply map_ext. now intros [].
Qed.
Lemma path_dir_map (d : Directive F) : path_dir g (map_dir v d) = map_dir v (path_dir g d).
Proof.
  assert (L : forall l : list (Directive F), Forall (fun d => path_dir g (map_dir v d) = map_dir v (path_dir g d)) l ->
    map (path_dir g) (map (map_dir v) l) = map (map_dir v) (map (path_dir g) l)).
  { intros l H. rewrite !map_map. apply map_ext_in. now apply Forall_forall. }
  induction d as [d IH] using dir_rect'. destruct d; cbn [path_dir map_dir]; unfold path_ds, path_ts, map_ds, map_ts; cbn; rewrite ?path_ps_map; try reflexivity; f_equal; now apply L.
Qed.
Lemma path_scene_map (x : list (PreDirective F) * Directive F) : path_scene g (map_scene v x) = map_scene v (path_scene g x).
Proof.
  destruct x. unfold path_scene, map_scene. cbn [fst snd]. rewrite path_dir_map. f_equal. rewrite !map_map. apply map_ext.
  intros []; cbn [path_pre map_pre]; unfold path_ds, map_ds; cbn; rewrite ?path_ps_map; reflexivity.
Qed.
End Commute.

(** ** Scenes *)
Section Meaning.
Context (f : fmt).
Notation sc := (list (PreDirective (flt f)) * Directive (flt f))%type.
Definition tidied (x y : sc) := r_scene (Beqb : flt f -> flt f -> bool) value (feq_value f) tidy path_eq_tidy x y.
Lemma scene_meaning (x y : sc) : scene_eq Beqb x y = true <-> same_meaning x y.
Proof.
  rewrite (tidied x y). split.
  - intros (z & E & E'). exists tidy, z. split; [exact tidy_same|]. split; assumption.
  - intros (g & z & Hg & E & E'). exists (path_scene tidy z). unfold stands_for in E, E'.
    assert (T : forall s, tidy (g s) = tidy s) by (intros s; apply path_eq_tidy, path_eq_same, sp_sym, Hg).
    assert (K : forall w : sc, path_scene g (map_scene value w) = map_scene Some z -> path_scene tidy (map_scene value w) = map_scene Some (path_scene tidy z)).
    { intros w H. rewrite <- path_scene_map, <- H, path_scene_twice. apply path_scene_ext. intros s. now rewrite T. }
    split; now apply K.
Qed.
Lemma scene_symmetric (x y : sc) : scene_eq Beqb x y = scene_eq Beqb y x.
Proof. apply eq_true_iff_eq. rewrite (tidied x y), (tidied y x). split; intros (z & A & B); exists z; now split. Qed.
Lemma scene_transitive (x y w : sc) : scene_eq Beqb x y = true -> scene_eq Beqb y w = true -> scene_eq Beqb x w = true.
Proof.
  rewrite (tidied x y), (tidied y w), (tidied x w). intros (z & A & B) (z' & C & D). exists z'. split; [|exact D]. rewrite A, <- B. exact C.
Qed.
End Meaning.

Lemma token_alike f (s t : Token (flt f)) : token_eq Beqb s t = true <->
  tok_pos s = tok_pos t /\ match tok_ty s, tok_ty t with TFloat u, TFloat v => alike u v | a, b => a = b end.
Proof.
  unfold token_eq. rewrite andb_true_iff, pos_eq_iff.
  assert (K : token_type_eq Beqb (tok_ty s) (tok_ty t) = true <-> match tok_ty s, tok_ty t with TFloat u, TFloat v => alike u v | a, b => a = b end).
  { destruct (tok_ty s), (tok_ty t); cbn; rewrite ?str_eqb_iff, ?Z.eqb_eq; try apply feq_value; intuition congruence. }
  now rewrite K.
Qed.

(** ** A scene and itself *)
Section Self.
Context {F : Type} (feq : F -> F -> bool).
Notation ok := (fun v => feq v v).
Lemma vec_self {A} (eq : A -> A -> bool) l : vec_eq eq l l = forallb (fun x => eq x x) l.
Proof. induction l as [|x l IH]; [reflexivity|]. cbn. now rewrite IH. Qed.
Lemma str_self s : str_eqb s s = true.
Proof. now apply str_eqb_iff. Qed.
Lemma pos_self p : pos_eq p p = true.
Proof. now apply pos_eq_iff. Qed.
Lemma path_self s : path_eq s s = true.
Proof. apply path_eq_same, sp_refl. Qed.
Lemma forallb_flat {A B} (P : B -> bool) (k : A -> list B) l : forallb P (flat_map k l) = forallb (fun x => forallb P (k x)) l.
Proof. induction l as [|x l IH]; [reflexivity|]. cbn. now rewrite forallb_app, IH. Qed.
Lemma forallb_all {A} (P Q : A -> bool) l : (forall x, P x = Q x) -> forallb P l = forallb Q l.
Proof. intros H. induction l as [|x l IH]; [reflexivity|]. cbn. now rewrite IH, H. Qed.
Lemma params_self {A} (eq : A -> A -> bool) (k : A -> list F) l : (forall x, eq x x = forallb ok (k x)) ->
  vec_eq (param_eq eq) l l = forallb ok (flat_map (fun p => flat_map k (par_values p)) l).
Proof.
  intros H. rewrite vec_self, forallb_flat. apply forallb_all. intros [n p vs]. unfold param_eq. cbn [par_name par_pos par_values].
  rewrite str_self, pos_self, vec_self, forallb_flat. cbn. now apply forallb_all.
Qed.
Lemma params_const {A} (eq : A -> A -> bool) l : (forall x, eq x x = true) -> vec_eq (param_eq eq) l l = true.
Proof.
  intros H. rewrite vec_self. apply forallb_forall. intros [n p vs] _. unfold param_eq. cbn. rewrite str_self, pos_self, vec_self. cbn.
  apply forallb_forall. intros x _. apply H.
Qed.
Lemma flat_one {A} (l : list (Param A)) : flat_map par_values l = flat_map (fun p => flat_map (fun v => [v]) (par_values p)) l.
Proof. apply flat_map_ext. intros [n p vs]. cbn. induction vs as [|v vs IH]; [reflexivity|]. cbn. now rewrite <- IH. Qed.
Lemma ps_self (s : ParamSet F) : ps_point3fs s = [] -> ps_vector3fs s = [] -> ps_normal3fs s = [] -> param_set_eq feq s s = forallb ok (params_floats s).
Proof.
  intros E1 E2 E3. unfold param_set_eq, params_floats. rewrite E1, E2, E3. rewrite !forallb_app, flat_one. cbn [vec_eq].
  rewrite (params_const Bool.eqb) by (intros []; reflexivity). rewrite (params_const Z.eqb) by apply Z.eqb_refl.
  rewrite !(params_const str_eqb) by apply str_self.
  rewrite (params_self feq (fun v => [v])) by (intros x; cbn; now rewrite andb_true_r).
  rewrite (params_self (p2f_eq feq) (fun v => [p2_x _ v; p2_y _ v])) by (intros [a b]; cbn; now rewrite andb_true_r).
  rewrite (params_self (v2f_eq feq) (fun v => [v2_x _ v; v2_y _ v])) by (intros [a b]; cbn; now rewrite andb_true_r).
  rewrite (params_self (spectrum_eq feq) spectrum_floats).
  - now rewrite !andb_true_r, !andb_true_l, <- !andb_assoc.
  - intros [a b c|a b c|l|p|a b]; cbn [spectrum_eq spectrum_floats forallb]; rewrite ?andb_true_r, <- ?andb_assoc; try reflexivity; [|apply path_self].
    rewrite vec_self, forallb_flat. apply forallb_all. intros [a b]. cbn. now rewrite andb_true_r.
Qed.
Definition plain_ps (s : ParamSet F) : Prop := ps_point3fs s = [] /\ ps_vector3fs s = [] /\ ps_normal3fs s = [].
Lemma ds_self d : plain_ps (ds_params d) -> directive_struct_eq feq d d = forallb ok (params_floats (ds_params d)).
Proof. intros (A & B & C). unfold directive_struct_eq. now rewrite str_self, pos_self, ps_self. Qed.
Lemma ts_self d : plain_ps (ts_params d) -> texture_struct_eq feq d d = forallb ok (params_floats (ts_params d)).
Proof. intros (A & B & C). unfold texture_struct_eq. now rewrite !str_self, pos_self, ps_self. Qed.
Lemma dir_self (d : Directive F) : (forall e ps, In e (nodes d) -> dir_params e = Some ps -> plain_ps ps) ->
  directive_eq feq d d = forallb ok (flat_map dir_floats (nodes d)).
Proof.
  induction d as [d IH] using dir_rect'. intros H.
  assert (B : forall l, Forall (fun d => (forall e ps, In e (nodes d) -> dir_params e = Some ps -> plain_ps ps) ->
      directive_eq feq d d = forallb ok (flat_map dir_floats (nodes d))) l ->
      (forall e ps, In e (flat_map nodes l) -> dir_params e = Some ps -> plain_ps ps) ->
      vec_eq (directive_eq feq) l l = forallb ok (flat_map dir_floats (flat_map nodes l))).
  { clear. intros l HF. induction HF as [|d l Hd _ IHl]; intros H; [reflexivity|]. cbn [vec_eq flat_map]. rewrite flat_map_app, forallb_app, Hd, IHl; [reflexivity| |];
      intros e ps He; apply (H e ps); cbn; apply in_or_app; auto. }
  destruct d as [a|a|a|a|p l|p l|p l|p s|a]; cbn [directive_eq nodes flat_map dir_floats dir_params]; rewrite ?app_nil_r.
  - apply ds_self, (H (DMaterial a)); [now left|reflexivity].
  - apply ds_self, (H (DShape a)); [now left|reflexivity].
  - apply ds_self, (H (DLightSource a)); [now left|reflexivity].
  - apply ds_self, (H (DAreaLightSource a)); [now left|reflexivity].
  - rewrite pos_self. cbn [andb app]. apply B; [exact IH|]. intros e ps He. apply (H e ps). now right.
  - rewrite pos_self. cbn [andb app]. apply B; [exact IH|]. intros e ps He. apply (H e ps). now right.
  - rewrite pos_self. cbn [andb app]. apply B; [exact IH|]. intros e ps He. apply (H e ps). now right.
  - now rewrite pos_self, path_self.
  - apply ts_self, (H (DTexture a)); [now left|reflexivity].
Qed.
Lemma pre_self (d : PreDirective F) : (forall ps, pre_params d = Some ps -> plain_ps ps) -> predirective_eq feq d d = forallb ok (pre_floats d).
Proof.
  intros H. destruct d; cbn [predirective_eq pre_floats pre_params]; rewrite ?pos_self, ?str_self, ?path_self; try reflexivity;
    try (apply ds_self, H; reflexivity).
  all: try destruct v; try destruct m as [[[? ?] ?] [[? ?] ?] [[? ?] ?]]; unfold m3f_eq, row_eq, v3f_eq, m3_floats, v3_floats; cbn; repeat match goal with |- context [feq ?u ?v] => destruct (feq u v); cbn; try reflexivity end.
Qed.
Lemma scene_self x : (forall ps, all_params x ps -> plain_ps ps) -> scene_eq feq x x = forallb ok (scene_floats x).
Proof.
  intros H. destruct x as [ps d]. unfold scene_eq, scene_floats. cbn [fst snd]. rewrite forallb_app, dir_self.
  - f_equal. rewrite vec_self, forallb_flat. assert (K : forall e, In e ps -> predirective_eq feq e e = forallb ok (pre_floats e)).
    { intros e He. apply pre_self. intros q Hq. apply (H q). left. now exists e. }
    clear H. induction ps as [|e ps IH]; [reflexivity|]. cbn. rewrite IH, K; [reflexivity|now left|]. intros e' He. apply K. now right.
  - intros e q He Hq. apply (H q). right. now exists e.
Qed.
End Self.
Section SelfText.
Context (f : fmt) (pw : flt f -> flt f) (cc : CharClass) (Hcc : cc_ok cc) (chk : bool).
Notation fo := (fo_ieee f pw).
Lemma parsed_self text x : parse fo cc chk text = Done (Ok x) -> (scene_eq Beqb x x = true <-> Forall (fun v => is_nan v = false) (scene_floats x)).
Proof.
  intros H. assert (K : exists ts, parse_tokens fo ts = Done (Ok x)).
  { unfold parse in H. destruct (tokenize fo cc chk text) as [[ts|e]| |]; try discriminate H. now exists ts. }
  destruct K as (ts & K). rewrite scene_self.
  - rewrite forallb_forall, Forall_forall. split; intros L v Hv; specialize (L v Hv); rewrite feq_self in *; destruct (is_nan v); cbn in *; congruence.
  - intros ps. apply (three_empty fo ts x ps K).
Qed.
Lemma literals_self text ts x : tokenize fo cc chk text = Done (Ok ts) -> Forall (fun t => forall v, tok_ty t = TFloat v -> is_nan v = false) ts ->
  parse fo cc chk text = Done (Ok x) -> scene_eq Beqb x x = true.
Proof.
  intros T HF H. apply (parsed_self text x H). assert (K : parse_tokens fo ts = Done (Ok x)) by (unfold parse in H; now rewrite T in H).
  apply parse_tokens_iff in K.
  refine (proj1 (proj2 (g_scene fo (fun _ => True) (fun _ => True) (fun v => is_nan v = false) ts x K _))).
  eapply Forall_impl; [|exact HF]. intros [p []] Ht; cbn in *; auto. split; [exact I|]. apply int_rounds.
Qed.
End SelfText.


(** A text with the literal 0.0e400 gives a scene that is not equal to itself. *)
Lemma not_self f pw cc (Hcc : cc_ok cc) chk : good_powf f pw -> exists text x, parse (fo_ieee f pw) cc chk text = Done (Ok x) /\ scene_eq Beqb x x = false.
Proof.
  intros Hp. set (x0 := ([PTranslate (mkPos 0 0) (mkV3 (B754_nan : flt f) (B754_zero false) (B754_zero false))], DWorld (mkPos 0 0) []) : list (PreDirective (flt f)) * Directive (flt f)).
  destruct (proj2 (expressible_good f pw cc Hcc chk Hp x0)) as (text & y & H & E).
  - assert (N : forall ps, ~ all_params x0 ps).
    { intros ps [(d & [<-|[]] & K)|(d & [<-|[]] & K)]; discriminate K. }
    split; [|split].
    + split; [exact I|]. split; [intros ps K; now apply N in K|]. constructor; [|constructor]. now constructor.
    + intros ps K. now apply N in K.
    + intros p w [K|[]]. discriminate K.
  - exists text, y. split; [exact H|]. destruct (scene_eq Beqb y y) eqn:S; [|reflexivity]. exfalso.
    apply (parsed_self f pw cc chk text y H) in S. rewrite <- scene_floats_erase, E, scene_floats_erase in S. inversion S as [|? ? K]. discriminate K.
Qed.

(** ** Errors *)
Section Errors.
Context {F : Type} (dd : DebugOps F).
Lemma error_eq_iff (a b : error F) : error_eq dd a b = true <-> match a, b with EStr m, EStr m' => fmt_msg dd m = fmt_msg dd m' | EEof, EEof => True | _, _ => False end.
Proof. destruct a, b; cbn; rewrite ?str_eqb_iff; split; try discriminate; tauto. Qed.
Lemma error_display (a b : error F) : error_eq dd a b = true <-> (a = EEof <-> b = EEof) /\ fmt_error dd a = fmt_error dd b.
Proof.
  rewrite error_eq_iff. destruct a as [m|], b as [m'|]; rewrite ?fmt_error_str; split; try tauto.
  - intros H. split; [split; discriminate|exact H].
  - intros [[_ H] _]. now specialize (H eq_refl).
  - intros [[H _] _]. now specialize (H eq_refl).
Qed.
Lemma error_equivalence : (forall a : error F, error_eq dd a a = true) /\ (forall a b : error F, error_eq dd a b = true -> error_eq dd b a = true) /\
  (forall a b c : error F, error_eq dd a b = true -> error_eq dd b c = true -> error_eq dd a c = true).
Proof.
  split; [|split].
  - intros a. apply error_eq_iff. now destruct a.
  - intros a b. rewrite !error_eq_iff. destruct a, b; intuition congruence.
  - intros a b c. rewrite !error_eq_iff. destruct a, b, c; intuition congruence.
Qed.
End Errors.

(** ** Geometry *)
Section Geometry.
Context (f : fmt).
Notation E := (f_elem f).
Lemma alike_iff (u v : flt f) : e_eq E u v = true <-> alike u v.
Proof. apply feq_value. Qed.
Ltac crush := unfold point2_eq, point3_eq, vector2_eq, vector3_eq, normal3_eq; rewrite ?andb_true_iff, ?alike_iff; tauto.
Lemma float_parts :
  (forall a b, point2_eq E a b = true <-> alike (p2x a) (p2x b) /\ alike (p2y a) (p2y b)) /\
  (forall a b, point3_eq E a b = true <-> alike (px a) (px b) /\ alike (py a) (py b) /\ alike (pz a) (pz b)) /\
  (forall a b, vector2_eq E a b = true <-> alike (v2x a) (v2x b) /\ alike (v2y a) (v2y b)) /\
  (forall a b, vector3_eq E a b = true <-> alike (vx a) (vx b) /\ alike (vy a) (vy b) /\ alike (vz a) (vz b)) /\
  (forall a b, normal3_eq E a b = true <-> alike (nx a) (nx b) /\ alike (ny a) (ny b) /\ alike (nz a) (nz b)).
Proof. split; [|split; [|split; [|split]]]; intros a b; crush. Qed.
Lemma float_matrix (a b : Matrix4 (flt f)) : m4_eq E a b = true <-> forall r c, alike (mget a r c) (mget b r c).
Proof.
  unfold m4_eq, v4_eq. rewrite !andb_true_iff, !alike_iff. split.
  - intros H r c. destruct r, c; cbn; tauto.
  - intros H. repeat split; first [exact (H I0 I0)|exact (H I0 I1)|exact (H I0 I2)|exact (H I0 I3)|exact (H I1 I0)|exact (H I1 I1)|exact (H I1 I2)|exact (H I1 I3)
      |exact (H I2 I0)|exact (H I2 I1)|exact (H I2 I2)|exact (H I2 I3)|exact (H I3 I0)|exact (H I3 I1)|exact (H I3 I2)|exact (H I3 I3)].
Qed.
Lemma float_transform (a b : Transform (flt f)) : transform_eq E a b = true <->
  forall r c, alike (mget (t_m a) r c) (mget (t_m b) r c) /\ alike (mget (t_inv a) r c) (mget (t_inv b) r c).
Proof.
  unfold transform_eq. rewrite andb_true_iff, !float_matrix. split; [intros [H H'] r c; auto|]. intros H. split; intros r c; apply H.
Qed.
Lemma alike_laws : (forall u v : flt f, alike u v -> alike v u) /\ (forall u v w : flt f, alike u v -> alike v w -> alike u w) /\
  (forall u : flt f, alike u u <-> is_nan u = false).
Proof.
  split; [|split].
  - intros u v (r & A & B). now exists r.
  - intros u v w (r & A & B) (r' & C & D). exists r'. split; [|exact D]. congruence.
  - intros u. rewrite <- alike_iff. change (e_eq E u u) with (Beqb u u). rewrite feq_self. now destruct (is_nan u).
Qed.
Lemma inverse_eq (a b : Transform (flt f)) : transform_eq E (t_inverse a) (t_inverse b) = transform_eq E a b.
Proof. unfold transform_eq, t_inverse. cbn. apply andb_comm. Qed.
Lemma transpose_matrix_eq (a b : Matrix4 (flt f)) : m4_eq E (m4_transpose a) (m4_transpose b) = m4_eq E a b.
Proof.
  apply eq_true_iff_eq. rewrite !float_matrix. assert (G : forall (m : Matrix4 (flt f)) r c, mget (m4_transpose m) r c = mget m c r).
  { intros [[? ? ? ?] [? ? ? ?] [? ? ? ?] [? ? ? ?]] r c. now destruct r, c. }
  split; intros H r c; specialize (H c r); now rewrite ?G in *.
Qed.
Lemma transpose_eq (a b : Transform (flt f)) : transform_eq E (t_transpose a) (t_transpose b) = transform_eq E a b.
Proof. unfold transform_eq, t_transpose. cbn [t_m t_inv]. now rewrite !transpose_matrix_eq. Qed.
End Geometry.
Section Integers.
Context (chk : bool).
Notation E := (i64 chk).
Lemma int_eq_iff u v : e_eq E u v = true <-> u = v.
Proof. apply Z.eqb_eq. Qed.
Lemma int_parts :
  (forall a b, point2_eq E a b = true <-> a = b) /\ (forall a b, point3_eq E a b = true <-> a = b) /\ (forall a b, vector2_eq E a b = true <-> a = b) /\
  (forall a b, vector3_eq E a b = true <-> a = b) /\ (forall a b, normal3_eq E a b = true <-> a = b) /\ (forall a b, m4_eq E a b = true <-> a = b).
Proof.
  split; [|split; [|split; [|split; [|split]]]]; intros a b; unfold point2_eq, point3_eq, vector2_eq, vector3_eq, normal3_eq, m4_eq, v4_eq; rewrite ?andb_true_iff, ?int_eq_iff.
  1-5: destruct a, b; cbn; split; [intuition congruence|intros H; injection H; intros; subst; tauto].
  destruct a as [[? ? ? ?] [? ? ? ?] [? ? ? ?] [? ? ? ?]], b as [[? ? ? ?] [? ? ? ?] [? ? ? ?] [? ? ? ?]]. cbn.
  split; [intuition congruence|intros H; injection H; intros; subst; tauto].
Qed.
End Integers.
(** ** Results of parsing *)
Lemma result_meaning : forall f (dd : DebugOps (flt f)) (a b : result (list (PreDirective (flt f)) * Directive (flt f)) (error (flt f))),
  result_eq Beqb dd a b = true <->
  match a, b with Ok x, Ok y => same_meaning x y | Err e, Err e' => (e = EEof <-> e' = EEof) /\ fmt_error dd e = fmt_error dd e' | _, _ => False end.
Proof.
  intros f dd [x|e] [y|e']; cbn [result_eq]; [apply scene_meaning| | |apply error_display]; split; now intros.
Qed.
