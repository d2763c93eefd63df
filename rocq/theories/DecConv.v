(** What a scene is made of comes from the tokens; which scenes have a text. *)
From Flocq Require Import Core.Core IEEE754.BinarySingleNaN.
From Verif Require Import Base TokModel ParModel LexSpec SceneSpec SceneObs FloatInst FloatLit OpsSpec DecSpec DecThms
  TokProofs LexProofs LexThms ParProofs DirProofs TextThms SceneThms KindProofs SceneProps PrintSpec PrintProofs DecText.
Open Scope list_scope.

Section Conv.
Context {F : Type} (fo : FloatOps F).
Variables (I : Z -> Prop) (N : str -> Prop) (Q : F -> Prop).
Definition good_ty (ty : TokenType F) : Prop :=
  match ty with TInt i => I i /\ Q (f_of_isize fo i) | TIdent w => N w | TFloat x => Q x | _ => True end.
Notation G := (Forall (fun t : Token F => good_ty (tok_ty t))).
Ltac inv H := inversion H; subst; clear H.

Lemma g_int s v r : int_item s v r -> G s -> I v /\ G r.
Proof. intros [p i r'] H. inv H. cbn in *. tauto. Qed.
Lemma g_str (s : list (Token F)) v r : str_item s v r -> G s -> True /\ G r.
Proof. intros [p i r'] H. inv H. auto. Qed.
Lemma g_bool (s : list (Token F)) v r : bool_item s v r -> G s -> True /\ G r.
Proof. intros [p r'|p r'] H; inv H; auto. Qed.
Lemma g_float s v r : float_item fo s v r -> G s -> Q v /\ G r.
Proof. intros [p x r'|p i r'] H; inv H; cbn in *; tauto. Qed.
Lemma g_point s v r : point2_item fo s v r -> G s -> Forall Q [p2_x _ v; p2_y _ v] /\ G r.
Proof. intros [s0 a s' b r' H1 H2] H. apply g_float in H1 as [? H1]; [|assumption]. apply g_float in H2 as [? H2]; auto. Qed.
Lemma g_vector s v r : vector2_item fo s v r -> G s -> Forall Q [v2_x _ v; v2_y _ v] /\ G r.
Proof. intros [s0 a s' b r' H1 H2] H. apply g_float in H1 as [? H1]; [|assumption]. apply g_float in H2 as [? H2]; auto. Qed.
Section Items.
Context {T : Type} (item : list (Token F) -> T -> list (Token F) -> Prop) (P : T -> Prop).
Hypothesis Hit : forall s v r, item s v r -> G s -> P v /\ G r.
Lemma g_items s l r : items item s l r -> G s -> Forall P l /\ G r.
Proof.
  induction 1 as [s v r H|s v s' vs r H Hs IH]; intros Hg; apply Hit in H as [Hv Hr]; auto. apply IH in Hr as [? ?]. auto.
Qed.
Lemma g_bracketed s l r : bracketed item s l r -> G s -> Forall P l /\ G r.
Proof. intros [p s0 vs q r0 H] Hg. inv Hg. apply g_items in H as [? H]; [|assumption]. inv H. auto. Qed.
Lemma g_one_or_list s l r : one_or_list item s l r -> G s -> Forall P l /\ G r.
Proof. intros [s0 v r0 H|s0 vs r0 H] Hg; [apply Hit in H as [? ?]; auto|now apply g_bracketed in H]. Qed.
End Items.

Definition val_ok (v : pval (F := F)) : Prop :=
  match v with
  | VInts l => Forall I l
  | VFloats l => Forall Q l
  | VPoints l => Forall (fun v => Forall Q [p2_x _ v; p2_y _ v]) l
  | VVectors l => Forall (fun v => Forall Q [v2_x _ v; v2_y _ v]) l
  | VSpectrum s => Forall Q (spectrum_floats s)
  | _ => True
  end.
Lemma unpair_flat (l : list (F * F)) : flat_map (fun p => [fst p; snd p]) l = unpair l.
Proof. induction l as [|[a b] l IH]; cbn; congruence. Qed.
Lemma g_value ty s v r : value fo ty s v r -> G s -> val_ok v /\ G r.
Proof.
  intros H Hg. destruct H as [s l r H|s l r H|s l r H|s l r H|s l r H|s l r H|s a b c r H|s a b c r H|s l r H|s w r H|s a b r H|s w r H]; cbn [val_ok].
  - exact (g_one_or_list _ _ g_int _ _ _ H Hg).
  - exact (g_one_or_list _ _ g_float _ _ _ H Hg).
  - exact (g_bracketed _ _ g_point _ _ _ H Hg).
  - exact (g_bracketed _ _ g_vector _ _ _ H Hg).
  - split; [exact Logic.I|]. now apply (g_one_or_list _ (fun _ => True) g_bool) in H.
  - split; [exact Logic.I|]. now apply (g_one_or_list _ (fun _ => True) g_str) in H.
  - exact (g_bracketed _ _ g_float _ _ _ H Hg).
  - exact (g_bracketed _ _ g_float _ _ _ H Hg).
  - cbn [spectrum_floats]. rewrite unpair_flat. exact (g_bracketed _ _ g_float _ _ _ H Hg).
  - split; [constructor|]. now apply g_str in H.
  - exact (g_bracketed _ _ g_float _ _ _ H Hg).
  - split; [exact Logic.I|]. now apply g_str in H.
Qed.
Lemma g_open ty s r : open_items fo ty s r -> G s -> G r.
Proof.
  intros H Hg. destruct H as [s l r H|s l r H|s l r H|s l r H|s l r H|s l r H|s a b c r H|s a b c r H|s l r H|s a b r H].
  - now apply (g_items _ _ g_int) in H.
  - now apply (g_items _ _ g_float) in H.
  - now apply (g_items _ _ g_point) in H.
  - now apply (g_items _ _ g_vector) in H.
  - now apply (g_items _ (fun _ => True) g_bool) in H.
  - now apply (g_items _ (fun _ => True) g_str) in H.
  - now apply (g_items _ _ g_float) in H.
  - now apply (g_items _ _ g_float) in H.
  - now apply (g_items _ _ g_float) in H.
  - now apply (g_items _ _ g_float) in H.
Qed.
Lemma g_dropped s r : dropped fo s r -> G s -> G r.
Proof.
  intros [p h ty name r' _ _ _|p q h ty name r' _ _ _ _|p q h ty name s' r' _ H _|p h name s' l r' _ H _ _] Hg; inv Hg; try assumption.
  - now inv H2.
  - inv H3. eapply g_open; eauto.
  - now apply (g_bracketed _ _ g_float) in H.
Qed.
Lemma g_params s l r : params fo s l r -> G s -> Forall (fun i => val_ok (pi_val i)) l /\ G r.
Proof.
  induction 1 as [s H|s r H|s i s' l r H Hs IH]; intros Hg.
  - auto.
  - split; [constructor|]. eapply g_dropped; eauto.
  - destruct H as [p h ty name s0 v r0 _ Hv]. inv Hg. apply g_value in Hv as [Hv Hr]; [|assumption].
    apply IH in Hr as [? ?]. auto.
Qed.

Lemma pick_ok {T} (sel : pval -> option (list T)) (P : T -> Prop) l :
  (forall v vs, val_ok v -> sel v = Some vs -> Forall P vs) -> Forall (fun i => val_ok (pi_val i)) l ->
  Forall P (flat_map par_values (pick sel l)).
Proof.
  intros Hs H. unfold pick. induction H as [|i l Hi H IH]; [constructor|]. cbn [flat_map]. rewrite flat_map_app.
  apply Forall_app. split; [|exact IH]. destruct (sel (pi_val i)) as [vs|] eqn:E; [|constructor]. cbn. rewrite app_nil_r. eauto.
Qed.
Lemma flat_flat {A B C} (g : A -> list B) (h : B -> list C) l : flat_map (fun a => flat_map h (g a)) l = flat_map h (flat_map g l).
Proof. induction l as [|a l IH]; cbn; [reflexivity|]. now rewrite flat_map_app, IH. Qed.
Lemma collect_ok l : Forall (fun i => val_ok (pi_val i)) l ->
  Forall I (params_ints (collect l)) /\ Forall Q (params_floats (collect l)).
Proof.
  intros H. split; [|unfold params_floats; cbn [collect ps_floats ps_point2fs ps_vector2fs ps_spectra]; rewrite !Forall_app; repeat split].
  - apply pick_ok; [|assumption]. intros [] vs Hv [=<-]; exact Hv.
  - apply pick_ok; [|assumption]. intros [] vs Hv [=<-]; exact Hv.
  - rewrite flat_flat. apply Forall_flat_map, pick_ok; [|assumption]. intros [] vs Hv [=<-]; exact Hv.
  - rewrite flat_flat. apply Forall_flat_map, pick_ok; [|assumption]. intros [] vs Hv [=<-]; exact Hv.
  - rewrite flat_flat. apply Forall_flat_map, pick_ok; [|assumption]. intros [] vs Hv [=<-]. cbn in Hv. auto.
Qed.

Definition node_ok (d : Directive F) : Prop := forall ps, dir_params d = Some ps -> Forall I (params_ints ps) /\ Forall Q (params_floats ps).
Lemma g_directive s d r : directive fo s d r -> G s -> Forall node_ok (nodes d) /\ G r.
Proof.
  apply (directive_mut F fo (fun s d r => G s -> Forall node_ok (nodes d) /\ G r)
    (fun s ds r => G s -> Forall node_ok (flat_map nodes ds) /\ G r)); clear s d r.
  - intros p id mkD q ty s l r Hk Hp Hg. inv Hg. inv H2. apply g_params in Hp as [Hl Hr]; [|assumption]. split; [|assumption].
    destruct Hk; (constructor; [|constructor]); intros ps [=<-]; now apply collect_ok.
  - intros p id mkB s ds r Hk Hd IH Hg. inv Hg. apply IH in H2 as [? ?]. split; [|assumption].
    destruct Hk; (constructor; [intros ps [=]|assumption]).
  - intros p q path r Hg. inv Hg. inv H2. split; [|assumption]. constructor; [intros ps [=]|constructor].
  - intros p q1 name q2 ty q3 class s l r Hp Hg. inv Hg. inv H2. inv H4. inv H5. apply g_params in Hp as [Hl Hr]; [|assumption].
    split; [|assumption]. constructor; [|constructor]. intros ps [=<-]; now apply collect_ok.
  - intros. split; [constructor|assumption].
  - intros s d s' ds r Hd H1 Hds H2 Hg. apply H1 in Hg as [? Hg]. apply H2 in Hg as [? Hg]. split; [|assumption].
    cbn. now apply Forall_app.
Qed.
Definition pre_ok (d : PreDirective F) : Prop :=
  (forall ps, pre_params d = Some ps -> Forall I (params_ints ps)) /\ Forall Q (pre_floats d) /\
  (forall p w, d = PActiveTransform p w -> N w).
Lemma g_predirective s d r : predirective fo s d r -> G s -> pre_ok d /\ G r.
Proof.
  intros [p r'|p id fl d' s' r' Hk Hi _|p id mkP q w r' Hk|p q w r'|p id mkP q ty s' l r' Hk Hp] Hg; inv Hg.
  - split; [|assumption]. split; [discriminate|]. split; [constructor|discriminate].
  - apply (g_items _ _ g_float) in Hi as [Hf Hr]; [|assumption]. split; [|assumption].
    destruct Hk; (split; [discriminate|split; [exact Hf|discriminate]]).
  - inv H2. split; [|assumption]. destruct Hk; (split; [discriminate|split; [constructor|discriminate]]).
  - inv H2. split; [|assumption]. split; [discriminate|]. split; [constructor|]. intros p' w' [= _ <-]. assumption.
  - inv H2. apply g_params in Hp as [Hl Hr]; [|assumption]. split; [|assumption]. apply collect_ok in Hl as [? ?].
    destruct Hk; (split; [intros ps [=<-]; assumption|split; [assumption|discriminate]]).
Qed.
Lemma g_predirectives s l r : predirectives fo s l r -> G s -> Forall pre_ok l /\ G r.
Proof.
  induction 1 as [p s|s d s' ds r Hd H IH]; intros Hg; [auto|]. apply g_predirective in Hd as [? Hg']; [|assumption].
  apply IH in Hg' as [? ?]. auto.
Qed.
Lemma g_scene s x : scene fo s x -> G s ->
  (forall ps, all_params x ps -> Forall I (params_ints ps)) /\ Forall Q (scene_floats x) /\
  (forall p w, In (PActiveTransform p w) (fst x) -> N w).
Proof.
  intros [s0 pres s' w r Hp Hd] Hg. apply g_predirectives in Hp as [Hp Hg']; [|assumption].
  apply g_directive in Hd as [Hd _]; [|assumption]. rewrite Forall_forall in Hp, Hd. split; [|split].
  - intros ps [(d & Hi & E)|(d & Hi & E)]; [now apply (Hp d)|now apply (Hd d)].
  - unfold scene_floats. apply Forall_app. split; apply Forall_flat_map, Forall_forall.
    + intros d Hi. now apply Hp.
    + intros d Hi. unfold dir_floats. destruct (dir_params d) as [ps|] eqn:E; [|constructor]. now apply (Hd d).
  - intros p w' Hi. now apply (proj2 (proj2 (Hp _ Hi)) p).
Qed.
End Conv.

(** ** Tokens of a text *)
Section Texts.
Context {F : Type} (fo : FloatOps F) (cc : CharClass) (Hcc : cc_ok cc) (chk : bool).
Lemma wrap_fits z : fits (wrap z).
Proof. unfold fits, wrap. pose proof (Z.mod_pos_bound (z + 2 ^ 63) (2 ^ 64) eq_refl). lia. Qed.
Lemma number_fits text z rest : number fo cc chk text (TInt z) rest -> fits z.
Proof.
  intros H. inversion H; subst.
  - match goal with J : int_num _ _ _ |- _ => now destruct J as (_ & _ & _ & J) end.
  - match goal with J : int_exp _ _ _ _ |- _ => destruct J as [(_ & J & ->)|[_ ->]]; [assumption|apply wrap_fits] end.
Qed.
Lemma identifier_alone w rest : identifier cc w rest -> identifier cc w [].
Proof. intros (c & t & E & H1 & H2 & H3 & _). exists c, t. repeat split; auto. Qed.
Definition float_source (x : F) : Prop :=
  (exists text rest, lexeme fo cc chk text (TFloat x) rest) \/ (exists i, fits i /\ x = f_of_isize fo i).
Lemma lexes_good pre text l : lexes fo cc chk pre text l ->
  Forall (fun t => good_ty fo fits (fun w => identifier cc w []) float_source (tok_ty t)) l.
Proof.
  induction 1 as [| | | |pre text ty rest l Hl H IH]; auto. constructor; [|assumption]. cbn [tok_ty].
  destruct ty as [w|w|i|x| |]; cbn; auto.
  - inversion Hl; subst; [eapply identifier_alone; eauto|]. match goal with J : number _ _ _ _ _ _ |- _ => inversion J end.
  - inversion Hl; subst. apply number_fits in H0. split; [assumption|]. right. eauto.
  - left. eauto.
Qed.
Lemma text_content text x : parse fo cc chk text = Done (Ok x) ->
  printable x /\ fitting x /\ named cc x /\ Forall float_source (scene_floats x).
Proof.
  intros H. apply (parse_ok_iff fo cc Hcc) in H as (t & toks & _ & Hl & Hs). split.
  - apply (parsed_printable fo toks). now apply parse_tokens_iff.
  - destruct (g_scene fo _ _ _ _ _ Hs (lexes_good _ _ _ Hl)) as (H1 & H2 & H3). repeat split; assumption.
Qed.
End Texts.

(** ** Positions do not matter *)
Section Erase.
Context {F : Type}.
Notation sc := (list (PreDirective F) * Directive F)%type.
Lemma children_erase (d : Directive F) : children (erase_dir d) = map erase_dir (children d).
Proof. now destruct d. Qed.
Lemma nodes_erase (d : Directive F) : nodes (erase_dir d) = map erase_dir (nodes d).
Proof.
  assert (E : forall l : list (Directive F), Forall (fun d => nodes (erase_dir d) = map erase_dir (nodes d)) l ->
    flat_map nodes (map erase_dir l) = map erase_dir (flat_map nodes l)).
  { induction 1 as [|e l He H IH]; cbn; [reflexivity|]. now rewrite map_app, He, IH. }
  induction d as [d IH] using (@dir_ind' F). destruct d; cbn in IH |- *; try reflexivity; now rewrite E.
Qed.
Lemma dir_params_erase (d : Directive F) : dir_params (erase_dir d) = option_map erase_ps (dir_params d).
Proof. now destruct d. Qed.
Lemma pre_params_erase (d : PreDirective F) : pre_params (erase_pre d) = option_map erase_ps (pre_params d).
Proof. now destruct d. Qed.
Lemma all_params_erase (x : sc) ps : all_params (erase_scene x) ps <-> exists ps0, all_params x ps0 /\ ps = erase_ps ps0.
Proof.
  unfold all_params, erase_scene; cbn [fst snd]. rewrite nodes_erase. split.
  - intros [(d & Hi & E)|(d & Hi & E)]; apply in_map_iff in Hi as (e & <- & Hi).
    + rewrite pre_params_erase in E. destruct (pre_params e) as [p|] eqn:Ep; [|discriminate]. injection E as <-. exists p. split; [|reflexivity]. eauto.
    + rewrite dir_params_erase in E. destruct (dir_params e) as [p|] eqn:Ep; [|discriminate]. injection E as <-. exists p. split; [|reflexivity]. eauto.
  - intros (p & [(d & Hi & E)|(d & Hi & E)] & ->); [left|right]; eexists; (split; [apply in_map, Hi|]).
    + now rewrite pre_params_erase, E.
    + now rewrite dir_params_erase, E.
Qed.
Lemma Forall_erase {T} (P : Param T -> Prop) l : (forall p, P (erase_param p) <-> P p) -> Forall P (map erase_param l) <-> Forall P l.
Proof. intros H. rewrite Forall_map, !Forall_forall. split; intros A p Hp; specialize (A p Hp); cbn in *; now apply H. Qed.
Lemma wf_erase (s : ParamSet F) : wf_params (erase_ps s) <-> wf_params s.
Proof.
  unfold wf_params, erase_ps. cbn.
  rewrite !Forall_erase by (intros p; reflexivity).
  assert (M : forall T (l : list (Param T)), map erase_param l = [] <-> l = []). { intros T l. destruct l; cbn; split; congruence. }
  now rewrite !M.
Qed.
Lemma flat_erase {T B} (g : Param T -> list B) l : (forall p, g (erase_param p) = g p) -> flat_map g (map erase_param l) = flat_map g l.
Proof. intros H. induction l as [|p l IH]; cbn; [reflexivity|]. now rewrite H, IH. Qed.
Lemma ints_erase (s : ParamSet F) : params_ints (erase_ps s) = params_ints s.
Proof. unfold params_ints. cbn. now apply flat_erase. Qed.
Lemma floats_erase (s : ParamSet F) : params_floats (erase_ps s) = params_floats s.
Proof. unfold params_floats. cbn. now rewrite !flat_erase. Qed.
Lemma scene_floats_erase (x : sc) : scene_floats (erase_scene x) = scene_floats x.
Proof.
  unfold scene_floats, erase_scene; cbn [fst snd]. rewrite nodes_erase. f_equal.
  - induction (fst x) as [|d l IH]; cbn [map flat_map]; [reflexivity|]. rewrite IH. f_equal.
    destruct d; cbn [erase_pre pre_floats pre_params]; unfold erase_ds; cbn [ds_params]; now rewrite ?floats_erase.
  - induction (nodes (snd x)) as [|d l IH]; cbn [map flat_map]; [reflexivity|]. rewrite IH. f_equal. unfold dir_floats.
    rewrite dir_params_erase. destruct (dir_params d); cbn [option_map]; now rewrite ?floats_erase.
Qed.
Lemma block_erase (d : Directive F) : is_block (erase_dir d) = is_block d.
Proof. now destruct d. Qed.
Lemma removelast_map {A B} (g : A -> B) l : removelast (map g l) = map g (removelast l).
Proof. induction l as [|a [|b l] IH]; cbn in *; try reflexivity. now rewrite IH. Qed.
Lemma block_last_erase (d : Directive F) : block_last (children (erase_dir d)) <-> block_last (children d).
Proof.
  unfold block_last. rewrite children_erase, removelast_map, Forall_map. split; intros H; (eapply Forall_impl; [|exact H]); intros e; cbn; now rewrite block_erase.
Qed.
Lemma printable_erase (x : sc) : printable (erase_scene x) <-> printable x.
Proof.
  unfold printable. cbn [erase_scene snd]. rewrite nodes_erase, Forall_map.
  assert (A : is_world (erase_dir (snd x)) <-> is_world (snd x)) by (now destruct (snd x)).
  assert (B : (forall ps, all_params (erase_scene x) ps -> wf_params ps) <-> (forall ps, all_params x ps -> wf_params ps)).
  { split; intros H ps Hp.
    - apply wf_erase, H, all_params_erase. eauto.
    - apply all_params_erase in Hp as (p & Hp & ->). now apply wf_erase, H. }
  assert (C : Forall (fun d => block_last (children (erase_dir d))) (nodes (snd x)) <-> Forall (fun d => block_last (children d)) (nodes (snd x))).
  { split; intros H; (eapply Forall_impl; [|exact H]); intros d; cbv beta; apply block_last_erase. }
  fold (erase_scene x). rewrite A, C. now rewrite <- B.
Qed.
Lemma fitting_erase (x : sc) : fitting (erase_scene x) <-> fitting x.
Proof.
  unfold fitting. split; intros H ps Hp.
  - rewrite <- ints_erase. apply H, all_params_erase. eauto.
  - apply all_params_erase in Hp as (p & Hp & ->). rewrite ints_erase. now apply H.
Qed.
Lemma named_erase cc (x : sc) : named cc (erase_scene x) <-> named cc x.
Proof.
  unfold named, erase_scene; cbn [fst]. split; intros H p w Hi.
  - apply (H pos0). apply in_map_iff. exists (PActiveTransform p w). auto.
  - apply in_map_iff in Hi as (d & E & Hi). destruct d; try discriminate. injection E as _ <-. eauto.
Qed.
End Erase.

(** ** The scenes that have a text *)
Section Express.
Variables (f : fmt) (pw : flt f -> flt f) (cc : CharClass) (Hcc : cc_ok cc) (chk : bool).
Notation fo := (fo_ieee f pw).
Notation sc := (list (PreDirective (flt f)) * Directive (flt f))%type.
Definition expressible (x : sc) : Prop := exists text y, parse fo cc chk text = Done (Ok y) /\ erase_scene y = erase_scene x.
Lemma expressible_only x : expressible x -> printable x /\ fitting x /\ named cc x.
Proof.
  intros (text & y & H & E). apply (text_content fo cc Hcc) in H as (H1 & H2 & H3 & _).
  rewrite <- printable_erase, <- fitting_erase, <- named_erase, <- E. now rewrite printable_erase, fitting_erase, named_erase.
Qed.
Lemma expressible_if x : printable x -> fitting x -> named cc x -> Forall (fun z => is_nan z = false) (scene_floats x) -> expressible x.
Proof.
  intros H1 H2 H3 H4. apply (scene_has_text fo cc Hcc chk (fun z => is_nan z = false)); auto.
  intros z Hz. now apply float_lexeme_exists.
Qed.
Lemma nan_text : pw (f_of_int f 400) = B754_infinity false -> writable fo cc chk (TFloat B754_nan).
Proof.
  intros Hpw. exists (s2l "0.0e400"). split; [|cbn; intuition discriminate]. apply lx_num.
  assert (E : f_mul fo (f_dec fo false 0 1) (f_powf10 fo (f_of_isize fo 400)) = B754_nan).
  { cbn [f_mul f_dec f_powf10 f_of_isize fo_ieee]. rewrite Hpw. reflexivity. }
  rewrite <- E.
  assert (D : forall l, all_digits l -> Forall (fun c => is_numeric cc c = true) l) by (intros l; apply (digits_mantissa cc Hcc)).
  apply (nu_dec_exp fo cc chk [] false (s2l "0.0") true 0 1 (s2l "400") 400 []).
  - constructor.
  - exists [48%N], [48%N]. split; [reflexivity|]. apply D. repeat constructor.
  - apply (dn_dot [48%N] [48%N]); [discriminate|repeat constructor..].
  - apply (nu_int fo cc chk [] false (s2l "400") 400 []); [constructor|apply D; repeat constructor| |exact Logic.I].
    split; [discriminate|]. split; [repeat constructor|]. split; [reflexivity|]. unfold fits. lia.
  - now right.
Qed.
Lemma expressible_iff : pw (f_of_int f 400) = B754_infinity false -> forall x,
  expressible x <-> printable x /\ fitting x /\ named cc x.
Proof.
  intros Hpw x. split; [apply expressible_only|]. intros (H1 & H2 & H3).
  apply (scene_has_text fo cc Hcc chk (fun _ => True)); auto.
  - intros z _. destruct (is_nan z) eqn:E; [|now apply float_lexeme_exists]. destruct z; try discriminate. now apply nan_text.
  - now apply Forall_forall.
Qed.
End Express.
