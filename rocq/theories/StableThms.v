(** Proofs about C85: a syntax error that names a place is not changed by what follows. *)
From Verif Require Import Base TokModel ParModel LexSpec SceneSpec SceneObs SynErrSpec ErrSpec StableSpec
  LexThms DirProofs TextThms SceneThms KindProofs SceneProps SynErrProofs PropsLexLemmas.

Section St.
Context {F : Type} (fo : FloatOps F) (u : list (Token F)).
Notation toks := (list (Token F)).

Notation between s := (between_numbers s u).
Lemma en_suffix (c r : toks) : ~ between (c ++ r) -> ~ between r.
Proof. intros H (s & t & t' & u' & -> & X). apply H. exists (c ++ s), t, t', u'. now rewrite app_assoc. Qed.
Lemma en_tail t (r : toks) : ~ between (t :: r) -> ~ between r.
Proof. apply (en_suffix [t]). Qed.
Lemma ext_any (r : toks) : r <> [] -> ext r (r ++ u).
Proof. destruct r as [|t r]; [easy|]. intros _. left. exists t, r, (r ++ u). auto. Qed.

Definition steady {T} (item : toks -> T -> toks -> Prop) : Prop :=
  forall s, s <> [] -> ~ between s -> no_item item s -> no_item item (s ++ u).

Lemma steady_one {T} (item : toks -> T -> toks -> Prop) :
  (forall s v r, item s v r -> exists t, s = t :: r /\ forall r', item (t :: r') v r') -> steady item.
Proof.
  intros Hi [|t s] Hs _ Hn v r H; [easy|]. apply Hi in H as (t' & E & G). cbn in E. injection E as -> <-.
  eapply Hn. apply G.
Qed.
Lemma st_int : steady int_item.
Proof. apply steady_one. intros s v r [p i r0]. eexists. split; [reflexivity|]. constructor. Qed.
Lemma st_str : steady str_item.
Proof. apply steady_one. intros s v r [p i r0]. eexists. split; [reflexivity|]. constructor. Qed.
Lemma st_bool : steady bool_item.
Proof. apply steady_one. intros s v r [p r0|p r0]; eexists; (split; [reflexivity|]); constructor. Qed.
Lemma float_one s v r : float_item fo s v r -> exists t, s = t :: r /\ number_tok t /\ forall r', float_item fo (t :: r') v r'.
Proof. intros [p x r0|p i r0]; eexists; (split; [reflexivity|]); (split; [exact I|]); constructor. Qed.
Lemma st_float : steady (float_item fo).
Proof. apply steady_one. intros s v r H. apply float_one in H as (t & E & _ & G). eauto. Qed.

Lemma no_n_float n (s : toks) : s <> [] -> ~ between s -> no_n (float_item fo) n s -> no_n (float_item fo) n (s ++ u).
Proof.
  intros Hs He Hn vs r H. revert s Hs He Hn vs H. induction n as [|n IH]; intros s Hs He Hn vs H.
  - eapply Hn. constructor.
  - inversion H as [|n0 s0 v s' vs' r0 Hv Hr]; subst. apply float_one in Hv as (t & E & Ht & G).
    destruct s as [|t' s]; [easy|]. cbn in E. injection E as -> <-.
    destruct s as [|t2 s].
    { destruct n as [|n]; [eapply Hn; econstructor; [apply G|constructor]|].
      inversion Hr as [|n0 s0 v' s' vs2 r0 Hv Hr']; subst. apply float_one in Hv as (t' & E & Ht' & _). cbn in E.
      apply He. now exists [], t, t', s'. }
    eapply (IH (t2 :: s)); [easy|now apply en_tail in He| |exact Hr].
    intros vs2 r2 H2. eapply Hn. econstructor; [apply G|exact H2].
Qed.
Lemma st_pair {T} (R : toks -> T -> toks -> Prop) (mk : F -> F -> T) :
  (forall s v r, R s v r -> exists a b s', v = mk a b /\ float_item fo s a s' /\ float_item fo s' b r) ->
  (forall s a s' b r, float_item fo s a s' -> float_item fo s' b r -> R s (mk a b) r) -> steady R.
Proof.
  intros Hi Hc s Hs He Hn v r H. apply Hi in H as (a & b & s' & -> & H1 & H2).
  eapply (no_n_float 2 s Hs He); [|econstructor; [exact H1|econstructor; [exact H2|constructor]]].
  intros vs r' H. inversion H as [|n0 s0 v s1 vs' r0 Hv Hr]; subst. inversion Hr as [|n0 s0 v' s2 vs2 r2 Hv' Hr']; subst.
  eapply Hn. eapply Hc; eassumption.
Qed.
Lemma st_point2 : steady (point2_item fo).
Proof.
  apply (st_pair _ (fun a b => mkP2 a b)); [|intros; econstructor; eassumption].
  intros s v r [? a s' b ?]. exists a, b, s'. auto.
Qed.
Lemma st_vector2 : steady (vector2_item fo).
Proof.
  apply (st_pair _ (fun a b => mkV2 a b)); [|intros; econstructor; eassumption].
  intros s v r [? a s' b ?]. exists a, b, s'. auto.
Qed.

Lemma not_open (s : toks) k : s <> [] -> (forall q s', s <> mkTok q k :: s') -> forall q s', s ++ u <> mkTok q k :: s'.
Proof. intros Hs H q s' E. destruct s as [|t s]; [easy|]. cbn in E. injection E as -> _. exact (H q s eq_refl). Qed.

(** [keeps X]: a relation that gives up in front of [r] does so when more tokens follow, unless all tokens are used. *)
Definition keeps (X : toks -> toks -> Prop) : Prop :=
  forall s r, X s r -> ~ between s -> r <> [] -> X (s ++ u) (r ++ u).

Section L.
Context {T : Type} (item : toks -> T -> toks -> Prop) (Hf : cfree item) (Hs : steady item).
Lemma keeps_list : keeps (list_fail item).
Proof.
  intros s r H He Hr. destruct H as [s Hn|q s Hn|q s vs r Hi Hn Hc].
  - apply lf_none. now apply not_open.
  - cbn [app]. apply lf_first. apply Hs; auto. now apply en_tail in He.
  - apply cf_items in Hi as (c & -> & _ & G); [|assumption]. cbn [app]. rewrite <- app_assoc.
    eapply lf_close; [apply G| |].
    + apply Hs; auto. now apply (en_suffix (mkTok q TLBracket :: c)).
    + now apply not_open.
Qed.
Lemma keeps_one : keeps (one_fail item).
Proof.
  intros s r H He Hr. destruct H as [s Hn Hi|q s r H].
  - apply of_one; [now apply not_open|now apply Hs].
  - cbn [app]. apply of_list. now apply (keeps_list _ _ H).
Qed.
End L.
Lemma cf_n_items {T} (item : toks -> T -> toks -> Prop) (Hf : cfree item) n s vs r : n_items item n s vs r ->
  exists c, s = c ++ r /\ forall r', n_items item n (c ++ r') vs r'.
Proof.
  induction 1 as [s|n s v s' vs r Hv H (c & -> & G)].
  - exists []. split; [reflexivity|]. intros r'. constructor.
  - apply Hf in Hv as (c' & -> & _ & G'). exists (c' ++ c). split; [apply app_assoc|]. intros r'. rewrite <- app_assoc.
    econstructor; [apply G'|apply G].
Qed.
Lemma keeps_n n : keeps (n_fail (float_item fo) n).
Proof.
  intros s r H He Hr. destruct H as [s Hn|q s Hn|q s vs r Hi Hc].
  - apply nf_none. now apply not_open.
  - cbn [app]. apply nf_few. apply no_n_float; auto. now apply en_tail in He.
  - apply cf_n_items in Hi as (c & -> & G); [|apply cf_float]. cbn [app]. rewrite <- app_assoc.
    eapply nf_close; [apply G|]. now apply not_open.
Qed.
Lemma keeps_spectrum : keeps (spectrum_fail fo).
Proof.
  intros s r H He Hr. destruct H as [s Hn Hi|q s r H|s l r Hb Ho].
  - apply sf_none; [now apply not_open|now apply st_str].
  - cbn [app]. apply sf_list. now apply (keeps_list _ (cf_float fo) st_float _ _ H).
  - apply (cf_bracketed _ (cf_float fo)) in Hb as (c & -> & _ & G). rewrite <- app_assoc. eapply sf_odd; [apply G|assumption].
Qed.
Lemma keeps_value ty : keeps (value_fail fo ty).
Proof.
  intros s r H He Hr. destruct H.
  - apply vf_int. now apply (keeps_one _ cf_int st_int).
  - apply vf_float. now apply (keeps_one _ (cf_float fo) st_float).
  - apply vf_point2. now apply (keeps_list _ (cf_point2 fo) st_point2).
  - apply vf_vector2. now apply (keeps_list _ (cf_vector2 fo) st_vector2).
  - apply vf_bool. now apply (keeps_one _ cf_bool st_bool).
  - apply vf_string. now apply (keeps_one _ cf_str st_str).
  - apply vf_rgb. now apply keeps_n.
  - apply vf_xyz. now apply keeps_n.
  - apply vf_spectrum. now apply keeps_spectrum.
  - apply vf_blackbody. now apply keeps_n.
  - apply vf_texture. now apply st_str.
Qed.
Lemma keeps_param : keeps (param_fail fo).
Proof.
  intros s r H He Hr. destruct H as [s Hn|p h s Hh|p h ty name s Hh Hk|p h ty name s r Hh Hv].
  - apply pf_none. intros p h s' E. destruct s as [|t s]; [easy|]. cbn in E. injection E as -> _. exact (Hn p h s eq_refl).
  - cbn [app]. now apply pf_header.
  - cbn [app]. eapply pf_type; eassumption.
  - cbn [app]. eapply pf_value; [eassumption|]. apply keeps_value; auto. now apply en_tail in He.
Qed.
Lemma keeps_run s l r : params_run fo s l r -> ~ between s -> r <> [] -> params_run fo (s ++ u) l (r ++ u).
Proof.
  induction 1 as [s r H|s i s' l r Hp H IH]; intros He Hr.
  - apply pr_end. now apply keeps_param.
  - apply cf_param in Hp as (c & -> & _ & _ & G). rewrite <- app_assoc. econstructor; [apply G|]. apply IH; [|assumption].
    now apply en_suffix in He.
Qed.

(** ** Errors *)
Lemma unplaced_text x : ~ placed (F := F) [PText x].
Proof. intros (p & H). inversion H as [m p0 Hi|m m' p0 Hi Hm]; subst; cbn in Hi; intuition discriminate. Qed.
Lemma string_error_ext s m : string_error (F := F) s m -> placed m -> string_error (s ++ u) m.
Proof. intros [|p ty s0 H] Hp; [now apply unplaced_text in Hp|]. cbn [app]. now constructor. Qed.
Lemma ident_error_ext s m : ident_error (F := F) s m -> placed m -> ident_error (s ++ u) m.
Proof. intros [|p ty s0 H] Hp; [now apply unplaced_text in Hp|]. cbn [app]. now constructor. Qed.
Lemma number_error_ext s m : number_error (F := F) s m -> placed m -> number_error (s ++ u) m.
Proof.
  intros [|p ty s0 H] Hp; [now apply unplaced_text in Hp|]. cbn [app]. constructor.
  now destruct ty.
Qed.
Lemma nested_placed x y z t (m : list (piece F)) : placed [PText x; PText y; PText z; PText y; PText t; PErr (EStr m)] -> placed m.
Proof.
  intros (p & H). inversion H as [m0 p0 Hi|m0 m' p0 Hi Hm]; subst; cbn in Hi; [intuition discriminate|].
  assert (m' = m) as -> by (intuition congruence). now exists p.
Qed.
Lemma items_last s fl r : items (float_item fo) s fl r -> r = [] -> exists s' t, s = s' ++ [t] /\ number_tok t.
Proof.
  induction 1 as [s v r H|s v s' vs r H H' IH]; intros E.
  - apply float_one in H as (t & -> & Ht & _). subst r. now exists [], t.
  - apply float_one in H as (t & -> & Ht & _). destruct (IH E) as (a & b & -> & Hb). now exists (t :: a), b.
Qed.
Lemma number_cases (s : toks) : not_number s \/ exists t s', s = t :: s' /\ number_tok t.
Proof. destruct s as [|[p []] s]; try (left; exact I); right; do 2 eexists; split; [reflexivity|exact I|reflexivity|exact I]. Qed.
Lemma pre_error_ext s m : pre_error fo s m -> placed m -> ~ between s -> pre_error fo (s ++ u) m.
Proof.
  intros [p id mkP s0 m0 Hk H|p id mkP s0 m0 Hk H|p s0 m0 H|p what n s0 m0 Hk H|p what n s0 fl r Hk Hi Hr Hl|p id s0 Hw Hn] Hp He;
    cbn [app].
  - eapply pre_struct; [eassumption|]. now apply string_error_ext.
  - eapply pre_str; [eassumption|]. now apply string_error_ext.
  - eapply pre_active. now apply ident_error_ext.
  - eapply pre_no_number; [eassumption|]. apply number_error_ext; [assumption|]. now apply nested_placed in Hp.
  - apply en_tail in He. pose proof (items_last _ _ _ Hi) as HL.
    apply (cf_items _ (cf_float fo)) in Hi as (c & -> & _ & G). rewrite <- app_assoc. eapply pre_count; [eassumption|apply G| |assumption].
    destruct r as [|t r]; [|exact Hr]. cbn [app]. destruct (number_cases u) as [Hu|(t' & u' & Hu & Ht')]; [assumption|].
    destruct (HL eq_refl) as (s' & t & E & Ht). destruct He. now exists s', t, t', u'.
  - now apply pre_unknown.
Qed.
Lemma pre_nonempty s m : pres_error fo s m -> s <> [].
Proof. induction 1 as [| |s m H|s d s' m Hd H IH]; try easy; [now destruct H|]. now destruct Hd. Qed.
Lemma dir_nonempty s m : dir_error fo s m -> s <> [].
Proof. now intros []. Qed.
Lemma dirs_nonempty s m : dirs_error fo s m -> s <> [].
Proof. intros []; try easy; [now eapply dir_nonempty; eauto|]. now destruct H. Qed.
Lemma pres_error_ext s m : pres_error fo s m -> placed m -> ~ between s -> pres_error fo (s ++ u) m.
Proof.
  induction 1 as [p ty s Ht|p id mkP q w s l p' ty r Hk Hr Ht|s m H|s d s' m Hd H IH]; intros Hp He; cbn [app].
  - now constructor.
  - eapply pres_stuck; [eassumption| |assumption]. apply (keeps_run _ _ _ Hr); [|easy]. now apply en_tail, en_tail in He.
  - apply pres_here. now apply pre_error_ext.
  - apply pre_nonempty in H. destruct (predirective_frame fo _ _ _ Hd) as (c & Hc). pose proof (pf_split _ _ _ _ _ Hc) as ->.
    rewrite <- app_assoc. eapply pres_cons; [apply (pf_ext _ _ _ _ _ Hc); now apply ext_any|]. apply IH; [assumption|].
    now apply en_suffix in He.
Qed.

Scheme dir_error_mut := Minimality for dir_error Sort Prop with dirs_error_mut := Minimality for dirs_error Sort Prop.

Lemma dir_error_ext s m : dir_error fo s m -> placed m -> ~ between s -> dir_error fo (s ++ u) m.
Proof.
  apply (dir_error_mut F fo (fun s m => placed m -> ~ between s -> dir_error fo (s ++ u) m)
    (fun s m => placed m -> ~ between s -> dirs_error fo (s ++ u) m)); clear s m.
  - intros p id mkD s m Hk H Hp He. eapply dir_struct; [eassumption|]. now apply string_error_ext.
  - intros p s m H Hp He. eapply dir_include. now apply string_error_ext.
  - intros p s m H Hp He. eapply dir_texture1. now apply string_error_ext.
  - intros p q w s m H Hp He. eapply dir_texture2. now apply string_error_ext.
  - intros p q w q' w' s m H Hp He. eapply dir_texture3. now apply string_error_ext.
  - intros p id mkB s m Hk H IH Hp He. eapply dir_block; [eassumption|]. apply IH; [assumption|]. now apply en_tail in He.
  - intros p id s H1 H2 Hp He. now apply dir_unknown.
  - intros p ty s Ht Hp He. now apply dirs_token.
  - intros p id mkD q w s l p' ty r Hk Hr Ht Hp He. eapply dirs_stuck; [eassumption| |assumption].
    apply (keeps_run _ _ _ Hr); [|easy]. now apply en_tail, en_tail in He.
  - intros p q1 w1 q2 w2 q3 w3 s l p' ty r Hr Ht Hp He. eapply dirs_stuck_texture; [|assumption].
    apply (keeps_run _ _ _ Hr); [|easy]. now apply en_tail, en_tail, en_tail, en_tail in He.
  - intros s m H IH Hp He. apply dirs_here. now apply IH.
  - intros s d s' m Hd H IH Hp He. apply dirs_nonempty in H. destruct (directive_frame fo _ _ _ Hd) as (c & Hc).
    pose proof (df_split _ _ _ _ _ _ Hc) as ->. rewrite <- app_assoc.
    eapply dirs_cons; [apply (df_ext _ _ _ _ _ _ Hc); now apply ext_any|]. apply IH; [assumption|]. now apply en_suffix in He.
Qed.
Lemma scene_error_ext s m : scene_error fo s m -> placed m -> ~ between s -> scene_error fo (s ++ u) m.
Proof.
  intros [s0 m0 H|s0 pres s' m0 Hp0 H] Hp He.
  - apply sce_pre. now apply pres_error_ext.
  - eapply sce_world; [apply predirectives_snoc; eassumption|]. apply dir_error_ext; auto.
    destruct (predirectives_frame fo _ _ _ Hp0) as (c & Hc). pose proof (pf_split _ _ _ _ _ Hc) as ->.
    now apply en_suffix in He.
Qed.
End St.

(** ** Completion *)
Section Complete.
Context {F : Type} (fo : FloatOps F).
Notation toks := (list (Token F)).
Notation closes := [we_tok pos0].
Lemma placed_pos p (m : list (piece F)) : placed (PPos p :: m).
Proof. exists p. apply mn_here. now left. Qed.
Lemma string_unplaced s m : string_error (F := F) s m -> ~ placed m -> s = [].
Proof. intros [|p ty s0 H] Hp; [reflexivity|]. destruct Hp. apply placed_pos. Qed.
Lemma ident_unplaced s m : ident_error (F := F) s m -> ~ placed m -> s = [].
Proof. intros [|p ty s0 H] Hp; [reflexivity|]. destruct Hp. apply placed_pos. Qed.
Lemma number_unplaced s m : number_error (F := F) s m -> ~ placed m -> s = [].
Proof. intros [|p ty s0 H] Hp; [reflexivity|]. destruct Hp. apply placed_pos. Qed.
Lemma placed_nested (m m' : list (piece F)) : In (PErr (EStr m')) m -> placed m' -> placed m.
Proof. intros Hi (p & H). exists p. eapply mn_nested; eauto. Qed.
Definition str0 : Token F := mkTok pos0 (TStr []).
Definition int0 : Token F := mkTok pos0 (TInt 0).
Lemma no_params p id (r : toks) : params fo (mkTok p (TIdent id) :: r) [] (mkTok p (TIdent id) :: r).
Proof. now apply ps_end. Qed.

Lemma items_zero n (r : toks) : items (float_item fo) (repeat int0 (S n) ++ r) (repeat (f_of_isize fo 0) (S n)) r.
Proof.
  induction n as [|n IH]; [apply it_one; constructor|]. eapply it_more; [|exact IH]. constructor.
Qed.
Lemma kw_zero what n p : count_kw what n -> exists k d, n = S k /\ numbers_kw (s2l what) p (repeat (f_of_isize fo 0) n) d.
Proof. intros []; do 2 eexists; (split; [reflexivity|]); constructor. Qed.

Lemma dir_completable s m : dir_error fo s m -> ~ placed m -> exists v d, directive fo (s ++ v) d closes.
Proof.
  apply (dir_error_mut F fo (fun s m => ~ placed m -> exists v d, directive fo (s ++ v) d closes)
    (fun s m => ~ placed m -> exists v ds, directives fo (s ++ v) ds closes)); clear s m.
  - intros p id mkD s m Hk H Hp. rewrite (string_unplaced _ _ H Hp). exists [str0; we_tok pos0]. eexists.
    eapply di_struct; [exact Hk|apply no_params].
  - intros p s m H Hp. rewrite (string_unplaced _ _ H Hp). exists [str0; we_tok pos0]. eexists. eapply di_include.
  - intros p s m H Hp. rewrite (string_unplaced _ _ H Hp). exists [str0; str0; str0; we_tok pos0]. eexists.
    eapply di_texture. apply no_params.
  - intros p q w s m H Hp. rewrite (string_unplaced _ _ H Hp). exists [str0; str0; we_tok pos0]. eexists.
    eapply di_texture. apply no_params.
  - intros p q w q' w' s m H Hp. rewrite (string_unplaced _ _ H Hp). exists [str0; we_tok pos0]. eexists.
    eapply di_texture. apply no_params.
  - intros p id mkB s m Hk H IH Hp. destruct (IH Hp) as (v & ds & X). exists v. eexists. eapply di_block; [exact Hk|exact X].
  - intros p id s H1 H2 Hp. destruct Hp. apply placed_pos.
  - intros p ty s Ht Hp. destruct Hp. apply placed_pos.
  - intros p id mkD q w s l p' ty r Hk Hr Ht Hp. destruct Hp. apply placed_pos.
  - intros p q1 w1 q2 w2 q3 w3 s l p' ty r Hr Ht Hp. destruct Hp. apply placed_pos.
  - intros s m H IH Hp. destruct (IH Hp) as (v & d & X). exists v, [d]. eapply ds_cons; [exact X|apply we_closes].
  - intros s d s' m Hd H IH Hp. destruct (IH Hp) as (v & ds & X). apply (dirs_nonempty fo) in H.
    destruct (directive_frame fo _ _ _ Hd) as (c & Hc). pose proof (df_split _ _ _ _ _ _ Hc) as ->.
    exists v, (d :: ds). rewrite <- app_assoc. eapply ds_cons; [|exact X]. apply (df_ext _ _ _ _ _ _ Hc). now apply ext_any.
Qed.
Lemma pre_completable s m : pre_error fo s m -> ~ placed m ->
  exists v d, predirective fo (s ++ v) d [wb_tok pos0; we_tok pos0].
Proof.
  intros [p id mkP s0 m0 Hk H|p id mkP s0 m0 Hk H|p s0 m0 H|p what n s0 m0 Hk H|p what n s0 fl r Hk Hi Hr Hl|p id s0 Hw Hn] Hp.
  - rewrite (string_unplaced _ _ H Hp). exists [str0; wb_tok pos0; we_tok pos0]. eexists.
    eapply pd_struct; [exact Hk|apply no_params].
  - rewrite (string_unplaced _ _ H Hp). exists [str0; wb_tok pos0; we_tok pos0]. eexists. eapply pd_str; exact Hk.
  - rewrite (ident_unplaced _ _ H Hp). exists [wb_tok pos0; wb_tok pos0; we_tok pos0]. eexists. eapply pd_active.
  - assert (Hp' : ~ placed m0) by (intros X; apply Hp; eapply placed_nested; [|exact X]; cbn; tauto).
    rewrite (number_unplaced _ _ H Hp'). destruct (kw_zero _ _ p Hk) as (k & d & -> & Hd).
    exists (repeat int0 (S k) ++ [wb_tok pos0; we_tok pos0]), d. cbn [app]. eapply pd_numbers; [exact Hd|apply items_zero|exact I].
  - destruct Hp. apply placed_pos.
  - destruct Hp. apply placed_pos.
Qed.
Lemma pres_completable s m : pres_error fo s m -> ~ placed m ->
  exists v ds, predirectives fo (s ++ v) ds [wb_tok pos0; we_tok pos0].
Proof.
  induction 1 as [p ty s Ht|p id mkP q w s l p' ty r Hk Hr Ht|s m H|s d s' m Hd H IH]; intros Hp;
    try (destruct Hp; apply placed_pos).
  - destruct (pre_completable _ _ H Hp) as (v & d & X). exists v, [d]. eapply pds_cons; [exact X|constructor].
  - destruct (IH Hp) as (v & ds & X). apply (pre_nonempty fo) in H.
    destruct (predirective_frame fo _ _ _ Hd) as (c & Hc). pose proof (pf_split _ _ _ _ _ Hc) as ->.
    exists v, (d :: ds). rewrite <- app_assoc. eapply pds_cons; [|exact X]. apply (pf_ext _ _ _ _ _ Hc). now apply ext_any.
Qed.
Lemma scene_completable s m : scene_error fo s m -> ~ placed m -> exists v x, scene fo (s ++ v) x.
Proof.
  intros [s0 m0 H|s0 pres s' m0 Hp0 H] Hp.
  - destruct (pres_completable _ _ H Hp) as (v & ds & X). exists v, (ds, DWorld pos0 []). econstructor; [exact X|].
    apply (di_block fo pos0 _ DWorld); [constructor|apply we_closes].
  - destruct (dir_completable _ _ H Hp) as (v & d & X). exists v, (pres, d). econstructor; [|exact X].
    now apply predirectives_snoc.
Qed.
End Complete.

Section C85.
Context {F : Type} (fo : FloatOps F).
Lemma placed_final s m u : parse_tokens fo s = Done (Err (EStr m)) -> placed m -> ~ between_numbers s u ->
  parse_tokens fo (s ++ u) = Done (Err (EStr m)).
Proof. intros H Hp He. apply parse_tokens_error_iff. apply scene_error_ext; auto. now apply parse_tokens_error_iff. Qed.
Lemma ok_final s x u : parse_tokens fo s = Done (Ok x) -> parse_tokens fo (s ++ u) = Done (Ok x).
Proof.
  intros H. destruct (nothing_after fo _ _ H) as (a & t & r & -> & _ & G). rewrite <- app_assoc. apply G.
Qed.
Lemma prefix_unplaced s u x m : parse_tokens fo (s ++ u) = Done (Ok x) -> ~ between_numbers s u ->
  parse_tokens fo s = Done (Err (EStr m)) -> ~ placed m.
Proof. intros H He E Hp. rewrite (placed_final _ _ u E Hp He) in H. discriminate. Qed.
Lemma unplaced_completable s : (forall m, parse_tokens fo s = Done (Err (EStr m)) -> ~ placed m) ->
  exists v x, parse_tokens fo (s ++ v) = Done (Ok x).
Proof.
  intros H. destruct (scene_cases fo s) as [[x Hs]|[Hs|[m Hs]]].
  - exists [], x. rewrite app_nil_r. now apply parse_tokens_iff.
  - apply parse_tokens_eof_iff in Hs. destruct (eof_completable fo _ Hs) as (x & [E|E]); eauto.
  - assert (Hp : ~ placed m) by (apply H; now apply parse_tokens_error_iff).
    destruct (scene_completable fo _ _ Hs Hp) as (v & x & X). exists v, x. now apply parse_tokens_iff.
Qed.
Lemma viable s : (forall s' t, s = s' ++ [t] -> ~ number_tok t) ->
  ((exists v x, parse_tokens fo (s ++ v) = Done (Ok x)) <-> forall m, parse_tokens fo s = Done (Err (EStr m)) -> ~ placed m).
Proof.
  intros He. split; [|apply unplaced_completable]. intros (v & x & E) m Hm. eapply prefix_unplaced; eauto.
  intros (s' & t & t' & u' & X & Ht & _). exact (He _ _ X Ht).
Qed.
End C85.

(** ** Texts *)
Section T.
Context {F : Type} (fo : FloatOps F) (cc : CharClass) (Hcc : cc_ok cc).
Lemma placed_final_text chk a ta b tb m : ~ ends_cr a -> tokenize fo cc chk a = Done (Ok ta) ->
  tokenize fo cc chk b = Done (Ok tb) -> parse fo cc chk a = Done (Err (EStr m)) -> placed m -> ~ between_numbers ta tb ->
  parse fo cc chk (a ++ c_lf :: b) = Done (Err (EStr m)).
Proof.
  intros Hc Ha Hb H Hp He. unfold parse in *. rewrite Ha in H.
  rewrite (proj2 (tokenize_concat fo cc Hcc chk a ta b Hc Ha _) (ex_intro _ tb (conj Hb eq_refl))).
  apply placed_final; auto. intros (s' & t & t' & u' & E & Ht & E' & Ht'). apply He. destruct tb as [|t2 tb]; [discriminate|].
  cbn in E'. injection E' as <- _. exists s', t, t2, tb. repeat split; auto.
Qed.
End T.
