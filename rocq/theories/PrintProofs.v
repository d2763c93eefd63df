(** Printing a scene and parsing the tokens gives the scene back. *)
From Verif Require Import Base TokModel ParModel LexSpec SceneSpec SceneObs ParProofs DirProofs SceneThms SceneProps PrintSpec.

Section P.
Context {F : Type} (fo : FloatOps F).
Notation toks := (list (Token F)).

Lemma print_items {T} (item : toks -> T -> toks -> Prop) (pr : T -> toks) (l : list T) (r : toks) :
  (forall v r, item (pr v ++ r) v r) -> l <> [] -> items item (flat_map pr l ++ r) l r.
Proof.
  intros Hpr. induction l as [|v l IH]; [congruence|]. intros _. cbn [flat_map]. rewrite <- app_assoc.
  destruct l as [|v' l]; [cbn; apply it_one; apply Hpr|]. eapply it_more; [apply Hpr|]. apply IH. discriminate.
Qed.
Lemma print_bracketed {T} (item : toks -> T -> toks -> Prop) (pr : T -> toks) (l : list T) (r : toks) :
  (forall v r, item (pr v ++ r) v r) -> l <> [] -> bracketed item (brackets (flat_map pr l) ++ r) l r.
Proof.
  intros Hpr Hl. unfold brackets. cbn [app]. rewrite <- app_assoc. econstructor. now apply print_items.
Qed.
Lemma map_flat {A B} (f : A -> B) l : map f l = flat_map (fun x => [f x]) l.
Proof. induction l; cbn; congruence. Qed.
Lemma nums_flat (l : list F) : nums l = flat_map (fun x => [tk0 (TFloat x)]) l.
Proof. apply map_flat. Qed.
Lemma flat_nums {A} (f : A -> list F) l : nums (flat_map f l) = flat_map (fun x => nums (f x)) l.
Proof. unfold nums. induction l; cbn; [reflexivity|]. now rewrite map_app, IHl. Qed.
Lemma print_floats l r : l <> [] -> bracketed (float_item fo) (brackets (nums l) ++ r) l r.
Proof. intros H. rewrite nums_flat. apply print_bracketed; [|assumption]. intros. constructor. Qed.

Lemma print_header ty name : word (s2l ty) -> word name -> header (s2l ty ++ 32%N :: name) (s2l ty) name.
Proof.
  intros H H'. split; [assumption|]. split; [assumption|]. exists [], [32%N], [].
  repeat split; try constructor; try constructor; try discriminate. now rewrite app_nil_r.
Qed.

(** One vector of a ParamSet. *)
Lemma print_vector {T} (pp : Param T -> toks) (val : Param T -> pval) (l : list (Param T)) r :
  Forall (fun p => forall r, param fo (pp p ++ r) (mkPI (par_name p) pos0 (val p)) r) l ->
  some_params fo (flat_map pp l ++ r) (map (fun p => mkPI (par_name p) pos0 (val p)) l) r.
Proof.
  induction 1 as [|p l Hp H IH]; [constructor|]. cbn [flat_map map]. rewrite <- app_assoc. econstructor; [apply Hp|exact IH].
Qed.
Lemma some_params_app s l s' l' r : some_params fo s l s' -> some_params fo s' l' r -> some_params fo s (l ++ l') r.
Proof. induction 1; [auto|]. intros. cbn. econstructor; eauto. Qed.

Definition spec_of (p : Param (Spectrum F)) : Spectrum F := hd (SpSpectrum []) (par_values p).
Definition tex_of (p : Param str) : str := hd [] (par_values p).
Definition items_of (s : ParamSet F) : list pitem :=
  map (fun p => mkPI (par_name p) pos0 (VBools (par_values p))) (ps_bools s) ++
  map (fun p => mkPI (par_name p) pos0 (VInts (par_values p))) (ps_ints s) ++
  map (fun p => mkPI (par_name p) pos0 (VFloats (par_values p))) (ps_floats s) ++
  map (fun p => mkPI (par_name p) pos0 (VPoints (par_values p))) (ps_point2fs s) ++
  map (fun p => mkPI (par_name p) pos0 (VVectors (par_values p))) (ps_vector2fs s) ++
  map (fun p => mkPI (par_name p) pos0 (VSpectrum (spec_of p))) (ps_spectra s) ++
  map (fun p => mkPI (par_name p) pos0 (VStrings (par_values p))) (ps_strings s) ++
  map (fun p => mkPI (par_name p) pos0 (VTexture (tex_of p))) (ps_textures s).

Ltac kword := (split; [discriminate|repeat constructor]).
Lemma print_some s r : wf_params s -> some_params fo (print_params s ++ r) (items_of s) r.
Proof.
  intros (Hb & Hi & Hf & Hp & Hv & Hst & Hsp & Ht & _ & _ & _ & Hsa). unfold print_params, items_of. rewrite <- !app_assoc.
  repeat (eapply some_params_app; [apply print_vector|]); [| | | | | | |apply print_vector].
  - eapply Forall_impl; [|exact Hb]. intros p [H1 H2] r'. econstructor; [apply print_header; [kword|assumption]|].
    constructor. apply ol_list. rewrite map_flat. apply print_bracketed; [|assumption].
    intros [] r0; constructor.
  - eapply Forall_impl; [|exact Hi]. intros p [H1 H2] r'. econstructor; [apply print_header; [kword|assumption]|].
    constructor. apply ol_list. rewrite map_flat. apply print_bracketed; [|assumption]. intros; constructor.
  - eapply Forall_impl; [|exact Hf]. intros p [H1 H2] r'. econstructor; [apply print_header; [kword|assumption]|].
    constructor. apply ol_list. now apply print_floats.
  - eapply Forall_impl; [|exact Hp]. intros p [H1 H2] r'. econstructor; [apply print_header; [kword|assumption]|].
    constructor. rewrite flat_nums. apply print_bracketed; [|assumption]. intros [a b] r0. repeat econstructor.
  - eapply Forall_impl; [|exact Hv]. intros p [H1 H2] r'. econstructor; [apply print_header; [kword|assumption]|].
    constructor. rewrite flat_nums. apply print_bracketed; [|assumption]. intros [a b] r0. repeat econstructor.
  - rewrite Forall_forall in *. intros p Hin r'. destruct (Hsp _ Hin) as [H1 H2]. specialize (Hsa _ Hin).
    destruct p as [n q [|v [|? ?]]]; try discriminate. unfold print_spectrum, spec_of, print_param. cbn [par_name par_values] in *.
    destruct v as [a b c|a b c|l|w|a b]; cbn [hd].
    + econstructor; [apply print_header; [kword|assumption]|]. apply va_rgb. apply (print_floats [a; b; c]). discriminate.
    + econstructor; [apply print_header; [kword|assumption]|]. apply va_xyz. apply (print_floats [a; b; c]). discriminate.
    + econstructor; [apply print_header; [kword|assumption]|]. apply va_spectrum. apply print_floats.
      destruct l as [|[a b] l]; [|discriminate]. elim Hsa. now left.
    + econstructor; [apply print_header; [kword|assumption]|]. apply va_file. constructor.
    + econstructor; [apply print_header; [kword|assumption]|]. apply va_blackbody. apply (print_floats [a; b]). discriminate.
  - eapply Forall_impl; [|exact Hst]. intros p [H1 H2] r'. econstructor; [apply print_header; [kword|assumption]|].
    constructor. apply ol_list. rewrite map_flat. apply print_bracketed; [|assumption]. intros; constructor.
  - eapply Forall_impl; [|exact Ht]. intros p [H1 H2] r'. destruct p as [n q [|v [|? ?]]]; try discriminate.
    econstructor; [apply print_header; [kword|assumption]|]. constructor. constructor.
Qed.

Lemma pick_app {T} (sel : pval -> option (list T)) (a b : list (pitem (F := F))) : pick sel (a ++ b) = pick sel a ++ pick sel b.
Proof. apply flat_map_app. Qed.
Lemma pick_none {T U} (sel : pval -> option (list T)) (val : Param U -> pval (F := F)) (l : list (Param U)) :
  (forall p, sel (val p) = None) -> pick sel (map (fun p => mkPI (par_name p) pos0 (val p)) l) = [].
Proof. intros H. unfold pick. induction l as [|p l IH]; [reflexivity|]. cbn. now rewrite H, IH. Qed.
Lemma pick_all {T} (sel : pval -> option (list T)) (val : Param T -> pval (F := F)) (l : list (Param T)) :
  Forall (fun p => sel (val p) = Some (par_values p)) l ->
  pick sel (map (fun p => mkPI (par_name p) pos0 (val p)) l) = map erase_param l.
Proof. intros H. unfold pick. induction H as [|p l Hp H IH]; [reflexivity|]. cbn. now rewrite Hp, IH. Qed.
Lemma Forall_triv {A} (P : A -> Prop) l : (forall x, P x) -> Forall P l.
Proof. intros H. induction l; constructor; auto. Qed.

Lemma collect_items s : wf_params s -> collect (items_of s) = erase_ps s.
Proof.
  intros (Hb & Hi & Hf & Hp & Hv & Hst & Hsp & Ht & E1 & E2 & E3 & Hsa).
  unfold collect, erase_ps, items_of. rewrite E1, E2, E3. cbn [map]. rewrite !pick_app.
  f_equal;
    try rewrite (pick_none _ (fun p => VBools (par_values p))) by reflexivity;
    try rewrite (pick_none _ (fun p => VInts (par_values p))) by reflexivity;
    try rewrite (pick_none _ (fun p => VFloats (par_values p))) by reflexivity;
    try rewrite (pick_none _ (fun p => VPoints (par_values p))) by reflexivity;
    try rewrite (pick_none _ (fun p => VVectors (par_values p))) by reflexivity;
    try rewrite (pick_none _ (fun p => VSpectrum (spec_of p))) by reflexivity;
    try rewrite (pick_none _ (fun p => VStrings (par_values p))) by reflexivity;
    try rewrite (pick_none _ (fun p => VTexture (tex_of p))) by reflexivity;
    cbn [app]; rewrite ?app_nil_r; apply pick_all; try (now apply Forall_triv).
  - eapply Forall_impl; [|exact Hsp]. intros [n q [|v [|? ?]]] [H1 H2]; try discriminate. reflexivity.
  - eapply Forall_impl; [|exact Ht]. intros [n q [|v [|? ?]]] [H1 H2]; try discriminate. reflexivity.
Qed.
Lemma print_params_ok s r : wf_params s -> quiet r -> exists l, params fo (print_params s ++ r) l r /\ collect l = erase_ps s.
Proof.
  intros Hw Hq. exists (items_of s ++ []). split.
  - eapply params_app; [now apply print_some|]. now apply ps_end.
  - rewrite app_nil_r. now apply collect_items.
Qed.

(** ** Directives *)
Lemma dir_ind' (P : Directive F -> Prop) : (forall d, Forall P (children d) -> P d) -> forall d, P d.
Proof.
  intros H. fix IH 1. intros d.
  destruct d as [| | | |p l|p l|p l| |]; apply H; cbn [children]; try constructor;
    (induction l as [|x l IHl]; constructor; [apply IH|apply IHl]).
Qed.
Definition fine (d : Directive F) : Prop :=
  Forall (fun d => block_last (children d) /\ forall ps, dir_params d = Some ps -> wf_params ps) (nodes d).
Lemma nodes_unfold (d : Directive F) : nodes d = d :: flat_map nodes (children d).
Proof. destruct d; reflexivity. Qed.
Lemma fine_inv d : fine d -> block_last (children d) /\ (forall ps, dir_params d = Some ps -> wf_params ps) /\ Forall fine (children d).
Proof.
  unfold fine. rewrite nodes_unfold. intros H. inversion H as [|? ? [H1 H2] H3]; subst. split; [assumption|]. split; [assumption|].
  apply Forall_forall. intros c Hc. apply Forall_forall. intros d' Hd'. rewrite Forall_forall in H3. apply H3.
  apply in_flat_map. eauto.
Qed.

Lemma print_struct k mkD ds r : struct_kw (F := F) (s2l k) mkD -> wf_params (ds_params ds) -> quiet r ->
  directive fo (print_ds k ds ++ r) (mkD (erase_ds ds)) r.
Proof.
  intros Hk Hw Hq. destruct (print_params_ok _ r Hw Hq) as (l & Hp & E). unfold print_ds, erase_ds. rewrite <- E.
  cbn [app]. eapply di_struct; eauto.
Qed.
Lemma print_plain d r : is_block d = false -> fine d -> quiet r -> directive fo (print_dir d ++ r) (erase_dir d) r.
Proof.
  intros Hb Hf Hq. apply fine_inv in Hf as (_ & Hp & _). destruct d; try discriminate; cbn [print_dir erase_dir].
  - apply print_struct; [constructor|now apply Hp|assumption].
  - apply print_struct; [constructor|now apply Hp|assumption].
  - apply print_struct; [constructor|now apply Hp|assumption].
  - apply print_struct; [constructor|now apply Hp|assumption].
  - apply di_include.
  - destruct (print_params_ok (ts_params t) r) as (l & Hl & E); [now apply Hp|assumption|].
    unfold erase_ts. rewrite <- E. cbn [app]. apply di_texture. exact Hl.
Qed.
Definition goes (d : Directive F) : Prop :=
  fine d -> is_block d = true -> forall r, exists c r', is_closer_tok c /\ directive fo (print_dir d ++ r) (erase_dir d) (c :: r').
Lemma print_quiet (d : Directive F) r : quiet (print_dir d ++ r).
Proof. now destruct d. Qed.
Lemma print_list_quiet (l : list (Directive F)) c r : is_closer_tok c -> quiet (flat_map print_dir l ++ c :: r).
Proof.
  intros (id & E & _). destruct l as [|d l]; cbn [flat_map app].
  - destruct c as [p ty]. cbn in E. now subst.
  - rewrite <- app_assoc. apply print_quiet.
Qed.
Lemma closer_stop c r : is_closer_tok c -> directives fo (c :: r) [] (c :: r).
Proof. destruct c as [p ty]. intros (id & E & Hi). cbn in E. subst. now apply ds_close. Qed.
Lemma print_list l : Forall goes l -> Forall fine l -> block_last l -> forall c r, is_closer_tok c ->
  exists c' r', is_closer_tok c' /\ directives fo (flat_map print_dir l ++ c :: r) (map erase_dir l) (c' :: r').
Proof.
  induction l as [|d l IH]; intros Hg Hf Hb c r Hc.
  - exists c, r. split; [assumption|]. now apply closer_stop.
  - inversion Hg as [|? ? Hg1 Hg2]; inversion Hf as [|? ? Hf1 Hf2]; subst. cbn [flat_map map]. rewrite <- app_assoc.
    destruct (is_block d) eqn:E.
    + assert (l = []) as ->.
      { destruct l as [|d' l]; [reflexivity|]. unfold block_last in Hb. change (removelast (d :: d' :: l)) with (d :: removelast (d' :: l)) in Hb.
        inversion Hb; congruence. }
      cbn [flat_map app map]. destruct (Hg1 Hf1 E (c :: r)) as (c' & r' & Hc' & Hd). exists c', r'. split; [assumption|].
      eapply ds_cons; [exact Hd|]. now apply closer_stop.
    + assert (Hb' : block_last l).
      { unfold block_last in *. destruct l as [|d' l]; [constructor|]. change (removelast (d :: d' :: l)) with (d :: removelast (d' :: l)) in Hb.
        now inversion Hb. }
      destruct (IH Hg2 Hf2 Hb' c r Hc) as (c' & r' & Hc' & Hds). exists c', r'. split; [assumption|].
      eapply ds_cons; [|exact Hds]. apply print_plain; try assumption. now apply print_list_quiet.
Qed.
Lemma all_goes d : goes d.
Proof.
  induction d as [d IH] using dir_ind'. intros Hf Hb r. apply fine_inv in Hf as (Hl & _ & Hc).
  destruct d as [| | | |p l|p l|p l| |]; try discriminate; cbn [children] in *; cbn [print_dir erase_dir]; cbn [app]; rewrite <- app_assoc.
  - destruct (print_list l IH Hc Hl (kw "AttributeEnd") r) as (c & r' & H1 & H2).
    + eexists. split; [reflexivity|]. cbn. tauto.
    + exists c, r'. split; [assumption|]. eapply di_block; [constructor|exact H2].
  - destruct (print_list l IH Hc Hl (kw "TransformEnd") r) as (c & r' & H1 & H2).
    + eexists. split; [reflexivity|]. cbn. tauto.
    + exists c, r'. split; [assumption|]. eapply di_block; [constructor|exact H2].
  - destruct (print_list l IH Hc Hl (kw "WorldEnd") r) as (c & r' & H1 & H2).
    + eexists. split; [reflexivity|]. cbn. tauto.
    + exists c, r'. split; [assumption|]. eapply di_block; [constructor|exact H2].
Qed.

(** ** Pre-directives *)
Lemma print_pstruct k mkP ds r : pstruct_kw (F := F) (s2l k) mkP -> wf_params (ds_params ds) -> quiet r ->
  predirective fo (print_ds k ds ++ r) (mkP (erase_ds ds)) r.
Proof.
  intros Hk Hw Hq. destruct (print_params_ok _ r Hw Hq) as (l & Hp & E). unfold print_ds, erase_ds. rewrite <- E.
  cbn [app]. eapply pd_struct; eauto.
Qed.
Lemma print_numbers k fl d r : numbers_kw (s2l k) pos0 fl d -> fl <> [] -> quiet r -> predirective fo (kw k :: nums fl ++ r) d r.
Proof.
  intros Hk Hn Hq. eapply pd_numbers; [exact Hk| |].
  - rewrite nums_flat. apply print_items; [intros; constructor|assumption].
  - destruct r as [|[p ty] r]; [exact I|]. now destruct ty.
Qed.
Lemma print_predir d r : (forall ps, pre_params d = Some ps -> wf_params ps) -> quiet r ->
  predirective fo (print_pre d ++ r) (erase_pre d) r.
Proof.
  intros Hw Hq. destruct d as [p|p v|p v|p a v|p m|p w|p w|p m|p m|p w|p a b|s|s|s|s|s|s|p w]; cbn [print_pre erase_pre];
    try (apply print_pstruct; [constructor|now apply Hw|assumption]).
  - apply pd_identity.
  - destruct v. apply (print_numbers "Translate"); [constructor|discriminate|assumption].
  - destruct v. apply (print_numbers "Scale"); [constructor|discriminate|assumption].
  - destruct v. apply (print_numbers "Rotate"); [constructor|discriminate|assumption].
  - destruct m as [[[? ?] ?] [[? ?] ?] [[? ?] ?]]. apply (print_numbers "LookAt"); [constructor|discriminate|assumption].
  - apply (pd_str fo pos0 _ PCoordinateSystem). constructor.
  - apply (pd_str fo pos0 _ PCoordSysTransform). constructor.
  - destruct m as [[[? ?] ?] [[? ?] ?] [[? ?] ?]]. apply (print_numbers "Transform"); [constructor|discriminate|assumption].
  - destruct m as [[[? ?] ?] [[? ?] ?] [[? ?] ?]]. apply (print_numbers "ConcatTransform"); [constructor|discriminate|assumption].
  - apply pd_active.
  - apply (print_numbers "TransformTimes"); [constructor|discriminate|assumption].
  - apply (pd_str fo pos0 _ PInclude). constructor.
Qed.
Lemma print_pre_quiet (l : list (PreDirective F)) r : quiet r -> quiet (flat_map print_pre l ++ r).
Proof. intros H. destruct l as [|d l]; [exact H|]. cbn [flat_map]. rewrite <- app_assoc. now destruct d. Qed.
Lemma print_pres l p r : (forall d ps, In d l -> pre_params d = Some ps -> wf_params ps) ->
  predirectives fo (flat_map print_pre l ++ mkTok p (TIdent (s2l "WorldBegin")) :: r) (map erase_pre l)
                   (mkTok p (TIdent (s2l "WorldBegin")) :: r).
Proof.
  induction l as [|d l IH]; intros H; [apply pds_world|]. cbn [flat_map map]. rewrite <- app_assoc.
  eapply pds_cons.
  - apply print_predir; [intros ps; apply H; now left|]. apply print_pre_quiet. exact I.
  - apply IH. intros d' ps Hi. apply H. now right.
Qed.

Theorem print_parse x : printable x -> parse_tokens fo (print_scene x) = Done (Ok (erase_scene x)).
Proof.
  intros (Hw & Hp & Hb). apply parse_tokens_iff. destruct x as [pres w]. unfold print_scene, erase_scene. cbn [fst snd] in *.
  destruct w as [| | | | | |p l| |]; try contradiction.
  assert (Hf : fine (DWorld p l)).
  { apply Forall_forall. intros d Hd. split; [rewrite Forall_forall in Hb; auto|]. intros ps E. apply Hp. right. eauto. }
  destruct (all_goes _ Hf eq_refl []) as (c & r' & _ & Hd). rewrite app_nil_r in Hd.
  econstructor; [|exact Hd]. cbn [print_dir]. apply print_pres. intros d ps Hi E. apply Hp. left. eauto.
Qed.

(** ** Results of the parser are printable *)
Lemma closer_no_directive t r d r' : is_closer_tok t -> ~ directive fo (t :: r) d r'.
Proof.
  intros Ht H. inversion H as [p id mkD q ty s l r0 Hk Hp|p id mkB s ds r0 Hk Hd|p q path r0|p q1 name q2 ty q3 class s l r0 Hp]; subst.
  - now elim (struct_not_closer id mkD p Hk).
  - now elim (block_not_closer id mkB p Hk).
  - destruct Ht as (id & [= <-] & Hi). cbn in Hi. decompose [or] Hi; try contradiction; discriminate.
  - destruct Ht as (id & [= <-] & Hi). cbn in Hi. decompose [or] Hi; try contradiction; discriminate.
Qed.
Lemma block_leaves s d r : directive fo s d r -> is_block d = true -> exists t r', r = t :: r' /\ is_closer_tok t.
Proof.
  intros H Hb. destruct H as [p id mkD q ty s l r Hk Hp|p id mkB s ds r Hk Hd| |]; try discriminate.
  - destruct Hk; discriminate.
  - eapply directives_closer; eauto.
Qed.
Lemma directives_block_last s ds r : directives fo s ds r -> block_last ds.
Proof.
  unfold block_last. induction 1 as [p id s Hc|s d s' ds r Hd H IH]; [constructor|].
  destruct ds as [|d' ds]; [constructor|]. change (removelast (d :: d' :: ds)) with (d :: removelast (d' :: ds)). constructor; [|exact IH].
  destruct (is_block d) eqn:E; [|reflexivity]. exfalso. destruct (block_leaves _ _ _ Hd E) as (t & r' & -> & Ht).
  inversion H as [|? ? s1 ? ? Hd1 _]; subst. now apply closer_no_directive in Hd1.
Qed.
Lemma tree_block_last s d r : directive fo s d r -> Forall (fun d => block_last (children d)) (nodes d).
Proof.
  apply (directive_mut F fo (fun s d r => Forall (fun d => block_last (children d)) (nodes d))
    (fun s ds r => Forall (fun d => block_last (children d)) (flat_map nodes ds))); clear.
  - intros p id mkD q ty s l r Hk Hp. destruct Hk; repeat constructor.
  - intros p id mkB s ds r Hk Hd IH. destruct Hk; cbn; (constructor; [eapply directives_block_last; eauto|exact IH]).
  - repeat constructor.
  - repeat constructor.
  - constructor.
  - intros s d s' ds r Hd H1 Hds H2. cbn. apply Forall_app. auto.
Qed.
Lemma parsed_printable s x : parse_tokens fo s = Done (Ok x) -> printable x.
Proof.
  intros H. split; [|split].
  - destruct (world_after_pre fo _ _ H) as (a & p & b & ds & _ & E & _). now rewrite E.
  - intros ps. now apply (all_params_wf fo s).
  - apply parse_tokens_iff in H. destruct H as [s pres s' w r Hp Hd]. eapply tree_block_last; eauto.
Qed.
Theorem reprint s x : parse_tokens fo s = Done (Ok x) -> parse_tokens fo (print_scene x) = Done (Ok (erase_scene x)).
Proof. intros H. apply print_parse. now apply (parsed_printable s). Qed.
End P.
