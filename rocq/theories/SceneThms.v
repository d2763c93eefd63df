(** Structure of successful parses, from the grammar. *)
From Coq Require Import Sorted.
From Verif Require Import Base TokModel ParModel SceneSpec SceneObs TokProofs ParProofs DirProofs.

Lemma subseq_refl {A} (l : list A) : subseq l l.
Proof. induction l; constructor; assumption. Qed.
Lemma subseq_nil {A} (l : list A) : subseq [] l.
Proof. induction l; constructor; assumption. Qed.
Lemma subseq_app {A} (a b c d : list A) : subseq a b -> subseq c d -> subseq (a ++ c) (b ++ d).
Proof. intros H K. induction H; cbn; [assumption| |]; constructor; assumption. Qed.
Lemma subseq_in {A} (a b : list A) x : subseq a b -> In x a -> In x b.
Proof. induction 1; cbn; intuition. Qed.
Lemma subseq_trans {A} (a b c : list A) : subseq a b -> subseq b c -> subseq a c.
Proof.
  intros H K. revert a H. induction K; intros a' H; [assumption| |].
  - constructor. auto.
  - inversion H; subst; [apply ss_skip|apply ss_take]; auto.
Qed.
Lemma subseq_forall {A} (P : A -> Prop) a b : subseq a b -> Forall P b -> Forall P a.
Proof. induction 1; intros H1; [assumption| |]; inversion H1; subst; [|constructor]; auto. Qed.
Lemma subseq_sorted {A} (R : A -> A -> Prop) a b : subseq a b -> StronglySorted R b -> StronglySorted R a.
Proof.
  induction 1; intros H1; [assumption| |]; inversion H1; subst; [auto|]. constructor; [auto|].
  eapply subseq_forall; eauto.
Qed.
Lemma subseq_app_r {A} (a b c : list A) : subseq a b -> subseq a (b ++ c).
Proof. intros H. rewrite <- (app_nil_r a). apply subseq_app; [assumption|apply subseq_nil]. Qed.
Lemma subseq_app_l {A} (a b c : list A) : subseq a b -> subseq a (c ++ b).
Proof. intros H. change a with ([] ++ a). apply subseq_app; [apply subseq_nil|assumption]. Qed.

Combined Scheme dir_both from directive_mut, directives_mut.

Section Scene.
Context {F : Type} (fo : FloatOps F).
Notation toks := (list (Token F)).

Definition plain (t : Token F) : Prop := is_ident t = false.
Definition cfree {T} (item : toks -> T -> toks -> Prop) : Prop := forall s v r, item s v r ->
  exists c, s = c ++ r /\ Forall plain c /\ forall r', item (c ++ r') v r'.

Ltac one_tok t := exists [t]; split; [reflexivity|split; [repeat constructor|intros r'; constructor]].
Lemma cf_int : cfree int_item.
Proof. intros s v r [p i r0]. one_tok (mkTok (F:=F) p (TInt i)). Qed.
Lemma cf_str : cfree str_item.
Proof. intros s v r [p i r0]. one_tok (mkTok (F:=F) p (TStr i)). Qed.
Lemma cf_bool : cfree bool_item.
Proof.
  intros s v r [p r0|p r0]; [one_tok (mkTok (F:=F) p (TStr (s2l "true")))|one_tok (mkTok (F:=F) p (TStr (s2l "false")))].
Qed.
Lemma cf_float : cfree (float_item fo).
Proof. intros s v r [p x r0|p i r0]; [one_tok (mkTok p (TFloat x))|one_tok (mkTok (F:=F) p (TInt i))]. Qed.
Lemma cf_pair {T} (R : toks -> T -> toks -> Prop) (mk : F -> F -> T) :
  (forall s v r, R s v r -> exists a b s', v = mk a b /\ float_item fo s a s' /\ float_item fo s' b r) ->
  (forall s a s' b r, float_item fo s a s' -> float_item fo s' b r -> R s (mk a b) r) -> cfree R.
Proof.
  intros Hi Hc s v r H. apply Hi in H as (a & b & s' & -> & H1 & H2).
  apply cf_float in H1 as (c1 & -> & P1 & G1). apply cf_float in H2 as (c2 & -> & P2 & G2).
  exists (c1 ++ c2). split; [apply app_assoc|]. split; [now apply Forall_app|]. intros r'. rewrite <- app_assoc.
  eapply Hc; [apply G1|apply G2].
Qed.
Lemma cf_point2 : cfree (point2_item fo).
Proof.
  apply (cf_pair _ (fun a b => mkP2 a b)); [|intros; econstructor; eassumption].
  intros s v r [? a s' b ?]. exists a, b, s'. auto.
Qed.
Lemma cf_vector2 : cfree (vector2_item fo).
Proof.
  apply (cf_pair _ (fun a b => mkV2 a b)); [|intros; econstructor; eassumption].
  intros s v r [? a s' b ?]. exists a, b, s'. auto.
Qed.

Section Items.
Context {T : Type} (item : toks -> T -> toks -> Prop) (Hf : cfree item).
Lemma cf_items : cfree (items item).
Proof.
  intros s v r H. induction H as [s v r H|s v s' vs r H H' IH].
  - apply Hf in H as (c & -> & P & G). exists c. repeat split; auto. intros r'. now apply it_one.
  - apply Hf in H as (c & -> & P & G). destruct IH as (c' & -> & P' & G').
    exists (c ++ c'). split; [apply app_assoc|]. split; [now apply Forall_app|]. intros r'. rewrite <- app_assoc.
    eapply it_more; eauto.
Qed.
Lemma cf_bracketed : cfree (bracketed item).
Proof.
  intros s v r [p s0 vs q r0 H]. apply cf_items in H as (c & -> & P & G).
  exists (mkTok p TLBracket :: c ++ [mkTok q TRBracket]). split; [cbn [app]; now rewrite <- app_assoc|].
  split; [constructor; [reflexivity|apply Forall_app; split; [assumption|repeat constructor]]|].
  intros r'. cbn [app]. rewrite <- app_assoc. cbn [app]. econstructor. apply G.
Qed.
Lemma cf_one_or_list : cfree (one_or_list item).
Proof.
  intros s v r [s0 v0 r0 H|s0 vs r0 H].
  - apply Hf in H as (c & -> & P & G). exists c. repeat split; auto. intros r'. now apply ol_one.
  - apply cf_bracketed in H as (c & -> & P & G). exists c. repeat split; auto. intros r'. now apply ol_list.
Qed.
End Items.

Lemma cf_value ty : cfree (value fo ty).
Proof.
  intros s v r H; destruct H;
  match goal with
  | H : one_or_list int_item _ _ _ |- _ => apply (cf_one_or_list _ cf_int) in H as (cs & -> & P & G)
  | H : one_or_list str_item _ _ _ |- _ => apply (cf_one_or_list _ cf_str) in H as (cs & -> & P & G)
  | H : one_or_list bool_item _ _ _ |- _ => apply (cf_one_or_list _ cf_bool) in H as (cs & -> & P & G)
  | H : one_or_list (float_item _) _ _ _ |- _ => apply (cf_one_or_list _ cf_float) in H as (cs & -> & P & G)
  | H : bracketed (float_item _) _ _ _ |- _ => apply (cf_bracketed _ cf_float) in H as (cs & -> & P & G)
  | H : bracketed (point2_item _) _ _ _ |- _ => apply (cf_bracketed _ cf_point2) in H as (cs & -> & P & G)
  | H : bracketed (vector2_item _) _ _ _ |- _ => apply (cf_bracketed _ cf_vector2) in H as (cs & -> & P & G)
  | H : str_item _ _ _ |- _ => apply cf_str in H as (cs & -> & P & G)
  end; (exists cs; split; [reflexivity|split; [assumption|intros r'; constructor; apply G]]).
Qed.
Lemma cf_param s i r : param fo s i r ->
  exists c, s = c ++ r /\ Forall plain c /\ subseq [pi_pos i] (map tok_pos c) /\ forall r', param fo (c ++ r') i r'.
Proof.
  intros [p h ty name s0 v r0 Hh H]. apply cf_value in H as (c & -> & P & G).
  exists (mkTok p (TStr h) :: c). split; [reflexivity|]. split; [constructor; [reflexivity|assumption]|].
  split; [constructor; apply subseq_nil|]. intros r'. cbn [app]. econstructor; eauto.
Qed.

(** [ext r r']: [r'] may replace the remainder [r]. *)
Definition ext (r r' : toks) : Prop :=
  (exists t u u', r = t :: u /\ r' = t :: u') \/ (r = [] /\ quiet r') \/
  (exists t u t' u', r = t :: u /\ r' = t' :: u' /\ is_closer_tok t /\ is_closer_tok t').
Lemma ext_app c r r' : ext r r' -> ext (c ++ r) (c ++ r').
Proof. intros H. destruct c as [|t c]; [assumption|]. left. exists t, (c ++ r), (c ++ r'). auto. Qed.
Lemma ext_quiet r r' : ext r r' -> quiet r -> quiet r'.
Proof.
  intros [([p k] & u & u' & -> & ->)|[[-> H]|([p k] & u & [p' k'] & u' & -> & -> & _ & (id & E & _))]]; auto.
  cbn in E. now subst k'.
Qed.
Lemma ext_not_number r r' : ext r r' -> not_number r -> not_number r'.
Proof.
  intros [([p k] & u & u' & -> & ->)|[[-> H]|([p k] & u & [p' k'] & u' & -> & -> & _ & (id & E & _))]]; auto.
  - destruct r' as [|[p []] r']; cbn in *; tauto.
  - cbn in E. now subst k'.
Qed.
Lemma ext_refl r : ext r r.
Proof. destruct r as [|t r]; [right; left; split; [reflexivity|exact I]|left; exists t, r, r; auto]. Qed.

Lemma cf_dropped s r : dropped fo s r ->
  exists c, s = c ++ r /\ Forall plain c /\ forall r', quiet r' -> dropped fo (c ++ r') r'.
Proof.
  intros [p h ty name r0 Hh Hk Hq|p q h ty name r0 Hh Hk Ht Hq|p q h ty name s0 r0 Hh Ho Hq|p h name s0 l r0 Hh Hb Hl Hq].
  - exists [mkTok p (TStr h)]. split; [reflexivity|]. split; [repeat constructor|]. intros r' Hq'. cbn [app]. eapply dr_no_value; eauto.
  - exists [mkTok p (TStr h); mkTok q TLBracket]. split; [reflexivity|]. split; [repeat constructor|]. intros r' Hq'. cbn [app]. eapply dr_empty; eauto.
  - assert (X : exists c, s0 = c ++ r0 /\ Forall plain c /\ forall r', open_items fo ty (c ++ r') r').
    { destruct Ho; match goal with
      | H : items int_item _ _ _ |- _ => apply (cf_items _ cf_int) in H as (cs & -> & P & G)
      | H : items str_item _ _ _ |- _ => apply (cf_items _ cf_str) in H as (cs & -> & P & G)
      | H : items bool_item _ _ _ |- _ => apply (cf_items _ cf_bool) in H as (cs & -> & P & G)
      | H : items (float_item _) _ _ _ |- _ => apply (cf_items _ cf_float) in H as (cs & -> & P & G)
      | H : items (point2_item _) _ _ _ |- _ => apply (cf_items _ cf_point2) in H as (cs & -> & P & G)
      | H : items (vector2_item _) _ _ _ |- _ => apply (cf_items _ cf_vector2) in H as (cs & -> & P & G)
      end; (exists cs; split; [reflexivity|split; [assumption|intros r'; econstructor; apply G]]). }
    destruct X as (c & -> & P & G). exists (mkTok p (TStr h) :: mkTok q TLBracket :: c). split; [reflexivity|].
    split; [constructor; [reflexivity|constructor; [reflexivity|assumption]]|]. intros r' Hq'. cbn [app]. eapply dr_open; eauto.
  - apply (cf_bracketed _ cf_float) in Hb as (c & -> & P & G). exists (mkTok p (TStr h) :: c). split; [reflexivity|].
    split; [constructor; [reflexivity|assumption]|]. intros r' Hq'. cbn [app]. eapply dr_odd; eauto.
Qed.
Lemma dropped_quiet (s r : toks) : dropped fo s r -> quiet r.
Proof. now intros []. Qed.
Lemma params_quiet (s : toks) l r : params fo s l r -> quiet r.
Proof. induction 1; [assumption|eapply dropped_quiet; eauto|assumption]. Qed.

Lemma cf_params s l r : params fo s l r ->
  exists c, s = c ++ r /\ Forall plain c /\ subseq (map pi_pos l) (map tok_pos c) /\
    forall r', quiet r' -> params fo (c ++ r') l r'.
Proof.
  induction 1 as [s Hq|s r Hd|s i s' l r Hp H IH].
  - exists []. split; [reflexivity|]. split; [constructor|]. split; [constructor|]. intros r' Hq'. now apply ps_end.
  - apply cf_dropped in Hd as (c & -> & P & G). exists c. split; [reflexivity|]. split; [assumption|].
    split; [apply subseq_nil|]. intros r' Hq'. apply ps_drop. auto.
  - apply cf_param in Hp as (c & -> & P & S & G). destruct IH as (c' & -> & P' & S' & G').
    exists (c ++ c'). split; [apply app_assoc|]. split; [now apply Forall_app|].
    split; [rewrite map_app; apply (subseq_app [pi_pos i]); assumption|].
    intros r' Hq'. rewrite <- app_assoc. eapply ps_cons; eauto.
Qed.

Definition no_closer (c : toks) : Prop := Forall (fun t => ~ is_closer_tok t) c.
Lemma plain_no_closer c : Forall plain c -> no_closer c.
Proof.
  intros H. eapply Forall_impl; [|exact H]. intros t Ht (id & E & _). unfold plain, is_ident in Ht. rewrite E in Ht. discriminate.
Qed.
Lemma plain_filter c : Forall plain c -> filter is_ident c = [].
Proof. induction 1 as [|t c Ht H IH]; [reflexivity|]. cbn. now rewrite Ht. Qed.

Record dframe (X : toks -> toks -> Prop) (ns : list (Directive F)) (s r : toks) (c : toks) : Prop := {
  df_split : s = c ++ r;
  df_ext : forall r', ext r r' -> X (c ++ r') r';
  df_pos : map dir_pos ns = map tok_pos (filter is_ident c);
  df_close : no_closer c;
  df_written : Forall (written fo s) ns;
  df_trace : exists ls, Forall2 dir_trace ns ls /\ subseq (concat ls) (map tok_pos c)
}.

Lemma written_app x s d : written fo s d -> written fo (x ++ s) d.
Proof.
  intros H. destruct H; subst s.
  - eapply wr_struct with (a := x ++ a); eauto. now rewrite <- app_assoc.
  - eapply wr_block with (a := x ++ a); eauto. now rewrite <- app_assoc.
  - eapply wr_include with (a := x ++ a). now rewrite <- app_assoc.
  - eapply wr_texture with (a := x ++ a); eauto. now rewrite <- app_assoc.
Qed.
Lemma written_cons t s d : written fo s d -> written fo (t :: s) d.
Proof. apply (written_app [t]). Qed.
Lemma struct_not_closer id mkD p : struct_kw (F := F) id mkD -> ~ is_closer_tok (mkTok (F:=F) p (TIdent id)).
Proof. intros H (id' & E & Hi). cbn in E. injection E as <-. destruct H; cbn in Hi; intuition discriminate. Qed.
Lemma block_not_closer id mkD p : block_kw (F := F) id mkD -> ~ is_closer_tok (mkTok (F:=F) p (TIdent id)).
Proof. intros H (id' & E & Hi). cbn in E. injection E as <-. destruct H; cbn in Hi; intuition discriminate. Qed.
Lemma struct_obs id mkD ds : struct_kw (F := F) id mkD ->
  nodes (mkD ds) = [mkD ds] /\ dir_pos (mkD ds) = ds_pos ds /\ dir_params (mkD ds) = Some (ds_params ds).
Proof. now intros []. Qed.
Lemma block_obs id mkB p ds : block_kw (F := F) id mkB ->
  nodes (mkB p ds) = mkB p ds :: flat_map nodes ds /\ dir_pos (mkB p ds) = p /\ dir_params (mkB p ds) = None.
Proof. now intros []. Qed.

Lemma both_frames :
  (forall s d r, directive fo s d r -> exists c, dframe (fun s r => directive fo s d r) (nodes d) s r c) /\
  (forall s ds r, directives fo s ds r -> exists c, dframe (fun s r => directives fo s ds r) (flat_map nodes ds) s r c).
Proof.
  apply (dir_both F fo
    (fun s d r => exists c, dframe (fun s r => directive fo s d r) (nodes d) s r c)
    (fun s ds r => exists c, dframe (fun s r => directives fo s ds r) (flat_map nodes ds) s r c)).
  - intros p id mkD q ty s0 l r0 Hk Hp. pose proof (params_quiet _ _ _ Hp) as Hq.
    pose proof Hp as Hp0. apply cf_params in Hp as (c & -> & P & S & G).
    destruct (struct_obs id mkD (mkDS ty p (collect l)) Hk) as (On & Op & Oa).
    exists (mkTok p (TIdent id) :: mkTok q (TStr ty) :: c). rewrite On. split.
    + reflexivity.
    + intros r' Hr. cbn [app]. econstructor; [assumption|]. apply G. eapply ext_quiet; eauto.
    + cbn. rewrite Op, plain_filter by assumption. reflexivity.
    + constructor; [eapply struct_not_closer; eauto|]. constructor; [intros (id' & E & _); discriminate|].
      now apply plain_no_closer.
    + constructor; [|constructor]. eapply wr_struct with (a := []); [eassumption|reflexivity|exact Hp0].
    + exists [p :: map pi_pos l]. split.
      * constructor; [|constructor]. pose proof (dt_params (mkD (mkDS ty p (collect l))) l Oa) as D. now rewrite Op in D.
      * cbn. rewrite app_nil_r. apply ss_take. now apply ss_skip.
  - intros p id mkB s0 ds r0 Hk _ (c & [E X P C W (ls & T1 & T2)]).
    destruct (block_obs id mkB p ds Hk) as (On & Op & Oa).
    exists (mkTok p (TIdent id) :: c). rewrite On. split.
    + cbn. now rewrite E.
    + intros r' Hr. cbn [app]. econstructor; [assumption|]. auto.
    + cbn. now rewrite Op, P.
    + constructor; [eapply block_not_closer; eauto|assumption].
    + constructor; [eapply wr_block with (a := []); [eassumption|reflexivity]|].
      eapply Forall_impl; [|exact W]. intros. now apply written_cons.
    + exists ([p] :: ls). split.
      * constructor; [|assumption]. pose proof (dt_none (mkB p ds) Oa) as D. now rewrite Op in D.
      * cbn. now apply ss_take.
  - intros p q path r0. exists [mkTok p (TIdent (s2l "Include")); mkTok q (TStr path)]. split.
    + reflexivity.
    + intros r' Hr. apply di_include.
    + reflexivity.
    + constructor; [intros (id' & E & Hi); cbn in E; injection E as <-; cbn in Hi; intuition discriminate|].
      constructor; [intros (id' & E & _); discriminate|constructor].
    + constructor; [|constructor]. eapply wr_include with (a := []); reflexivity.
    + exists [[p]]. split; [constructor; [|constructor]; apply (dt_none (DInclude p path)); reflexivity|].
      cbn. apply ss_take. apply subseq_nil.
  - intros p q1 name q2 ty q3 class s0 l r0 Hp. pose proof (params_quiet _ _ _ Hp) as Hq.
    pose proof Hp as Hp0. apply cf_params in Hp as (c & -> & P & S & G).
    exists (mkTok p (TIdent (s2l "Texture")) :: mkTok q1 (TStr name) :: mkTok q2 (TStr ty) :: mkTok q3 (TStr class) :: c). split.
    + reflexivity.
    + intros r' Hr. cbn [app]. apply di_texture. apply G. eapply ext_quiet; eauto.
    + cbn. rewrite plain_filter by assumption. reflexivity.
    + constructor; [intros (id' & E & Hi); cbn in E; injection E as <-; cbn in Hi; intuition discriminate|].
      do 3 (constructor; [intros (id' & E & _); discriminate|]). now apply plain_no_closer.
    + constructor; [|constructor]. eapply wr_texture with (a := []); [reflexivity|exact Hp0].
    + exists [p :: map pi_pos l]. split.
      * constructor; [|constructor]. apply (dt_params (DTexture (mkTS name ty class p (collect l))) l eq_refl).
      * cbn. rewrite app_nil_r. apply ss_take. do 3 apply ss_skip. assumption.
  - intros p id s0 Hc. exists []. split.
    + reflexivity.
    + intros r' [(t & u & u' & E & ->)|[[E _]|(t & u & [p' k'] & u' & E & -> & _ & (id' & E' & Hi))]]; [|discriminate|].
      * injection E as <- _. now constructor.
      * cbn in E'. subst k'. now constructor.
    + reflexivity.
    + constructor.
    + constructor.
    + exists []. split; constructor.
  - intros s0 d0 s' ds r0 _ (c1 & [E1 X1 P1 C1 W1 (ls1 & T1 & U1)]) _ (c2 & [E2 X2 P2 C2 W2 (ls2 & T2 & U2)]).
    exists (c1 ++ c2). cbn [flat_map]. split.
    + now rewrite <- app_assoc, <- E2.
    + intros r' Hr. rewrite <- app_assoc. econstructor; [apply X1|apply X2; assumption]. subst s'. now apply ext_app.
    + now rewrite map_app, filter_app, map_app, P1, P2.
    + now apply Forall_app.
    + apply Forall_app. split; [assumption|]. eapply Forall_impl; [|exact W2]. intros. subst s0. now apply written_app.
    + exists (ls1 ++ ls2). split; [now apply Forall2_app|]. rewrite concat_app, map_app. now apply subseq_app.
Qed.

Lemma directive_frame s d r : directive fo s d r ->
  exists c, dframe (fun s r => directive fo s d r) (nodes d) s r c.
Proof. apply both_frames. Qed.
Lemma directives_frame s ds r : directives fo s ds r ->
  exists c, dframe (fun s r => directives fo s ds r) (flat_map nodes ds) s r c.
Proof. apply both_frames. Qed.
Lemma directives_closer (s : toks) ds r : directives fo s ds r -> exists t u, r = t :: u /\ is_closer_tok t.
Proof.
  induction 1 as [p id s H|s d s' ds r _ _ IH]; [|assumption]. do 2 eexists. split; [reflexivity|]. exists id. auto.
Qed.

(** ** Pre-directives *)
Lemma starters_plain c x : Forall plain c -> starters (c ++ x) = starters x.
Proof.
  induction 1 as [|[p k] c Ht H IH]; [reflexivity|]. cbn [app starters tok_ty]. unfold plain, is_ident in Ht. cbn in Ht.
  destruct k; congruence.
Qed.
Definition wb_tok (p : Pos) : Token F := mkTok p (TIdent (s2l "WorldBegin")).

Record pframe (X : toks -> toks -> Prop) (ds : list (PreDirective F)) (s r : toks) (c : toks) : Prop := {
  pf_split : s = c ++ r;
  pf_ext : forall r', ext r r' -> X (c ++ r') r';
  pf_start : forall x, exists h, starters (c ++ x) = h ++ starters x /\ map tok_pos h = map pre_pos ds /\ Forall (fun t => ~ is_kw (s2l "WorldBegin") t) h;
  pf_trace : exists ls, Forall2 pre_trace ds ls /\ subseq (concat ls) (map tok_pos c)
}.

Ltac pk_start c :=
  cbn [app starters tok_ty]; split;
  [rewrite ?(starters_plain c) by assumption; reflexivity|split; [reflexivity|
   constructor; [unfold is_kw; cbn [tok_ty]; intros [=]|constructor]]].

Lemma predirective_frame s d r : predirective fo s d r ->
  exists c, pframe (fun s r => predirective fo s d r) [d] s r c.
Proof.
  intros [p r0|p id fl d0 s0 r0 Hk Hi Hr|p id mkP q w r0 Hk|p q w r0|p id mkP q ty s0 l r0 Hk Hp].
  - exists [mkTok p (TIdent (s2l "Identity"))]. split.
    + reflexivity.
    + intros r' _. constructor.
    + intros x. exists [(mkTok (F:=F) p (TIdent (s2l "Identity")))]. pk_start (@nil (Token F)).
    + exists [[p]]. split; [constructor; [|constructor]; apply (pt_none (PIdentity p)); reflexivity|]. apply subseq_refl.
  - apply (cf_items _ cf_float) in Hi as (c & -> & P & G). exists (mkTok p (TIdent id) :: c). split.
    + reflexivity.
    + intros r' He. cbn [app]. econstructor; [eassumption|apply G|eapply ext_not_number; eauto].
    + intros x. exists [mkTok p (TIdent id)]. destruct Hk; pk_start c.
    + exists [[p]]. split; [|cbn; apply ss_take, subseq_nil]. constructor; [|constructor].
      assert (E1 : pre_pos d0 = p) by now destruct Hk. assert (E2 : pre_params d0 = None) by now destruct Hk.
      pose proof (pt_none d0 E2) as D. now rewrite E1 in D.
  - exists [mkTok p (TIdent id); mkTok q (TStr w)]. split.
    + reflexivity.
    + intros r' _. cbn [app]. now constructor.
    + intros x. exists [mkTok p (TIdent id)]. destruct Hk; pk_start (@nil (Token F)).
    + exists [[p]]. split; [|cbn; apply ss_take, subseq_nil]. constructor; [|constructor].
      assert (E1 : pre_pos (mkP p w) = p) by now destruct Hk. assert (E2 : pre_params (mkP p w) = None) by now destruct Hk.
      pose proof (pt_none (mkP p w) E2) as D. now rewrite E1 in D.
  - exists [mkTok p (TIdent (s2l "ActiveTransform")); mkTok q (TIdent w)]. split.
    + reflexivity.
    + intros r' _. cbn [app]. apply pd_active.
    + intros x. exists [(mkTok (F:=F) p (TIdent (s2l "ActiveTransform")))]. pk_start (@nil (Token F)).
    + exists [[p]]. split; [|cbn; apply ss_take, subseq_nil]. constructor; [|constructor].
      apply (pt_none (PActiveTransform p w)); reflexivity.
  - pose proof (params_quiet _ _ _ Hp) as Hq. apply cf_params in Hp as (c & -> & P & S & G).
    exists (mkTok p (TIdent id) :: mkTok q (TStr ty) :: c). split.
    + reflexivity.
    + intros r' He. cbn [app]. econstructor; [eassumption|]. apply G. eapply ext_quiet; eauto.
    + intros x. exists [mkTok p (TIdent id)]. destruct Hk; pk_start c.
    + exists [p :: map pi_pos l]. split; [|cbn; rewrite app_nil_r; apply ss_take, ss_skip; assumption].
      constructor; [|constructor]. set (d0 := mkP (mkDS ty p (collect l))).
      assert (E1 : pre_pos d0 = p) by now destruct Hk. assert (E2 : pre_params d0 = Some (collect l)) by now destruct Hk.
      pose proof (pt_params d0 l E2) as D. now rewrite E1 in D.
Qed.

Lemma wb_not_closer p : ~ is_closer_tok (wb_tok p).
Proof. intros (id & E & Hi). cbn in E. injection E as <-. cbn in Hi. intuition discriminate. Qed.

Lemma predirectives_frame s ds r : predirectives fo s ds r ->
  exists c, pframe (fun s r => predirectives fo s ds r) ds s r c.
Proof.
  induction 1 as [p s|s d s' ds r Hd H IH].
  - exists []. split.
    + reflexivity.
    + intros r' [(t & u & u' & E & ->)|[[E _]|(t & u & [p' k'] & u' & E & -> & Hc & _)]]; [|discriminate|].
      * injection E as <- _. constructor.
      * injection E as <- _. now elim (wb_not_closer p).
    + intros x. exists []. repeat split; constructor.
    + exists []. split; constructor.
  - apply predirective_frame in Hd as (c1 & [E1 X1 S1 (l1 & T1 & U1)]). destruct IH as (c2 & [E2 X2 S2 (l2 & T2 & U2)]).
    exists (c1 ++ c2). split.
    + now rewrite <- app_assoc, <- E2.
    + intros r' He. rewrite <- app_assoc. econstructor; [apply X1|apply X2; assumption]. subst s'. now apply ext_app.
    + intros x. destruct (S1 (c2 ++ x)) as (h1 & F1 & M1 & N1). destruct (S2 x) as (h2 & F2 & M2 & N2).
      exists (h1 ++ h2). rewrite <- !app_assoc. rewrite F1, F2. split; [reflexivity|]. split.
      * rewrite map_app, M1, M2. reflexivity.
      * now apply Forall_app.
    + exists (l1 ++ l2). split; [apply (Forall2_app T1 T2)|]. rewrite concat_app, map_app. now apply subseq_app.
Qed.
Lemma pframe_starters X ds s r c : pframe X ds s r c ->
  map tok_pos (starters c) = map pre_pos ds /\ Forall (fun t => ~ is_kw (s2l "WorldBegin") t) (starters c).
Proof.
  intros H. destruct (pf_start _ _ _ _ _ H []) as (h & E & M & N). cbn [starters] in E. rewrite !app_nil_r in E. now subst h.
Qed.

(** ** Scenes *)
Record shape (s : toks) (x : list (PreDirective F) * Directive F) (a : toks) (p : Pos) (mid : toks) (t : Token F) (rest : toks) : Prop := {
  sh_split : s = a ++ wb_tok p :: mid ++ t :: rest;
  sh_closer : is_closer_tok t;
  sh_first : no_closer mid;
  sh_pre : map pre_pos (fst x) = map tok_pos (starters a);
  sh_world : Forall (fun t => ~ is_kw (s2l "WorldBegin") t) (starters a);
  sh_is_world : exists ds, snd x = DWorld p ds;
  sh_nodes : map dir_pos (nodes (snd x)) = p :: map tok_pos (filter is_ident mid);
  sh_rest : forall t' rest', is_closer_tok t' -> scene fo (a ++ wb_tok p :: mid ++ t' :: rest') x;
  sh_written : Forall (written fo s) (nodes (snd x));
  sh_trace : exists ls ls', Forall2 pre_trace (fst x) ls /\ Forall2 dir_trace (nodes (snd x)) ls' /\ subseq (concat ls ++ concat ls') (map tok_pos s)
}.

Lemma world_inv p s w r : directive fo (wb_tok p :: s) w r -> exists ds, w = DWorld p ds /\ directives fo s ds r.
Proof.
  unfold wb_tok. intros H. inversion H as [? ? ? ? ? ? ? ? Hk|? ? ? ? ? ? Hk Hd| |]; subst; [inversion Hk|inversion Hk; subst; eauto].
Qed.
Lemma scene_shape s x : scene fo s x -> exists a p mid t rest, shape s x a p mid t rest.
Proof.
  intros [s0 pres s' w r Hp Hd]. destruct (predirectives_world fo _ _ _ Hp) as (p & s1 & ->). fold (wb_tok p) in *.
  destruct (world_inv _ _ _ _ Hd) as (ds & -> & Hds).
  destruct (predirectives_frame _ _ _ Hp) as (a & Ha). destruct (directives_frame _ _ _ Hds) as (mid & Hm).
  destruct (directives_closer _ _ _ Hds) as (t & rest & -> & Ht).
  destruct (pframe_starters _ _ _ _ _ Ha) as [Hs1 Hs2].
  exists a, p, mid, t, rest.
  pose proof (df_split _ _ _ _ _ Hm) as Em. pose proof (pf_split _ _ _ _ _ Ha) as Ea. subst s1.
  split; cbn [fst snd]; try assumption.
  - apply (df_close _ _ _ _ _ Hm).
  - now symmetry.
  - eauto.
  - cbn [nodes map dir_pos]. now rewrite (df_pos _ _ _ _ _ Hm).
  - intros t' rest' Ht'. apply sc with (s' := wb_tok p :: mid ++ t' :: rest') (r := t' :: rest').
    + apply (pf_ext _ _ _ _ _ Ha). left. do 3 eexists. split; reflexivity.
    + apply (di_block fo p _ DWorld); [constructor|]. apply (df_ext _ _ _ _ _ Hm). right; right. do 4 eexists. eauto.
  - subst s0. cbn [nodes]. constructor.
    + eapply (wr_block fo _ a p _ DWorld); [constructor|reflexivity].
    + eapply Forall_impl; [|exact (df_written _ _ _ _ _ Hm)]. intros d Hw. apply written_app. now apply written_cons.
  - destruct (pf_trace _ _ _ _ _ Ha) as (l1 & T1 & U1). destruct (df_trace _ _ _ _ _ Hm) as (l2 & T2 & U2).
    exists l1, ([p] :: l2). split; [assumption|]. split.
    + cbn [nodes]. constructor; [|assumption]. apply (dt_none (DWorld p ds)); reflexivity.
    + subst s0. rewrite map_app. apply subseq_app; [assumption|]. cbn. apply ss_take. rewrite map_app. now apply subseq_app_r.
Qed.

(** ** Determinism *)
Lemma directive_det s d r d' r' : directive fo s d r -> directive fo s d' r' -> d = d' /\ r = r'.
Proof.
  intros H H'. apply directive_pd_ok in H, H'. destruct (runs_det _ _ _ _ _ _ H H') as [E ->]. now injection E as ->.
Qed.
Lemma predirective_det s d r d' r' : predirective fo s d r -> predirective fo s d' r' -> d = d' /\ r = r'.
Proof.
  intros H H'. apply predirective_ok in H, H'. destruct (runs_det _ _ _ _ _ _ H H') as [E ->]. now injection E as ->.
Qed.
Lemma predirectives_det s ds r ds' r' : predirectives fo s ds r -> predirectives fo s ds' r' -> ds = ds' /\ r = r'.
Proof.
  intros H. revert ds' r'. induction H as [p s|s d s' ds r Hd H IH]; intros ds' r' H'.
  - inversion H' as [|? d2 ? ? ? Hd2 H2]; subst; [auto|]. destruct (predirective_ident _ _ _ _ Hd2) as (? & ? & ? & [= <- <- <-] & Hw).
    vm_compute in Hw. discriminate.
  - inversion H' as [p0 s0|? d2 ? ? ? Hd2 H2]; subst.
    + destruct (predirective_ident _ _ _ _ Hd) as (? & ? & ? & [= <- <- <-] & Hw). vm_compute in Hw. discriminate.
    + destruct (predirective_det _ _ _ _ _ Hd Hd2) as [-> ->]. destruct (IH _ _ H2) as [-> ->]. auto.
Qed.
Lemma directives_cons_inv s d s' ds r : directive fo s d s' -> directives fo s ds r ->
  exists ds', ds = d :: ds' /\ directives fo s' ds' r.
Proof.
  intros Hd H. inversion H as [p id s0 Hc|s0 d0 s1 ds0 r0 Hd0 H0]; subst.
  - destruct (directive_ident _ _ _ _ Hd) as (? & ? & ? & [= <- <- <-] & Hw).
    cbn in Hc. destruct Hc as [Hc|[Hc|[Hc|[]]]]; subst; vm_compute in Hw; discriminate.
  - destruct (directive_det _ _ _ _ _ Hd Hd0) as [-> ->]. eauto.
Qed.
Lemma reaches_directives s s1 : reaches fo s s1 -> forall x, scene fo s x -> exists ds r, directives fo s1 ds r.
Proof.
  induction 1 as [pres p s' Hp|p id mkB s' Hk H IH|s1 d s2 H IH Hd]; intros x Hx.
  - destruct Hx as [s0 pres' s1 w r Hp' Hd]. destruct (predirectives_det _ _ _ _ _ Hp Hp') as [_ <-].
    destruct (world_inv _ _ _ _ Hd) as (ds & _ & Hds). eauto.
  - destruct (IH _ Hx) as (ds & r & Hds). inversion Hds as [p0 id0 s0 Hc|s0 d s1 ds0 r0 Hd Hds0]; subst.
    + elim (block_not_closer id mkB p Hk). exists id. auto.
    + inversion Hd as [? ? ? ? ? ? ? ? Hk'|? ? ? ? ? ? Hk' Hd'| |]; subst; eauto; inversion Hk; subst; inversion Hk'.
  - destruct (IH _ Hx) as (ds & r & Hds). destruct (directives_cons_inv _ _ _ _ _ Hd Hds) as (ds' & _ & H'). eauto.
Qed.
Lemma pre_reaches_predirectives s ds s1 : pre_reaches fo s ds s1 -> forall x, scene fo s x ->
  exists pres r, fst x = ds ++ pres /\ predirectives fo s1 pres r.
Proof.
  induction 1 as [|ds s1 d s2 H IH Hd]; intros x Hx.
  - destruct Hx as [s0 pres' s1 w r Hp' Hd]. exists pres', s1. auto.
  - destruct (IH _ Hx) as (pres & r & E & Hp). inversion Hp as [p s0|s0 d0 s0' ds0 r0 Hd0 H0]; subst.
    + destruct (predirective_ident _ _ _ _ Hd) as (? & ? & ? & [= <- <- <-] & Hw). vm_compute in Hw. discriminate.
    + destruct (predirective_det _ _ _ _ _ Hd Hd0) as [-> ->]. exists ds0, r. split; [|assumption]. now rewrite <- app_assoc.
Qed.
End Scene.
