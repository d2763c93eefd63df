(** Proofs about C100: what stands before the place an error names can be completed. *)
From Verif Require Import Base TokModel ParModel LexSpec SceneSpec SceneObs SynErrSpec ErrSpec StableSpec ViableSpec
  LexProofs LexThms ParProofs DirProofs TextThms SceneThms KindProofs SceneProps SynErrProofs ErrThms StableThms.

Section V.
Context {F : Type} (fo : FloatOps F).
Notation toks := (list (Token F)).
Notation closes := [we_tok pos0].
Notation world := [wb_tok pos0; we_tok pos0].

(** ** Where parameters stop, they may stop *)
Definition left_at (ty : str) (s r : toks) : Prop :=
  r = s \/ (ty <> s2l "texture" /\ exists q, s = mkTok q TLBracket :: r) \/
  (exists q s', s = mkTok q TLBracket :: s' /\ open_items fo ty s' r) \/
  (ty = s2l "spectrum" /\ exists l, bracketed (float_item fo) s l r /\ Nat.odd (length l) = true).

Lemma la_list {T} (item : toks -> T -> toks -> Prop) ty s r : ty <> s2l "texture" ->
  (forall s l r, items item s l r -> open_items fo ty s r) -> list_fail item s r -> left_at ty s r.
Proof.
  intros Ht Ho [s0 Hn|q s0 Hn|q s0 vs r0 Hi Hn Hc].
  - now left.
  - right; left. eauto.
  - right; right; left. eauto.
Qed.
Lemma la_one {T} (item : toks -> T -> toks -> Prop) ty s r : ty <> s2l "texture" ->
  (forall s l r, items item s l r -> open_items fo ty s r) -> one_fail item s r -> left_at ty s r.
Proof. intros Ht Ho [s0 Hn Hi|q s0 r0 H]; [now left|]. now apply (la_list item). Qed.
Lemma n_items_items {T} (item : toks -> T -> toks -> Prop) n s vs r : n_items item (S n) s vs r -> items item s vs r /\ length vs = S n.
Proof.
  revert s vs. induction n as [|n IH]; intros s vs H; inversion H as [|n0 s0 v s' vs' r0 Hv Hr]; subst.
  - inversion Hr; subst. split; [now apply it_one|reflexivity].
  - apply IH in Hr as (Hr & Hl). split; [eapply it_more; eauto|]. cbn. now rewrite Hl.
Qed.
Lemma la_n ty n s r : ty <> s2l "texture" ->
  (forall s l r, items (float_item fo) s l r -> length l = S n -> open_items fo ty s r) -> n_fail (float_item fo) n s r -> left_at ty s r.
Proof.
  intros Ht Ho [s0 Hn|q s0 Hn|q s0 vs r0 Hi Hc].
  - now left.
  - right; left. eauto.
  - apply n_items_items in Hi as (Hi & Hl). right; right; left. eauto.
Qed.
Lemma la_value ty s r : value_fail fo ty s r -> left_at ty s r.
Proof.
  intros [s0 r0 H|s0 r0 H|s0 r0 H|s0 r0 H|s0 r0 H|s0 r0 H|s0 r0 H|s0 r0 H|s0 r0 H|s0 r0 H|s0 H].
  - eapply la_one; [discriminate| |exact H]. intros; econstructor; eassumption.
  - eapply la_one; [discriminate| |exact H]. intros; econstructor; eassumption.
  - eapply la_list; [discriminate| |exact H]. intros; econstructor; eassumption.
  - eapply la_list; [discriminate| |exact H]. intros; econstructor; eassumption.
  - eapply la_one; [discriminate| |exact H]. intros; econstructor; eassumption.
  - eapply la_one; [discriminate| |exact H]. intros; econstructor; eassumption.
  - eapply la_n; [discriminate| |exact H]. intros s1 [|a [|b [|c [|d l]]]] r1 Hi Hl; try discriminate. eapply oi_rgb; exact Hi.
  - eapply la_n; [discriminate| |exact H]. intros s1 [|a [|b [|c [|d l]]]] r1 Hi Hl; try discriminate. eapply oi_xyz; exact Hi.
  - destruct H as [s1 Hn Hs|q s1 r1 H|s1 l r1 Hb Ho].
    + now left.
    + eapply la_list; [discriminate| |exact H]. intros; econstructor; eassumption.
    + right; right; right. eauto.
  - eapply la_n; [discriminate| |exact H]. intros s1 [|a [|b [|c l]]] r1 Hi Hl; try discriminate. eapply oi_blackbody; exact Hi.
  - now left.
Qed.
Lemma cf_open ty s r : open_items fo ty s r -> exists c, s = c ++ r /\ forall r', open_items fo ty (c ++ r') r'.
Proof.
  intros Ho. destruct Ho; match goal with
      | H : items int_item _ _ _ |- _ => apply (cf_items _ cf_int) in H as (cs & -> & P & G)
      | H : items str_item _ _ _ |- _ => apply (cf_items _ cf_str) in H as (cs & -> & P & G)
      | H : items bool_item _ _ _ |- _ => apply (cf_items _ cf_bool) in H as (cs & -> & P & G)
      | H : items (float_item _) _ _ _ |- _ => apply (cf_items _ (cf_float fo)) in H as (cs & -> & P & G)
      | H : items (point2_item _) _ _ _ |- _ => apply (cf_items _ (cf_point2 fo)) in H as (cs & -> & P & G)
      | H : items (vector2_item _) _ _ _ |- _ => apply (cf_items _ (cf_vector2 fo)) in H as (cs & -> & P & G)
      end; (exists cs; split; [reflexivity|intros r'; econstructor; apply G]).
Qed.
Lemma stop_param s r : param_fail fo s r -> exists c, s = c ++ r /\ forall r', quiet r' -> params fo (c ++ r') [] r'.
Proof.
  intros [s0 Hs|p h s0 Hh|p h ty name s0 Hh Hk|p h ty name s0 r0 Hh Hv];
    try (exists []; split; [reflexivity|]; intros r' Hq; now apply ps_end).
  pose proof (value_fail_known fo _ _ _ Hv) as Hk.
  apply la_value in Hv as [->|[(Ht & q & ->)|[(q & s' & -> & Ho)|(-> & l & Hb & Hl)]]].
  - exists [mkTok p (TStr h)]. split; [reflexivity|]. intros r' Hq. apply ps_drop. eapply dr_no_value; eauto.
  - exists [mkTok p (TStr h); mkTok q TLBracket]. split; [reflexivity|]. intros r' Hq. apply ps_drop. eapply dr_empty; eauto.
  - apply cf_open in Ho as (c & -> & G). exists (mkTok p (TStr h) :: mkTok q TLBracket :: c). split; [reflexivity|].
    intros r' Hq. apply ps_drop. cbn [app]. eapply dr_open; eauto.
  - apply (cf_bracketed _ (cf_float fo)) in Hb as (c & -> & P & G). exists (mkTok p (TStr h) :: c). split; [reflexivity|].
    intros r' Hq. apply ps_drop. cbn [app]. eapply dr_odd; eauto.
Qed.
Lemma stop_params s l r : params_run fo s l r -> exists c, s = c ++ r /\ forall r', quiet r' -> params fo (c ++ r') l r'.
Proof.
  induction 1 as [s r H|s i s' l r Hp H (c & -> & G)]; [now apply stop_param|].
  apply cf_param in Hp as (c' & -> & _ & _ & G'). exists (c' ++ c). split; [apply app_assoc|]. intros r' Hq.
  rewrite <- app_assoc. eapply ps_cons; eauto.
Qed.

(** ** Cutting off what follows the token where parameters stop *)
Definition cuts (X : toks -> toks -> Prop) : Prop :=
  forall s t r, X s (t :: r) -> exists c, s = c ++ t :: r /\ X (c ++ [t]) [t].
Definition shorter {T} (item : toks -> T -> toks -> Prop) : Prop := forall t r, no_item item (t :: r) -> no_item item [t].
Lemma sh_cfree {T} (item : toks -> T -> toks -> Prop) : (forall s v r, item s v r -> exists t, s = t :: r /\ forall r', item (t :: r') v r') ->
  shorter item.
Proof. intros Hi t r Hn v r' H. apply Hi in H as (t' & E & G). injection E as <- <-. exact (Hn _ _ (G r)). Qed.
Lemma sh_int : shorter int_item.
Proof. apply sh_cfree. intros s v r [p i r0]. eexists. split; [reflexivity|]. constructor. Qed.
Lemma sh_str : shorter str_item.
Proof. apply sh_cfree. intros s v r [p i r0]. eexists. split; [reflexivity|]. constructor. Qed.
Lemma sh_bool : shorter bool_item.
Proof. apply sh_cfree. intros s v r [p r0|p r0]; eexists; (split; [reflexivity|]); constructor. Qed.
Lemma sh_float : shorter (float_item fo).
Proof. apply sh_cfree. intros s v r H. apply float_one in H as (t & E & _ & G). eauto. Qed.
Lemma one_not_two (t : Token F) s' a b r : float_item fo [t] a s' -> float_item fo s' b r -> False.
Proof.
  intros H1 H2. apply float_one in H1 as (t1 & E & _). injection E as _ <-. apply float_one in H2 as (t2 & E & _). discriminate.
Qed.
Lemma sh_point2 : shorter (point2_item fo).
Proof. intros t r _ v r' H. inversion H; subst. eapply one_not_two; eauto. Qed.
Lemma sh_vector2 : shorter (vector2_item fo).
Proof. intros t r _ v r' H. inversion H; subst. eapply one_not_two; eauto. Qed.
Lemma not_head (t : Token F) r k : (forall q s', t :: r <> mkTok q k :: s') -> forall q s', [t] <> mkTok q k :: s'.
Proof. intros H q s' [= -> <-]. exact (H q r eq_refl). Qed.
Section L.
Context {T : Type} (item : toks -> T -> toks -> Prop) (Hf : cfree item) (Hs : shorter item).
Lemma cut_list : cuts (list_fail item).
Proof.
  intros s t r H. remember (t :: r) as u eqn:Eu. destruct H as [s Hn|q s Hn|q s vs r0 Hi Hn Hc]; subst.
  - exists []. split; [reflexivity|]. apply lf_none. eapply not_head; eauto.
  - exists [mkTok q TLBracket]. split; [reflexivity|]. apply lf_first. eapply Hs; eauto.
  - apply cf_items in Hi as (c & -> & _ & G); [|assumption]. exists (mkTok q TLBracket :: c). split; [reflexivity|]. cbn [app].
    eapply lf_close; [apply G|eapply Hs; eauto|eapply not_head; eauto].
Qed.
Lemma cut_one : cuts (one_fail item).
Proof.
  intros s t r H. remember (t :: r) as u eqn:Eu. destruct H as [s Hn Hi|q s r0 H]; subst.
  - exists []. split; [reflexivity|]. apply of_one; [eapply not_head; eauto|eapply Hs; eauto].
  - destruct (cut_list _ _ _ H) as (c & E & X). destruct c as [|t0 c].
    + cbn in E. injection E as <- <-. exists []. split; [reflexivity|]. now apply of_list.
    + cbn in E. injection E as <- ->. exists (mkTok q TLBracket :: c). split; [reflexivity|]. now apply of_list.
Qed.
End L.
Lemma cut_n n : cuts (n_fail (float_item fo) n).
Proof.
  intros s t r H. remember (t :: r) as u eqn:Eu. destruct H as [s Hn|q s Hn|q s vs r0 Hi Hc]; subst.
  - exists []. split; [reflexivity|]. apply nf_none. eapply not_head; eauto.
  - exists [mkTok q TLBracket]. split; [reflexivity|]. apply nf_few. intros vs r' H.
    inversion H as [|n0 s0 v s' vs' r0 Hv Hr]; subst. destruct n as [|n].
    + apply float_one in Hv as (t1 & E & _ & G). injection E as <- <-. eapply (Hn [v]). econstructor; [apply G|constructor].
    + inversion Hr as [|n0 s0 v' s2 vs2 r0 Hv' Hr']; subst. eapply one_not_two; eauto.
  - apply (cf_n_items _ (cf_float fo)) in Hi as (c & -> & G). exists (mkTok q TLBracket :: c). split; [reflexivity|]. cbn [app].
    eapply nf_close; [apply G|eapply not_head; eauto].
Qed.
Lemma cut_spectrum : cuts (spectrum_fail fo).
Proof.
  intros s t r H. remember (t :: r) as u eqn:Eu. destruct H as [s Hn Hi|q s r0 H|s l r0 Hb Ho]; subst.
  - exists []. split; [reflexivity|]. apply sf_none; [eapply not_head; eauto|eapply sh_str; eauto].
  - destruct (cut_list _ (cf_float fo) sh_float _ _ _ H) as (c & E & X). destruct c as [|t0 c].
    + cbn in E. injection E as <- <-. exists []. split; [reflexivity|]. now apply sf_list.
    + cbn in E. injection E as <- ->. exists (mkTok q TLBracket :: c). split; [reflexivity|]. now apply sf_list.
  - apply (cf_bracketed _ (cf_float fo)) in Hb as (c & -> & _ & G). exists c. split; [reflexivity|]. eapply sf_odd; [apply G|assumption].
Qed.
Lemma cut_value ty : cuts (value_fail fo ty).
Proof.
  intros s t r H. remember (t :: r) as u eqn:Eu. destruct H; subst.
  - destruct (cut_one _ cf_int sh_int _ _ _ H) as (c & E & X). exists c. split; [exact E|]. now constructor.
  - destruct (cut_one _ (cf_float fo) sh_float _ _ _ H) as (c & E & X). exists c. split; [exact E|]. now constructor.
  - destruct (cut_list _ (cf_point2 fo) sh_point2 _ _ _ H) as (c & E & X). exists c. split; [exact E|]. now constructor.
  - destruct (cut_list _ (cf_vector2 fo) sh_vector2 _ _ _ H) as (c & E & X). exists c. split; [exact E|]. now constructor.
  - destruct (cut_one _ cf_bool sh_bool _ _ _ H) as (c & E & X). exists c. split; [exact E|]. now constructor.
  - destruct (cut_one _ cf_str sh_str _ _ _ H) as (c & E & X). exists c. split; [exact E|]. now constructor.
  - destruct (cut_n _ _ _ _ H) as (c & E & X). exists c. split; [exact E|]. now constructor.
  - destruct (cut_n _ _ _ _ H) as (c & E & X). exists c. split; [exact E|]. now constructor.
  - destruct (cut_spectrum _ _ _ H) as (c & E & X). exists c. split; [exact E|]. now constructor.
  - destruct (cut_n _ _ _ _ H) as (c & E & X). exists c. split; [exact E|]. now constructor.
  - exists []. split; [reflexivity|]. apply vf_texture. eapply sh_str; eauto.
Qed.
Lemma cut_param : cuts (param_fail fo).
Proof.
  intros s t r H. remember (t :: r) as u eqn:Eu. destruct H as [s Hn|p h s Hh|p h ty name s Hh Hk|p h ty name s r0 Hh Hv]; subst.
  - exists []. split; [reflexivity|]. apply pf_none. intros p h s' [= -> <-]. exact (Hn p h r eq_refl).
  - injection Eu as <- <-. exists []. split; [reflexivity|]. now apply pf_header.
  - injection Eu as <- <-. exists []. split; [reflexivity|]. eapply pf_type; eauto.
  - destruct (cut_value _ _ _ _ Hv) as (c & -> & X). exists (mkTok p (TStr h) :: c). split; [reflexivity|]. eapply pf_value; eauto.
Qed.
Lemma cut_params s l t r : params_run fo s l (t :: r) -> exists c, s = c ++ t :: r /\ params_run fo (c ++ [t]) l [t].
Proof.
  remember (t :: r) as u eqn:Eu. induction 1 as [s u H|s i s' l u Hp H IH]; subst.
  - destruct (cut_param _ _ _ H) as (c & E & X). exists c. split; [exact E|]. now apply pr_end.
  - destruct (IH eq_refl) as (c & -> & X). apply cf_param in Hp as (c' & -> & _ & _ & G'). exists (c' ++ c). split; [apply app_assoc|].
    rewrite <- app_assoc. eapply pr_more; eauto.
Qed.
Lemma stop_cut s l t r : params_run fo s l (t :: r) -> exists c, s = c ++ t :: r /\
  (forall r', quiet r' -> params fo (c ++ r') l r') /\ params_run fo (c ++ [t]) l [t].
Proof.
  intros H. destruct (stop_params _ _ _ H) as (c & -> & G). exists c. split; [reflexivity|]. split; [assumption|].
  destruct (cut_params _ _ _ _ H) as (c' & E & X). apply app_inv_tail in E. now subst c'.
Qed.

(** ** Directives in front of a place *)
Lemma dir_before s d s' : directive fo s d s' -> s' <> [] -> exists c, s = c ++ s' /\
  forall r', (exists t u u', s' = t :: u /\ r' = t :: u') \/ r' = closes -> directive fo (c ++ r') d r'.
Proof.
  intros H Hs. destruct (directive_frame fo _ _ _ H) as (c & Hc). pose proof (df_split _ _ _ _ _ _ Hc) as E.
  exists c. split; [exact E|]. intros r' [X| ->]; [apply (df_ext _ _ _ _ _ _ Hc); now left|].
  destruct H as [p id mkD q ty s l r Hk Hp|p id mkB s ds r Hk Hd|p q path r|p q1 name q2 ty q3 class s l r Hp].
  - apply cf_params in Hp as (c0 & -> & _ & _ & G). change (_ :: _ :: c0 ++ r) with ((mkTok p (TIdent id) :: mkTok q (TStr ty) :: c0) ++ r) in E.
    apply app_inv_tail in E. subst c. cbn [app]. eapply di_struct; [exact Hk|]. now apply G.
  - apply (df_ext _ _ _ _ _ _ Hc). apply directives_closer in Hd as (t & u & -> & Ht). right; right.
    exists t, u, (we_tok pos0), []. repeat split; auto. exists (s2l "WorldEnd"). split; [reflexivity|]. cbn; tauto.
  - change (_ :: _ :: r) with ([mkTok p (TIdent (s2l "Include")); mkTok q (TStr path)] ++ r) in E.
    apply app_inv_tail in E. subst c. constructor.
  - apply cf_params in Hp as (c0 & -> & _ & _ & G). change (_ :: _ :: _ :: _ :: c0 ++ r) with
      ((mkTok p (TIdent (s2l "Texture")) :: mkTok q1 (TStr name) :: mkTok q2 (TStr ty) :: mkTok q3 (TStr class) :: c0) ++ r) in E.
    apply app_inv_tail in E. subst c. cbn [app]. eapply di_texture. now apply G.
Qed.
Lemma pre_before s d s' : predirective fo s d s' -> s' <> [] -> exists c, s = c ++ s' /\
  forall r', (exists t u u', s' = t :: u /\ r' = t :: u') \/ r' = world -> predirective fo (c ++ r') d r'.
Proof.
  intros H Hs. destruct (predirective_frame fo _ _ _ H) as (c & Hc). pose proof (pf_split _ _ _ _ _ Hc) as E.
  exists c. split; [exact E|]. intros r' [X| ->]; [apply (pf_ext _ _ _ _ _ Hc); now left|].
  destruct H as [p r|p id fl d s r Hk Hi Hr|p id mkP q w r Hk|p q w r|p id mkP q ty s l r Hk Hp].
  - change (_ :: r) with ([mkTok p (TIdent (s2l "Identity"))] ++ r) in E. apply app_inv_tail in E. subst c. constructor.
  - apply (cf_items _ (cf_float fo)) in Hi as (c0 & -> & _ & G). change (_ :: c0 ++ r) with ((mkTok p (TIdent id) :: c0) ++ r) in E.
    apply app_inv_tail in E. subst c. cbn [app]. eapply pd_numbers; [exact Hk|apply G|exact I].
  - change (_ :: _ :: r) with ([mkTok p (TIdent id); mkTok q (TStr w)] ++ r) in E. apply app_inv_tail in E. subst c.
    now apply pd_str.
  - change (_ :: _ :: r) with ([mkTok p (TIdent (s2l "ActiveTransform")); mkTok q (TIdent w)] ++ r) in E.
    apply app_inv_tail in E. subst c. apply pd_active.
  - apply cf_params in Hp as (c0 & -> & _ & _ & G). change (_ :: _ :: c0 ++ r) with ((mkTok p (TIdent id) :: mkTok q (TStr ty) :: c0) ++ r) in E.
    apply app_inv_tail in E. subst c. cbn [app]. eapply pd_struct; [exact Hk|]. now apply G.
Qed.

(** ** Places *)
Ltac flat H := apply mentions_flat in H; [|cbn [In]; intuition discriminate]; cbn [In] in H;
  repeat (destruct H as [H|H]; [try discriminate|]); try (exfalso; exact H).
Lemma string_place s m p : string_error (F := F) s m -> mentions m p -> exists t b, s = t :: b /\ tok_pos t = p.
Proof. intros [|q ty s0 H] Hm; flat Hm. injection Hm as <-. do 2 eexists. split; reflexivity. Qed.
Lemma ident_place s m p : ident_error (F := F) s m -> mentions m p -> exists t b, s = t :: b /\ tok_pos t = p.
Proof. intros [|q ty s0 H] Hm; flat Hm. injection Hm as <-. do 2 eexists. split; reflexivity. Qed.
Lemma number_place s m p : number_error (F := F) s m -> mentions m p -> exists t b, s = t :: b /\ tok_pos t = p.
Proof. intros [|q ty s0 H] Hm; flat Hm. injection Hm as <-. do 2 eexists. split; reflexivity. Qed.

Lemma string_cut t b m : string_error (F := F) (t :: b) m -> string_error [t] m.
Proof. intros H. inversion H; subst. now constructor. Qed.
Lemma ident_cut t b m : ident_error (F := F) (t :: b) m -> ident_error [t] m.
Proof. intros H. inversion H; subst. now constructor. Qed.
Lemma number_cut t b m : number_error (F := F) (t :: b) m -> number_error [t] m.
Proof. intros H. inversion H; subst. now constructor. Qed.

(** The tokens completions are made of. *)
Definition simple (t : Token F) : Prop :=
  tok_ty t = TStr [] \/ tok_ty t = TInt 0 \/ tok_ty t = TIdent (s2l "WorldEnd") \/ tok_ty t = TIdent (s2l "WorldBegin") \/
  tok_ty t = TIdent (s2l "Include").
Lemma simples_zero n (v : toks) : Forall simple v -> Forall simple (repeat int0 n ++ v).
Proof. intros H. induction n as [|n IH]; [exact H|]. cbn. constructor; [cbn; unfold simple; cbn; auto|exact IH]. Qed.
Ltac simples := try apply simples_zero; repeat constructor; unfold simple; cbn; tauto.

Definition dir_at (s : toks) (m : list (piece F)) (p : Pos) : Prop := exists a t b, s = a ++ t :: b /\ tok_pos t = p /\
  (exists v d, Forall simple v /\ directive fo (a ++ v) d closes) /\ dir_error fo (a ++ [t]) m.
Definition dirs_at (s : toks) (m : list (piece F)) (p : Pos) : Prop := exists a t b, s = a ++ t :: b /\ tok_pos t = p /\
  (exists v ds, Forall simple v /\ directives fo (a ++ v) ds closes /\ (a = [] -> v = closes)) /\ dirs_error fo (a ++ [t]) m.
Lemma dirs_first t b m : dirs_error fo [t] m -> dirs_at (t :: b) m (tok_pos t).
Proof.
  intros H. exists [], t, b. split; [reflexivity|]. split; [reflexivity|]. split; [|exact H].
  exists closes, []. split; [simples|]. split; [apply we_closes|reflexivity].
Qed.

Scheme dir_error_mut2 := Minimality for dir_error Sort Prop with dirs_error_mut2 := Minimality for dirs_error Sort Prop.
Combined Scheme dir_errors_mut from dir_error_mut2, dirs_error_mut2.
Lemma both_at : (forall s m, dir_error fo s m -> forall p, mentions m p -> dir_at s m p) /\
  (forall s m, dirs_error fo s m -> forall p, mentions m p -> dirs_at s m p).
Proof.
  apply (dir_errors_mut F fo (fun s m => forall p, mentions m p -> dir_at s m p) (fun s m => forall p, mentions m p -> dirs_at s m p)).
  - intros p id mkD s m Hk H x Hx. destruct (string_place _ _ _ H Hx) as (t & b & -> & E).
    exists [mkTok p (TIdent id)], t, b. split; [reflexivity|]. split; [exact E|]. apply string_cut in H. split.
    + exists [str0; we_tok pos0]. eexists. split; [simples|]. eapply di_struct; [exact Hk|apply no_params].
    + eapply dir_struct; eauto.
  - intros p s m H x Hx. destruct (string_place _ _ _ H Hx) as (t & b & -> & E).
    exists [mkTok p (TIdent (s2l "Include"))], t, b. split; [reflexivity|]. split; [exact E|]. apply string_cut in H. split.
    + exists [str0; we_tok pos0]. eexists. split; [simples|]. eapply di_include.
    + now apply dir_include.
  - intros p s m H x Hx. destruct (string_place _ _ _ H Hx) as (t & b & -> & E).
    exists [mkTok p (TIdent (s2l "Texture"))], t, b. split; [reflexivity|]. split; [exact E|]. apply string_cut in H. split.
    + exists [str0; str0; str0; we_tok pos0]. eexists. split; [simples|]. eapply di_texture. apply no_params.
    + now apply dir_texture1.
  - intros p q w s m H x Hx. destruct (string_place _ _ _ H Hx) as (t & b & -> & E).
    exists [mkTok p (TIdent (s2l "Texture")); mkTok q (TStr w)], t, b. split; [reflexivity|]. split; [exact E|]. apply string_cut in H. split.
    + exists [str0; str0; we_tok pos0]. eexists. split; [simples|]. eapply di_texture. apply no_params.
    + now apply dir_texture2.
  - intros p q w q' w' s m H x Hx. destruct (string_place _ _ _ H Hx) as (t & b & -> & E).
    exists [mkTok p (TIdent (s2l "Texture")); mkTok q (TStr w); mkTok q' (TStr w')], t, b. split; [reflexivity|]. split; [exact E|].
    apply string_cut in H. split.
    + exists [str0; we_tok pos0]. eexists. split; [simples|]. eapply di_texture. apply no_params.
    + now apply dir_texture3.
  - intros p id mkB s m Hk H IH x Hx. destruct (IH x Hx) as (a & t & b & -> & E & (v & ds & S & X & _) & He).
    exists (mkTok p (TIdent id) :: a), t, b. split; [reflexivity|]. split; [exact E|]. split.
    + exists v. eexists. split; [exact S|]. cbn [app]. eapply di_block; [exact Hk|exact X].
    + cbn [app]. eapply dir_block; eauto.
  - intros p id s H1 H2 x Hx. flat Hx. injection Hx as <-. exists [], (mkTok p (TIdent id)), s. split; [reflexivity|]. split; [reflexivity|].
    split; [|now apply dir_unknown]. exists [mkTok pos0 (TIdent (s2l "Include")); str0; we_tok pos0]. eexists. split; [simples|]. eapply di_include.
  - intros p ty s Ht x Hx. flat Hx. injection Hx as <-. apply (dirs_first (mkTok p ty)). now apply dirs_token.
  - intros p id mkD q w s l p' ty r Hk Hr Ht x Hx. flat Hx. injection Hx as <-. apply stop_cut in Hr as (c & -> & G & R).
    exists (mkTok p (TIdent id) :: mkTok q (TStr w) :: c), (mkTok p' ty), r. split; [reflexivity|]. split; [reflexivity|]. split.
    + exists closes. eexists. split; [simples|]. split; [|discriminate]. cbn [app]. eapply ds_cons; [|apply we_closes]. eapply di_struct; [exact Hk|now apply G].
    + cbn [app]. eapply dirs_stuck; eauto.
  - intros p q1 w1 q2 w2 q3 w3 s l p' ty r Hr Ht x Hx. flat Hx. injection Hx as <-. apply stop_cut in Hr as (c & -> & G & R).
    exists (mkTok p (TIdent (s2l "Texture")) :: mkTok q1 (TStr w1) :: mkTok q2 (TStr w2) :: mkTok q3 (TStr w3) :: c), (mkTok p' ty), r.
    split; [reflexivity|]. split; [reflexivity|]. split.
    + exists closes. eexists. split; [simples|]. split; [|discriminate]. cbn [app]. eapply ds_cons; [|apply we_closes]. eapply di_texture. now apply G.
    + cbn [app]. eapply dirs_stuck_texture; eauto.
  - intros s m H IH x Hx. destruct (IH x Hx) as (a & t & b & -> & E & (v & d & S & X) & He). destruct a as [|t0 a].
    + rewrite <- E. apply dirs_first. now apply dirs_here.
    + exists (t0 :: a), t, b. split; [reflexivity|]. split; [exact E|]. split; [|now apply dirs_here].
      exists v, [d]. split; [exact S|]. split; [|discriminate]. eapply ds_cons; [exact X|apply we_closes].
  - intros s d s' m Hd H IH x Hx. destruct (IH x Hx) as (a & t & b & -> & E & (v & ds & S & X & Hv) & He).
    apply dir_before in Hd as (c & -> & G); [|now destruct a]. exists (c ++ a), t, b. split; [now rewrite <- app_assoc|].
    split; [exact E|]. split.
    + exists v, (d :: ds). rewrite <- app_assoc. split; [exact S|]. split.
      * eapply ds_cons; [|exact X]. apply G. destruct a as [|t0 a]; [right; now rewrite Hv|left]. cbn [app]. eauto 6.
      * intros Ea. apply app_eq_nil in Ea as [-> ->]. exfalso. specialize (G _ (or_intror eq_refl)). cbn [app] in G. inversion G; subst.
        all: match goal with H : struct_kw _ _ |- _ => inversion H | H : block_kw _ _ |- _ => inversion H end.
    + rewrite <- app_assoc. eapply dirs_cons; [|exact He]. apply G. left. destruct a as [|t0 a]; cbn [app]; eauto 6.
Qed.

Definition pres_at (s : toks) (m : list (piece F)) (p : Pos) : Prop := exists a t b, s = a ++ t :: b /\ tok_pos t = p /\
  (exists v ds, Forall simple v /\ predirectives fo (a ++ v) ds world /\ (a = [] -> v = world)) /\
  (count_message m \/ pres_error fo (a ++ [t]) m).
Lemma pres_first t b m : count_message m \/ pres_error fo [t] m -> pres_at (t :: b) m (tok_pos t).
Proof.
  intros H. exists [], t, b. split; [reflexivity|]. split; [reflexivity|]. split; [|exact H].
  exists world, []. split; [simples|]. split; [constructor|reflexivity].
Qed.
Lemma pres_one kw (t : Token F) b v d m : Forall simple v -> predirective fo (kw :: v) d world -> pre_error fo [kw; t] m -> pres_at (kw :: t :: b) m (tok_pos t).
Proof.
  intros S H He. exists [kw], t, b. split; [reflexivity|]. split; [reflexivity|]. split.
  - exists v, [d]. split; [exact S|]. split; [|discriminate]. eapply pds_cons; [exact H|constructor].
  - right. now apply pres_here.
Qed.
Lemma pres_place s m : pres_error fo s m -> forall p, mentions m p -> pres_at s m p.
Proof.
  induction 1 as [p ty s Ht|p id mkP q w s l p' ty r Hk Hr Ht|s m H|s d s' m Hd H IH]; intros x Hx.
  - flat Hx. injection Hx as <-. apply (pres_first (mkTok p ty)). right. now constructor.
  - flat Hx. injection Hx as <-. apply stop_cut in Hr as (c & -> & G & R).
    exists (mkTok p (TIdent id) :: mkTok q (TStr w) :: c), (mkTok p' ty), r. split; [reflexivity|]. split; [reflexivity|]. split.
    + exists world. eexists. split; [simples|]. split; [|discriminate]. cbn [app]. eapply pds_cons; [|constructor]. eapply pd_struct; [exact Hk|now apply G].
    + right. cbn [app]. eapply pres_stuck; eauto.
  - destruct H as [p id mkP s0 m0 Hk H|p id mkP s0 m0 Hk H|p s0 m0 H|p what n s0 m0 Hk H|p what n s0 fl r Hk Hi Hr Hl|p id s0 Hw Hn].
    + destruct (string_place _ _ _ H Hx) as (t & b & -> & <-). apply string_cut in H. eapply (pres_one _ t b (str0 :: world)).
      * simples.
      * eapply pd_struct; [exact Hk|apply no_params].
      * eapply pre_struct; eauto.
    + destruct (string_place _ _ _ H Hx) as (t & b & -> & <-). apply string_cut in H. eapply (pres_one _ t b (str0 :: world)).
      * simples.
      * eapply pd_str; exact Hk.
      * eapply pre_str; eauto.
    + destruct (ident_place _ _ _ H Hx) as (t & b & -> & <-). apply ident_cut in H. eapply (pres_one _ t b (wb_tok pos0 :: world)).
      * simples.
      * eapply pd_active.
      * now apply pre_active.
    + assert (Hx' : mentions m0 x).
      { inversion Hx as [m1 p0 Hi|m1 m' p0 Hi Hm]; subst; cbn in Hi; [intuition discriminate|].
        now assert (m' = m0) as -> by (intuition congruence). }
      destruct (number_place _ _ _ H Hx') as (t & b & -> & <-). apply number_cut in H.
      destruct (kw_zero fo _ _ p Hk) as (k & d & -> & Hd). eapply (pres_one _ t b (repeat int0 (S k) ++ world)).
      * simples.
      * eapply pd_numbers; [exact Hd|apply items_zero|exact I].
      * eapply pre_no_number; eauto.
    + flat Hx. injection Hx as <-. apply (pres_first (mkTok p (TIdent (s2l what)))). left. do 4 eexists. reflexivity.
    + flat Hx. injection Hx as <-. apply (pres_first (mkTok p (TIdent id))). right. apply pres_here. now apply pre_unknown.
  - destruct (IH x Hx) as (a & t & b & -> & E & (v & ds & S & X & Hv) & He).
    apply pre_before in Hd as (c & -> & G); [|now destruct a]. exists (c ++ a), t, b. split; [now rewrite <- app_assoc|].
    split; [exact E|]. split.
    + exists v, (d :: ds). rewrite <- app_assoc. split; [exact S|]. split.
      * eapply pds_cons; [|exact X]. apply G. destruct a as [|t0 a]; [right; now rewrite Hv|left]. cbn [app]. eauto 6.
      * intros Ea. apply app_eq_nil in Ea as [-> ->]. exfalso. specialize (G _ (or_intror eq_refl)). cbn [app] in G. inversion G; subst.
        all: match goal with H : pstruct_kw _ _ |- _ => inversion H | H : pstr_kw _ _ |- _ => inversion H | H : numbers_kw _ _ _ _ |- _ => inversion H end.
    + destruct He as [He|He]; [now left|right]. rewrite <- app_assoc. eapply pres_cons; [|exact He].
      apply G. left. destruct a as [|t0 a]; cbn [app]; eauto 6.
Qed.

Lemma scene_place s m p : scene_error fo s m -> mentions m p ->
  exists a t b, s = a ++ t :: b /\ tok_pos t = p /\ (exists v x, Forall simple v /\ scene fo (a ++ v) x) /\ (count_message m \/ scene_error fo (a ++ [t]) m).
Proof.
  intros [s0 m0 H|s0 pres s' m0 Hp H] Hm.
  - destruct (pres_place _ _ H _ Hm) as (a & t & b & -> & E & (v & ds & S & X & _) & He). exists a, t, b. split; [reflexivity|].
    split; [exact E|]. split; [|destruct He as [He|He]; [now left|right; now apply sce_pre]].
    exists v, (ds, DWorld pos0 []). split; [exact S|]. econstructor; [exact X|].
    apply (di_block fo pos0 _ DWorld); [constructor|apply we_closes].
  - destruct (predirectives_frame fo _ _ _ Hp) as (c & Hc). pose proof (pf_split _ _ _ _ _ Hc) as ->.
    destruct (predirectives_world fo _ _ _ Hp) as (q & s1 & ->).
    assert (X : exists a t b, s1 = a ++ t :: b /\ tok_pos t = p /\ (exists v ds, Forall simple v /\ directives fo (a ++ v) ds closes) /\ dirs_error fo (a ++ [t]) m0).
    { remember (mkTok q (TIdent (s2l "WorldBegin")) :: s1) as u eqn:Eu. clear Hp Hc.
      destruct H as [p0 id mkD s2 m2 Hk H|p0 s2 m2 H|p0 s2 m2 H|p0 q0 w s2 m2 H|p0 q0 w q' w' s2 m2 H|p0 id mkB s2 m2 Hk H|p0 id s2 H1 H2];
        try (destruct Hk); try discriminate Eu.
      - injection Eu as _ ->. destruct (proj2 both_at _ _ H _ Hm) as (a & t & b & -> & E & (v & ds & S & X & _) & He).
        exists a, t, b. eauto 9.
      - injection Eu as _ -> _. destruct H2. cbn. tauto. }
    destruct X as (a & t & b & -> & E & (v & ds & S & X) & He).
    exists (c ++ mkTok q (TIdent (s2l "WorldBegin")) :: a), t, b. split; [now rewrite <- app_assoc|]. split; [exact E|]. split.
    + exists v. eexists. split; [exact S|]. rewrite <- app_assoc. cbn [app]. econstructor.
      * apply (pf_ext _ _ _ _ _ Hc). left. do 3 eexists. split; reflexivity.
      * eapply di_block; [constructor|exact X].
    + right. rewrite <- app_assoc. cbn [app]. eapply sce_world.
      * apply (pf_ext _ _ _ _ _ Hc). left. do 3 eexists. split; reflexivity.
      * eapply dir_block; [constructor|exact He].
Qed.
Lemma place_viable s m p : parse_tokens fo s = Done (Err (EStr m)) -> mentions m p ->
  exists a t b, s = a ++ t :: b /\ tok_pos t = p /\ (exists v x, parse_tokens fo (a ++ v) = Done (Ok x)) /\
    (count_message m \/ number_tok t \/ forall v, parse_tokens fo (a ++ t :: v) = Done (Err (EStr m))).
Proof.
  intros H Hm. apply parse_tokens_error_iff in H. destruct (scene_place _ _ _ H Hm) as (a & t & b & E & Et & (v & x & S & X) & He).
  exists a, t, b. split; [exact E|]. split; [exact Et|]. split; [exists v, x; now apply parse_tokens_iff|].
  destruct He as [He|He]; [now left|right]. assert (D : number_tok t \/ ~ number_tok t) by (destruct t as [q []]; cbn; tauto).
  destruct D as [D|D]; [now left|right]. intros v'. change (t :: v') with ([t] ++ v'). rewrite app_assoc.
  apply placed_final; [now apply parse_tokens_error_iff|now exists p|]. intros (s' & t' & t2 & u' & E' & Ht & _).
  apply app_inj_tail in E' as [_ <-]. exact (D Ht).
Qed.
Lemma place_not_late s m p : parse_tokens fo s = Done (Err (EStr m)) -> mentions m p ->
  exists a t b, s = a ++ t :: b /\ tok_pos t = p /\ beginning fo a.
Proof. intros H Hm. destruct (place_viable _ _ _ H Hm) as (a & t & b & E & Et & Hb & _). exists a, t, b. auto. Qed.

(** ** Exactly the beginnings of accepted inputs *)
Lemma numbers_front (v : toks) : exists n v', v = n ++ v' /\ Forall number_tok n /\ forall t v'', v' = t :: v'' -> ~ number_tok t.
Proof.
  induction v as [|t v (n & v' & -> & Hn & Hv)]; [exists [], []; repeat split; [constructor|discriminate]|].
  assert (D : number_tok t \/ ~ number_tok t) by (destruct t as [p []]; cbn; tauto).
  destruct D as [D|D].
  - exists (t :: n), v'. repeat split; [now constructor|assumption].
  - exists [], (t :: n ++ v'). repeat split; [constructor|]. now intros t0 v0 [= <- _].
Qed.
Lemma beginnings s : (exists v x, parse_tokens fo (s ++ v) = Done (Ok x)) <->
  exists n, Forall number_tok n /\ forall m, parse_tokens fo (s ++ n) = Done (Err (EStr m)) -> ~ placed m.
Proof.
  split.
  - intros (v & x & H). destruct (numbers_front v) as (n & v' & -> & Hn & Hv). exists n. split; [assumption|].
    intros m Hm. rewrite app_assoc in H. eapply prefix_unplaced; eauto. intros (s' & t & t' & u' & _ & _ & -> & Ht').
    exact (Hv _ _ eq_refl Ht').
  - intros (n & _ & H). destruct (unplaced_completable fo _ H) as (v & x & E). exists (n ++ v), x. now rewrite app_assoc.
Qed.
End V.
