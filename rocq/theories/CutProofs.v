(** Texts cut short. *)
From Verif Require Import Base TokModel ParModel LexSpec SceneSpec SceneObs SynErrSpec StableSpec TokProofs LexProofs LexThms ParProofs DirProofs TextThms
  SceneThms SceneProps StableThms ViableText CutSpec.

Section Cut.
Context {F : Type} (fo : FloatOps F) (cc : CharClass) (Hcc : cc_ok cc).
Notation toks := (list (Token F)).

Lemma next_more (P : char -> Prop) s1 s2 : s1 <> [] -> next_is P s1 -> next_is P (s1 ++ s2).
Proof. now destruct s1. Qed.
Lemma number_more chk text v r : number fo cc chk text v r -> r <> [] -> forall s, number fo cc chk text v (r ++ s).
Proof.
  induction 1 as [sg neg body v r Hs Hm Hi Hr|sg neg body m k r Hs Hm Hd Hr|sg neg body m t e v r Hs Hm Hi Hn IH Hz He|
    sg neg body dot m k t e r Hs Hm Hd Hn IH He|sg neg body dot m k t f r Hs Hm Hd Hn IH]; intros N s.
  - eapply nu_int; eauto. now apply next_more.
  - eapply nu_dec; eauto. now apply next_more.
  - eapply nu_int_exp; eauto.
  - eapply nu_dec_exp; eauto.
  - eapply nu_float_exp; eauto.
Qed.
Lemma lexeme_more chk text ty r s : lexeme fo cc chk text ty r -> r <> [] -> lexeme fo cc chk text ty (r ++ s).
Proof.
  intros H N. destruct H as [r|r|src v r Hb|t r Hi|t v r Hn].
  - constructor.
  - constructor.
  - now constructor.
  - apply lx_ident. destruct Hi as (c & u & -> & H1 & H2 & H3 & H4). exists c, u. repeat split; auto. now apply next_more.
  - apply lx_num. now apply number_more.
Qed.
Lemma app_cut {A} (a b text s : list A) : a ++ b = text ++ s ->
  (exists a2, a = text ++ a2 /\ s = a2 ++ b) \/ (exists c t, text = a ++ c :: t).
Proof.
  revert text. induction a as [|x a IH]; intros [|y text] E; cbn in *.
  - left. exists []. auto.
  - right. eauto.
  - left. exists (x :: a). auto.
  - injection E as -> E. destruct (IH _ E) as [(a2 & -> & ->)|(c & t & ->)]; [left; eauto|right; eauto].
Qed.
Definition first_char (ty : TokenType F) (text : str) (c : char) : Prop :=
  match ty with
  | TLBracket => text = [c_lbrack] | TRBracket => text = [c_rbrack] | TStr _ => c = c_quote
  | TIdent w => w = text /\ is_alphabetic cc c = true /\ is_numeric cc c = false
  | TInt _ | TFloat _ => starts_num cc c = true end.
Lemma number_ty chk text v r : number fo cc chk text v r -> (exists i, v = TInt i) \/ (exists x, v = TFloat x).
Proof. intros [| | | |]; eauto. Qed.
Lemma lexeme_kind chk text ty r : lexeme fo cc chk text ty r -> exists c u, text = c :: u /\ first_char ty text c.
Proof.
  intros [R|R|src v R Hb|tx R Hi|tx v R Hn]; cbn.
  - eauto.
  - eauto.
  - eauto.
  - destruct Hi as (c & u & -> & Ha & Hn & _). exists c, u. auto.
  - destruct (number_start fo cc _ _ _ _ Hn) as (c & u & -> & Hc). exists c, u. split; [reflexivity|].
    destruct (number_ty _ _ _ _ Hn) as [[i ->]|[x ->]]; exact Hc.
Qed.
Lemma alpha_not_num c : is_alphabetic cc c = true -> is_numeric cc c = false -> starts_num cc c = true -> False.
Proof.
  unfold starts_num. intros Ha Hn H. rewrite Hn, orb_false_r in H.
  apply orb_true_iff in H as [H|H]; [apply orb_true_iff in H as [H|H]|]; apply N.eqb_eq in H; subst c;
    rewrite (cc_alpha_ascii cc Hcc) in Ha by reflexivity; discriminate.
Qed.
(** Brackets and strings end by themselves. *)
Lemma closed_any chk text ty r : lexeme fo cc chk text ty r -> match ty with TLBracket | TRBracket | TStr _ => True | _ => False end ->
  forall r', lexeme fo cc chk text ty r'.
Proof.
  intros [R|R|src v R Hb|tx R Hi|tx v R Hn] K r'; try contradiction; try (now constructor).
  destruct (number_ty _ _ _ _ Hn) as [[? ->]|[? ->]]; contradiction.
Qed.
(** What a token cut short is read as. *)
Lemma token_cut chk pre text ty s a c t ts : lexeme fo cc chk text ty s -> text = a ++ c :: t -> a <> [] -> lexes fo cc chk pre a ts ->
  exists ty', ts = [mkTok (pos_of pre) ty'] /\ cut_token (mkTok (pos_of pre) ty) (mkTok (pos_of pre) ty').
Proof.
  intros Hx E N H. destruct a as [|x a]; [congruence|].
  assert (Hs : starts_lexeme cc x = true).
  { destruct (lexeme_start fo cc _ _ _ _ Hx) as (x' & u & E' & Hs). rewrite E in E'. cbn in E'. now injection E' as -> _. }
  destruct (starts_lexeme_facts cc Hcc _ Hs) as [Hh Hw].
  destruct (lexes_cons fo cc _ _ _ _ _ Hw Hh H) as (text' & ty' & rest' & ts' & E' & Hx' & -> & H').
  assert (D : forall R, lexeme fo cc chk text' ty' R -> R = rest' ++ (c :: t) ++ s -> False).
  { intros R HR ->. destruct (lexeme_det fo cc Hcc _ _ _ _ _ _ _ Hx HR) as (Et & _ & _).
    - rewrite app_assoc, <- E', E. now rewrite <- app_assoc.
    - subst text'. apply (f_equal (@length _)) in E'. rewrite E in E'. repeat (rewrite app_length in E' || cbn [length] in E'). lia. }
  assert (R0 : rest' = []).
  { destruct rest' as [|r0 rest']; [reflexivity|]. exfalso. eapply D; [|reflexivity]. apply lexeme_more; [assumption|discriminate]. }
  subst rest'. rewrite app_nil_r in E'. subst text'.
  assert (ts' = []) as -> by (inversion H' as [| | | |? tx ? ? ? Hl ? Ex]; [reflexivity|];
    destruct (lexeme_start fo cc _ _ _ _ Hl) as (? & ? & -> & _); discriminate).
  exists ty'. split; [reflexivity|].
  assert (L1 : ty' <> TLBracket) by (intros ->; exact (D _ (closed_any _ _ _ _ Hx' I _) eq_refl)).
  assert (L2 : ty' <> TRBracket) by (intros ->; exact (D _ (closed_any _ _ _ _ Hx' I _) eq_refl)).
  assert (L3 : forall v, ty' <> TStr v) by (intros v ->; exact (D _ (closed_any _ _ _ _ Hx' I _) eq_refl)).
  destruct (lexeme_kind _ _ _ _ Hx) as (x1 & u1 & E1 & K). rewrite E in E1. injection E1 as <- _.
  destruct (lexeme_kind _ _ _ _ Hx') as (x2 & u2 & E2 & K'). injection E2 as <- _.
  assert (Q : forall w, ty = TStr w -> False).
  { intros w ->. cbn [first_char] in K. subst x. destruct ty'; try congruence; cbn [first_char] in K'.
    - destruct K' as (_ & K' & _). apply (alpha_not_special cc Hcc) in K'. apply K'. unfold special. tauto.
    - apply (starts_num_not_special cc Hcc) in K'. apply K'. unfold special. tauto.
    - apply (starts_num_not_special cc Hcc) in K'. apply K'. unfold special. tauto. }
  destruct ty; cbn [first_char] in K; try (exfalso; eapply Q; reflexivity); try (exfalso; rewrite E in K; destruct a; discriminate);
    destruct ty'; cbn [first_char] in K'; try congruence.
  all: try (destruct K as (-> & K1 & K2), K' as (-> & K1' & K2'); subst text; constructor; discriminate).
  all: try (exfalso; destruct K as (-> & K1 & K2); eapply alpha_not_num; eassumption).
  all: try (exfalso; destruct K' as (-> & K1 & K2); eapply alpha_not_num; eassumption).
  all: apply ct_number; [exact I|exact I|reflexivity].
Qed.
(** The tokens of a text cut short. *)
Lemma lexes_cut chk pre s ts : lexes fo cc chk pre s ts -> forall a b ts', s = a ++ b -> lexes fo cc chk pre a ts' -> cut_tokens ts ts'.
Proof.
  assert (Z : forall pre ts ts', lexes fo cc chk pre [] ts' -> cut_tokens ts ts').
  { intros p0 t0 t0' H. assert (t0' = []) as -> by (inversion H as [| | | |? tx ? ? ? Hl ? Ex]; [reflexivity|];
      destruct (lexeme_start fo cc _ _ _ _ Hl) as (? & ? & -> & _); discriminate). exists [], t0. auto. }
  induction 1 as [pre|pre c s ts Hw H IH|pre body s ts Hb H IH|pre body Hb|pre text ty s ts Hx H IH]; intros a b ts' E H';
    (destruct a as [|x a]; [exact (Z _ _ _ H')|]).
  - discriminate.
  - injection E as <- E. apply (lexes_ws fo cc Hcc) in H'; [|assumption]. exact (IH _ _ _ E H').
  - injection E as <- E. symmetry in E. apply app_cut in E as [(a2 & -> & E)|(c & t & Eb)].
    + destruct a2 as [|y a2]; cbn [app] in E.
      * rewrite app_nil_r in H'. apply (lexes_comment_end fo cc Hcc) in H'; [|assumption]. subst. exists [], ts. auto.
      * injection E as <- E. apply (lexes_comment fo cc Hcc) in H'; [|assumption]. exact (IH _ _ _ E H').
    + apply (lexes_comment_end fo cc Hcc) in H'; [|intros I; apply Hb; rewrite Eb; apply in_or_app; now left]. subst. exists [], ts. auto.
  - injection E as <- E. apply (lexes_comment_end fo cc Hcc) in H'; [|intros I; apply Hb; rewrite E; apply in_or_app; now left].
    subst ts'. exists [], []. auto.
  - symmetry in E. apply app_cut in E as [(a2 & Ea & ->)|(c & t & Et)].
    + rewrite Ea in H'. apply lexeme_cut in Hx. apply (lexes_lexeme fo cc Hcc _ _ _ _ _ _ Hx) in H' as (t' & -> & H').
      destruct (IH _ _ _ eq_refl H') as (l & r & -> & G). exists (mkTok (pos_of pre) ty :: l), r. split; [reflexivity|].
      destruct G as [->|(t0 & r' & t0' & -> & -> & G)]; [left; reflexivity|right]. exists t0, r', t0'. auto.
    + destruct (token_cut _ _ _ _ _ _ _ _ _ Hx Et ltac:(discriminate) H') as (ty' & -> & G).
      exists [], (mkTok (pos_of pre) ty :: ts). split; [reflexivity|]. right. exists (mkTok (pos_of pre) ty), ts, (mkTok (pos_of pre) ty'). auto.
Qed.

(** *** Line ends: the text may be cut between CR and LF *)
Lemma last_char {A} (u : list A) c x d : u ++ [c] = x ++ [d] -> u = x /\ c = d.
Proof. apply app_inj_tail. Qed.
Lemma digit_not_ws c : is_ascii_digit c = true -> is_whitespace c = false.
Proof.
  intros E. destruct (is_whitespace c) eqn:Hc; [exfalso|reflexivity].
  unfold is_ascii_digit, is_whitespace, c_0, c_9 in *. apply andb_prop in E as [E1 E2]. apply N.leb_le in E1, E2.
  rewrite !orb_true_iff, !andb_true_iff, !N.leb_le, !N.eqb_eq in Hc. lia.
Qed.
Lemma body_last body : (body <> [] /\ all_digits body) \/ (exists m k, dec_num body m k) ->
  exists x c, body = x ++ [c] /\ is_whitespace c = false.
Proof.
  assert (D : forall l, l <> [] -> all_digits l -> exists x c, l = x ++ [c] /\ is_whitespace c = false).
  { intros l N H. destruct (exists_last N) as (x & c & ->). exists x, c. split; [reflexivity|]. apply digit_not_ws.
    apply Forall_app in H as [_ H]. now apply Forall_inv in H. }
  intros [[N H]|(m & k & [a N H|a b N Ha Hb])].
  - now apply D.
  - now apply D.
  - destruct b as [|y b]; [exists a, c_dot; split; reflexivity|].
    destruct (D (y :: b) ltac:(discriminate) Hb) as (x & c & E & Hc). exists (a ++ c_dot :: x), c. rewrite E, <- app_assoc. auto.
Qed.
Lemma number_last chk text v r : number fo cc chk text v r -> exists x c, text = x ++ [c] /\ is_whitespace c = false.
Proof.
  induction 1 as [sg neg body v r Hs Hm Hi Hr|sg neg body m k r Hs Hm Hd Hr|sg neg body m t e v r Hs Hm Hi Hn IH Hz He|
    sg neg body dot m k t e r Hs Hm Hd Hn IH He|sg neg body dot m k t f r Hs Hm Hd Hn IH].
  1,2: destruct (body_last body) as (x & c & -> & Hc); [first [left; destruct Hi as (? & ? & _); auto; fail|right; eauto]|];
    exists (sg ++ x), c; now rewrite <- app_assoc.
  all: destruct IH as (x & c & -> & Hc); exists (sg ++ body ++ c_e :: x), c; split; [|assumption];
    rewrite <- !app_assoc; reflexivity.
Qed.
Lemma lexeme_last chk text ty r : lexeme fo cc chk text ty r -> exists x c, text = x ++ [c] /\ is_whitespace c = false.
Proof.
  intros [R|R|src v R Hb|tx R Hi|tx v R Hn].
  - exists [], c_lbrack. auto.
  - exists [], c_rbrack. auto.
  - exists (c_quote :: src), c_quote. auto.
  - destruct Hi as (c & u & -> & Ha & Hn & Hu & _). destruct u as [|y u] using rev_ind.
    + exists [], c. split; [reflexivity|]. now apply (alpha_not_ws cc Hcc).
    + clear IHu. exists (c :: u), y. split; [reflexivity|]. apply Forall_app in Hu as [_ Hu]. apply Forall_inv in Hu.
      unfold is_alphanumeric in Hu. destruct (is_whitespace y) eqn:W; [|reflexivity].
      rewrite (cc_ws_num cc Hcc), (cc_ws_alpha cc Hcc) in Hu by assumption. discriminate.
  - now apply number_last in Hn.
Qed.
(** White space at the end does not matter. *)
Lemma lexes_trim chk pre s ts : lexes fo cc chk pre s ts -> forall u c, s = u ++ [c] -> is_whitespace c = true -> c <> c_lf -> lexes fo cc chk pre u ts.
Proof.
  induction 1 as [pre|pre c0 s ts Hw H IH|pre body s ts Hb H IH|pre body Hb|pre text ty s ts Hx H IH]; intros u c E Wc Nc.
  - now destruct u.
  - destruct u as [|x u]; [injection E as <- ->; inversion H as [| | | |? tx ? ? ? Hl ? Ex]; [constructor|];
      destruct (lexeme_start fo cc _ _ _ _ Hl) as (? & ? & -> & _); discriminate|].
    injection E as <- E. apply ls_space; [assumption|]. eapply IH; eauto.
  - destruct u as [|x u]; [injection E as <- _; discriminate|]. injection E as <- E.
    destruct s as [|y s] using rev_ind; [apply last_char in E as [_ E]; congruence|]. clear IHs.
    rewrite app_comm_cons, app_assoc in E. apply last_char in E as [<- ->]. apply ls_comment; [assumption|]. now apply (IH s c).
  - destruct u as [|x u]; [injection E as <- _; discriminate|]. injection E as <- ->. apply ls_comment_end. intros I. apply Hb, in_or_app. now left.
  - destruct s as [|y s] using rev_ind.
    + rewrite app_nil_r in E. destruct (lexeme_last _ _ _ _ Hx) as (x & d & E' & Hd). rewrite E in E'. apply last_char in E' as [_ ->]. congruence.
    + clear IHs. rewrite app_assoc in E. apply last_char in E as [<- ->]. apply ls_token; [now apply lexeme_cut in Hx|]. now apply (IH s c).
Qed.
Lemma lf_cut s t : lf_text s t -> forall a b, s = a ++ b ->
  (exists ta tb, lf_text a ta /\ t = ta ++ tb) \/ (exists u v, lf_text a (u ++ [c_cr]) /\ t = u ++ c_lf :: v).
Proof.
  induction 1 as [|s t H IH|c s t Hc H IH]; intros a b E.
  - symmetry in E. apply app_eq_nil in E as [-> ->]. left. exists [], []. split; constructor.
  - destruct a as [|x a]; [left; exists [], (c_lf :: t); split; [constructor|reflexivity]|].
    injection E as <- E. destruct a as [|y a].
    + right. exists [], t. split; [|reflexivity]. apply (lt_char c_cr []); [right; congruence|constructor].
    + injection E as <- E. destruct (IH _ _ E) as [(ta & tb & Ha & ->)|(u & v & Ha & ->)].
      * left. exists (c_lf :: ta), tb. split; [now constructor|reflexivity].
      * right. exists (c_lf :: u), v. split; [now apply (lt_pair a (u ++ [c_cr]))|reflexivity].
  - destruct a as [|x a]; [left; exists [], (c :: t); split; [constructor|reflexivity]|].
    injection E as <- E.
    assert (Hc' : c <> c_cr \/ forall s', a <> c_lf :: s') by (destruct Hc as [Hc|Hc]; [now left|right; intros s' ->; apply (Hc (s' ++ b)); assumption]).
    destruct (IH _ _ E) as [(ta & tb & Ha & ->)|(u & v & Ha & ->)].
    + left. exists (c :: ta), tb. split; [now constructor|reflexivity].
    + right. exists (c :: u), v. split; [now apply (lt_char c a (u ++ [c_cr]))|reflexivity].
Qed.
Lemma tokens_cut chk a b ts ts' : tokenize fo cc chk (a ++ b) = Done (Ok ts) -> tokenize fo cc chk a = Done (Ok ts') -> cut_tokens ts ts'.
Proof.
  intros H H'. apply (tokenize_ok_iff fo cc Hcc) in H, H'.
  pose proof (proj2 (lf_text_iff _ _) eq_refl : lf_text (a ++ b) (replace_crlf (a ++ b))) as L.
  pose proof (proj2 (lf_text_iff _ _) eq_refl : lf_text a (replace_crlf a)) as La.
  destruct (lf_cut _ _ L _ _ eq_refl) as [(ta & tb & Ha & E)|(u & v & Ha & E)]; rewrite (lf_text_det _ _ _ La Ha) in H'; rewrite E in H.
  - eapply lexes_cut; eauto.
  - apply (lexes_cut _ _ _ _ H u (c_lf :: v)); [reflexivity|]. eapply lexes_trim; eauto. discriminate.
Qed.

(** *** The parser *)
Definition known_tok (t : Token F) : Prop := match tok_ty t with TIdent id => In id dir_keywords | _ => True end.
Lemma plain_known c : Forall plain c -> Forall known_tok c.
Proof. intros H. eapply Forall_impl; [|exact H]. intros [p k] Hp. unfold plain, is_ident, known_tok in *. cbn in *. now destruct k. Qed.
Lemma known_directives : (forall s d r, directive fo s d r -> exists c, s = c ++ r /\ Forall known_tok c) /\
  (forall s ds r, directives fo s ds r -> exists c, s = c ++ r /\ Forall known_tok c).
Proof.
  apply (dir_both F fo (fun s d r => exists c, s = c ++ r /\ Forall known_tok c) (fun s ds r => exists c, s = c ++ r /\ Forall known_tok c)).
  - intros p id mkD q ty s l r Hk Hp. apply cf_params in Hp as (c & -> & P & _). exists (mkTok p (TIdent id) :: mkTok q (TStr ty) :: c).
    split; [reflexivity|]. constructor; [destruct Hk; cbn; tauto|]. constructor; [exact I|]. now apply plain_known.
  - intros p id mkB s ds r Hk _ (c & -> & Hc). exists (mkTok p (TIdent id) :: c). split; [reflexivity|]. constructor; [destruct Hk; cbn; tauto|assumption].
  - intros p q path r. exists [mkTok p (TIdent (s2l "Include")); mkTok q (TStr path)]. split; [reflexivity|].
    constructor; [cbn; tauto|]. constructor; [exact I|constructor].
  - intros p q1 name q2 ty q3 class s l r Hp. apply cf_params in Hp as (c & -> & P & _).
    exists (mkTok p (TIdent (s2l "Texture")) :: mkTok q1 (TStr name) :: mkTok q2 (TStr ty) :: mkTok q3 (TStr class) :: c).
    split; [reflexivity|]. constructor; [cbn; tauto|]. repeat (constructor; [exact I|]). now apply plain_known.
  - intros p id s _. exists []. split; [reflexivity|constructor].
  - intros s d s' ds r _ (c1 & -> & H1) _ (c2 & -> & H2). exists (c1 ++ c2). split; [now rewrite app_assoc|]. now apply Forall_app.
Qed.
Lemma closer_prefix v w : In v closers -> In (v ++ w) closers \/ In (v ++ w) dir_keywords -> w = [].
Proof.
  intros Hv H. cbn in Hv, H. destruct w as [|c w]; [reflexivity|].
  decompose [or False] Hv; subst v; decompose [or False] H; discriminate.
Qed.
Lemma scene_front s x : parse_tokens fo s = Done (Ok x) -> exists a p mid t rest,
  s = a ++ mkTok p (TIdent (s2l "WorldBegin")) :: mid ++ t :: rest /\ dir_pos (snd x) = p /\ is_closer_tok t /\ Forall (fun t => ~ is_closer_tok t) mid /\
  (forall t' rest', is_closer_tok t' -> parse_tokens fo (a ++ mkTok p (TIdent (s2l "WorldBegin")) :: mid ++ t' :: rest') = Done (Ok x)) /\
  exists pres, forall z, predirectives fo (a ++ wb_tok p :: z) pres (wb_tok p :: z).
Proof.
  intros H. apply parse_tokens_iff in H. destruct H as [s0 pres s' w r Hp Hd].
  destruct (predirectives_world fo _ _ _ Hp) as (p & s1 & ->). fold (wb_tok (F := F) p) in *.
  destruct (world_inv fo _ _ _ _ Hd) as (ds & -> & Hds).
  destruct (predirectives_frame fo _ _ _ Hp) as (a & Ha). destruct (directives_frame fo _ _ _ Hds) as (mid & Hm).
  destruct (directives_closer fo _ _ _ Hds) as (t & rest & -> & Ht).
  pose proof (df_split _ _ _ _ _ _ Hm) as Em. pose proof (pf_split _ _ _ _ _ Ha) as Ea. subst s1.
  assert (P : forall z, predirectives fo (a ++ wb_tok p :: z) pres (wb_tok p :: z)).
  { intros z. apply (pf_ext _ _ _ _ _ Ha). left. do 3 eexists. split; reflexivity. }
  exists a, p, mid, t, rest. split; [exact Ea|]. split; [reflexivity|]. split; [assumption|].
  split; [exact (df_close _ _ _ _ _ _ Hm)|]. split; [|exists pres; exact P].
  intros t' rest' Ht'. apply parse_tokens_iff. apply sc with (s' := wb_tok p :: mid ++ t' :: rest') (r := t' :: rest'); [apply P|].
  apply (di_block fo p _ DWorld); [constructor|]. apply (df_ext _ _ _ _ _ _ Hm). right; right. do 4 eexists. eauto.
Qed.
Lemma accept_cut ts ts' x y : cut_tokens ts ts' -> parse_tokens fo ts = Done (Ok x) -> parse_tokens fo ts' = Done (Ok y) ->
  x = y /\ exists a p mid t r r', ts = a ++ mkTok p (TIdent (s2l "WorldBegin")) :: mid ++ t :: r /\
    ts' = a ++ mkTok p (TIdent (s2l "WorldBegin")) :: mid ++ t :: r' /\ dir_pos (snd x) = p /\ is_closer_tok t /\ Forall (fun t => ~ is_closer_tok t) mid /\
    forall t' r', is_closer_tok t' -> parse_tokens fo (a ++ mkTok p (TIdent (s2l "WorldBegin")) :: mid ++ t' :: r') = Done (Ok x).
Proof.
  intros (l & r & -> & C) Hx Hy.
  destruct (scene_front _ _ Hy) as (a & p & mid & t & rest & E & Ep & Ht & Hm & G & pres & P).
  assert (K : forall r', l ++ r = a ++ mkTok p (TIdent (s2l "WorldBegin")) :: mid ++ t :: r' -> x = y /\ exists a p mid t r0 r', l ++ r = a ++ mkTok p (TIdent (s2l "WorldBegin")) :: mid ++ t :: r0 /\
    ts' = a ++ mkTok p (TIdent (s2l "WorldBegin")) :: mid ++ t :: r' /\ dir_pos (snd x) = p /\ is_closer_tok t /\ Forall (fun t => ~ is_closer_tok t) mid /\
    forall t' r', is_closer_tok t' -> parse_tokens fo (a ++ mkTok p (TIdent (s2l "WorldBegin")) :: mid ++ t' :: r') = Done (Ok x)).
  { intros r' E'. rewrite E', (G t r' Ht) in Hx. injection Hx as <-. split; [reflexivity|]. exists a, p, mid, t, r', rest. repeat (split; [assumption || reflexivity|]). exact G. }
  destruct C as [->|(t0 & r0 & t0' & -> & -> & C)].
  - apply (K (rest ++ r)). rewrite E. now rewrite <- !app_assoc; cbn [app]; rewrite <- app_assoc.
  - destruct rest as [|z rest] using rev_ind.
    2: { clear IHrest. apply (K (rest ++ t0 :: r0)).
      assert (El : l ++ [t0'] = (a ++ mkTok p (TIdent (s2l "WorldBegin")) :: mid ++ t :: rest) ++ [z]) by (rewrite E, <- app_assoc; cbn [app]; now rewrite <- app_assoc).
      apply app_inj_tail in El as [-> _]. rewrite <- app_assoc. cbn [app]. now rewrite <- app_assoc. }
    assert (El : l ++ [t0'] = (a ++ mkTok p (TIdent (s2l "WorldBegin")) :: mid) ++ [t]) by (rewrite E, <- app_assoc; reflexivity).
    apply app_inj_tail in El as [-> ->]. exfalso. clear K G E.
    destruct C as [q v w Hv Hw|u u' Hu Hu' _].
    2: { destruct Ht as (id & Et & _). unfold number_tok in Hu'. rewrite Et in Hu'. contradiction. }
    destruct Ht as (id & Et & Hid). cbn in Et. injection Et as <-.
    apply parse_tokens_iff in Hx. rewrite <- app_assoc in Hx. cbn [app] in Hx. fold (wb_tok (F := F) p) in Hx.
    inversion Hx as [s pres2 s' wd rr Hp Hd]; subst. destruct (predirectives_det fo _ _ _ _ _ Hp (P _)) as [_ ->].
    destruct (world_inv fo _ _ _ _ Hd) as (ds & -> & Hds).
    destruct (proj2 known_directives _ _ _ Hds) as (k & Ek & Hk). destruct (directives_closer fo _ _ _ Hds) as (t2 & u2 & -> & (id2 & Et2 & Hid2)).
    symmetry in Ek. pose proof Ek as Ek0. apply app_cut in Ek as [(k2 & -> & Ek)|(c & u & Em)].
    + clear Ek0. destruct k2 as [|z k2]; cbn [app] in Ek; injection Ek as <- Ek.
      * cbn in Et2. injection Et2 as <-. apply Hw. apply (closer_prefix v); [exact Hid|left; exact Hid2].
      * apply Forall_app in Hk as [_ Hk]. apply Forall_inv in Hk. cbn in Hk. apply Hw. apply (closer_prefix v); [exact Hid|right; exact Hk].
    + rewrite Em, <- app_assoc in Ek0. apply app_inv_head in Ek0. injection Ek0 as -> _.
      rewrite Em in Hm. apply Forall_app in Hm as [_ Hm]. apply Forall_inv in Hm. apply Hm. exists id2. auto.
Qed.
Lemma cut_lists ts ts' x y : cut_tokens ts ts' -> parse_tokens fo ts = Done (Ok x) -> parse_tokens fo ts' = Done (Ok y) -> y = x.
Proof. intros C Hx Hy. symmetry. exact (proj1 (accept_cut _ _ _ _ C Hx Hy)). Qed.
(** *** Texts *)
Lemma cut_text chk a b x y : parse fo cc chk (a ++ b) = Done (Ok x) -> parse fo cc chk a = Done (Ok y) -> y = x.
Proof.
  unfold parse. destruct (tokenize fo cc chk (a ++ b)) as [[ts|e]| |] eqn:E; try discriminate.
  destruct (tokenize fo cc chk a) as [[ts'|e]| |] eqn:E'; try discriminate. intros Hx Hy.
  symmetry. exact (proj1 (accept_cut _ _ _ _ (tokens_cut _ _ _ _ _ E E') Hx Hy)).
Qed.
Lemma cut_closer chk a b ts ts' x y : tokenize fo cc chk (a ++ b) = Done (Ok ts) -> tokenize fo cc chk a = Done (Ok ts') ->
  parse fo cc chk (a ++ b) = Done (Ok x) -> parse fo cc chk a = Done (Ok y) ->
  exists h p mid t r r', ts = h ++ mkTok p (TIdent (s2l "WorldBegin")) :: mid ++ t :: r /\
    ts' = h ++ mkTok p (TIdent (s2l "WorldBegin")) :: mid ++ t :: r' /\ dir_pos (snd x) = p /\ is_closer_tok t /\ Forall (fun t => ~ is_closer_tok t) mid.
Proof.
  intros E E' Hx Hy. unfold parse in Hx, Hy. rewrite E in Hx. rewrite E' in Hy.
  destruct (accept_cut _ _ _ _ (tokens_cut _ _ _ _ _ E E') Hx Hy) as [_ (h & p & mid & t & r & r' & H1 & H2 & H3 & H4 & H5 & _)].
  exists h, p, mid, t, r, r'. auto.
Qed.
(** Longer pieces that can be read are accepted, too. *)
Lemma cut_at (l : toks) t r t0 r0 : cut_tokens (l ++ t :: r) (l ++ t0 :: r0) -> t0 = t \/ cut_token t t0.
Proof.
  induction l as [|x l IH]; cbn [app].
  - intros (l2 & r2 & E & [<-|(u & r' & u' & -> & E' & C)]).
    + injection E as -> _. now left.
    + destruct l2 as [|y l2]; cbn [app] in *; [injection E as -> _; injection E' as -> _; now right|]. injection E as -> _. injection E' as -> _. now left.
  - intros (l2 & r2 & E & C). apply IH. destruct l2 as [|y l2]; cbn [app] in E.
    + exfalso. destruct C as [C|(u & r' & u' & -> & C & _)]; [discriminate|]. injection C as _ C. now destruct l.
    + injection E as <- E. exists l2, r2. split; [exact E|]. destruct C as [C|(u & r' & u' & -> & C & D)].
      * left. now injection C.
      * right. exists u, r', u'. split; [reflexivity|]. split; [now injection C|assumption].
Qed.
Lemma cut_longer chk a b c x y ts : parse fo cc chk (a ++ b ++ c) = Done (Ok x) -> parse fo cc chk a = Done (Ok y) ->
  tokenize fo cc chk (a ++ b) = Done (Ok ts) -> parse fo cc chk (a ++ b) = Done (Ok x).
Proof.
  intros Hx Hy E. unfold parse. rewrite E. destruct (parse_tokens_no_panic fo ts) as [[z|e] Ez].
  - rewrite Ez. do 2 f_equal. apply (cut_text chk (a ++ b) c); [now rewrite <- app_assoc|]. unfold parse. now rewrite E.
  - exfalso.
    destruct (tokenize fo cc chk (a ++ b ++ c)) as [[T|e1]| |] eqn:ET; unfold parse in Hx; rewrite ET in Hx; try discriminate.
    destruct (tokenize fo cc chk a) as [[ta|e1]| |] eqn:Ea; unfold parse in Hy; rewrite Ea in Hy; try discriminate.
    pose proof (tokens_cut _ _ _ _ _ E Ea) as C1. rewrite app_assoc in ET. pose proof (tokens_cut _ _ _ _ _ ET E) as C2.
    rewrite <- app_assoc in ET. pose proof (tokens_cut _ _ _ _ _ ET Ea) as C3.
    destruct (accept_cut _ _ _ _ C3 Hx Hy) as [<- (h & p & mid & t & r & r' & -> & -> & _ & Ht & Hm & G)].
    assert (K : forall u, ts = h ++ mkTok p (TIdent (s2l "WorldBegin")) :: mid ++ t :: u -> False).
    { intros u ->. rewrite (G t u Ht) in Ez. discriminate. }
    destruct C1 as (l & r1 & -> & [El|(t0 & r0 & t0' & -> & El & C)]).
    + apply (K (r' ++ r1)). rewrite <- El, <- app_assoc. cbn [app]. now rewrite <- app_assoc.
    + destruct r' as [|z r'] using rev_ind.
      2: { clear IHr'. apply (K (r' ++ t0 :: r0)).
        assert (El' : (h ++ mkTok p (TIdent (s2l "WorldBegin")) :: mid ++ t :: r') ++ [z] = l ++ [t0']) by (rewrite <- El, <- app_assoc; cbn [app]; now rewrite <- app_assoc).
        apply app_inj_tail in El' as [<- _]. rewrite <- app_assoc. cbn [app]. now rewrite <- app_assoc. }
      assert (El' : (h ++ mkTok p (TIdent (s2l "WorldBegin")) :: mid) ++ [t] = l ++ [t0']) by (rewrite <- El, <- app_assoc; reflexivity).
      apply app_inj_tail in El' as [<- <-].
      assert (A : h ++ mkTok p (TIdent (s2l "WorldBegin")) :: mid ++ t :: r = (h ++ mkTok p (TIdent (s2l "WorldBegin")) :: mid) ++ t :: r) by now rewrite <- app_assoc.
      rewrite A in C2. apply cut_at in C2.
      destruct Ht as (id & Et & Hid). destruct C as [q v w Hv Hw|u u' Hu Hu' _].
      2: { unfold number_tok in Hu'. rewrite Et in Hu'. contradiction. }
      destruct C2 as [C2|C2].
      * injection C2 as C2. apply Hw. rewrite <- (app_nil_r v) in C2 at 2. now apply app_inv_head in C2.
      * inversion C2 as [q' v' w' Hv' Hw' E1 E2|u u' Hu Hu' _]; [|exact Hu]. subst.
        apply Hw. apply (f_equal (@length _)) in E2. rewrite !app_length in E2. destruct w; [reflexivity|cbn in E2; lia].
Qed.
End Cut.
