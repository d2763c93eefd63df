(** Texts and token lists put one after the other. *)
From Verif Require Import Base TokModel ParModel LexSpec LexErrSpec SceneSpec SynErrSpec SceneObs ErrSpec MoveSpec.
From Verif Require Import TokProofs LexProofs LexThms LexErrProofs ParProofs DirProofs SynErrProofs SceneThms ErrThms MoveProofs BuildProofs.

Section Text.
Context {F : Type} (fo : FloatOps F) (cc : CharClass) (Hcc : cc_ok cc).

Lemma mv_error_pieces h (m : list (piece F)) : mv_error h (EStr m) = EStr (map (mv_piece h) m).
Proof. reflexivity. Qed.

Section Down.
Context (a : str).
Notation k := (lines a).
Notation dn := (map (mv_piece (F := F) (down k))).
Lemma pos_dn x : pos_of (a ++ c_lf :: x) = down k (pos_of x).
Proof. apply pos_of_down. Qed.
Lemma pos_dn_app x y : down k (pos_of (x ++ y)) = pos_of ((a ++ c_lf :: x) ++ y).
Proof. rewrite <- app_assoc. symmetry. apply (pos_of_down a (x ++ y)). Qed.
Lemma int_error_dn neg body m : int_error (F := F) neg body m -> dn m = m.
Proof. now intros []. Qed.
Lemma num_error_dn chk x s m : num_error fo cc chk x s m -> num_error fo cc chk (a ++ c_lf :: x) s (dn m).
Proof.
  induction 1 as [pre s sg rest Hp|pre s sg neg body rest Hp|pre s sg neg body rest m Hp Hn Hi|pre s sg neg body rest Hp Hn Hf
    |pre s sg neg body dot s' m Hp Hb H IH|pre s sg neg body text e rest m Hp Hb Hx He Hi|pre s sg neg body dot text v rest Hp Hb Hx Hd Hf].
  - cbn [map mv_piece]. rewrite pos_dn_app. now apply ne_none with (rest := rest).
  - cbn [map mv_piece]. rewrite pos_dn_app. now apply ne_second_dot with (neg := neg) (rest := rest).
  - rewrite (int_error_dn _ _ _ Hi). eapply ne_int; eauto.
  - eapply ne_float; eauto.
  - eapply ne_exponent; [eauto|eauto|]. now rewrite <- app_assoc.
  - rewrite (int_error_dn _ _ _ Hi). eapply ne_int_exp; eauto.
  - eapply ne_float_exp; eauto.
Qed.
Lemma token_error_dn chk x s m : token_error fo cc chk x s m -> token_error fo cc chk (a ++ c_lf :: x) s (dn m).
Proof.
  intros [pre c s0 Hs|pre s0 Ho|pre s0 Ho|pre c s0 m0 Hc Hn].
  - cbn [map mv_piece]. rewrite <- pos_dn. now constructor.
  - cbn [map mv_piece]. rewrite pos_dn_app. now constructor.
  - cbn [map mv_piece]. rewrite pos_dn_app. now constructor.
  - apply te_num; [assumption|]. now apply num_error_dn.
Qed.
Lemma lex_error_dn chk x s m : lex_error fo cc chk x s m -> lex_error fo cc chk (a ++ c_lf :: x) s (dn m).
Proof.
  induction 1 as [pre c s m Hw H IH|pre body s m Hb H IH|pre text ty s m Hx H IH|pre s m H].
  - apply le_space; [assumption|]. now rewrite <- app_assoc.
  - apply le_comment; [assumption|]. now rewrite <- app_assoc.
  - eapply le_token; [eassumption|]. now rewrite <- app_assoc.
  - now apply le_here, token_error_dn.
Qed.
End Down.

Lemma lex_error_app chk pre a ta : lexes fo cc chk pre a ta -> forall b m,
  lex_error fo cc chk (pre ++ a ++ [c_lf]) b m -> lex_error fo cc chk pre (a ++ c_lf :: b) m.
Proof.
  induction 1 as [pre|pre c s toks Hw H IH|pre body s toks Hb H IH|pre body Hb|pre text ty s toks Hx H IH]; intros b m He.
  - now apply le_space.
  - cbn [app]. apply le_space; [assumption|]. apply IH. now rewrite <- app_assoc.
  - cbn [app]. rewrite <- app_assoc. cbn [app]. apply le_comment; [assumption|]. apply IH. rewrite <- app_assoc.
    cbn [app] in *. now rewrite <- !app_assoc in *.
  - cbn [app]. apply le_comment; [assumption|]. exact He.
  - rewrite <- app_assoc. eapply le_token; [exact (lexeme_app fo cc Hcc chk text ty s Hx c_lf b eq_refl)|]. apply IH. now rewrite <- !app_assoc in *.
Qed.

Lemma tokenize_cat chk a ta b : ~ ends_cr a -> tokenize fo cc chk a = Done (Ok ta) ->
  tokenize fo cc chk (a ++ c_lf :: b) =
    mv_outcome (down (lines a)) (fun tb => ta ++ map (mv_tok (down (lines a))) tb) (tokenize fo cc chk b).
Proof.
  intros Hn Ha. destruct (tokenize fo cc chk b) as [[tb|[m|]]| |] eqn:E.
  - apply (tokenize_concat fo cc Hcc chk a ta b Hn Ha). exists tb. auto.
  - cbn [mv_outcome]. rewrite mv_error_pieces. apply (tokenize_error_iff fo cc Hcc).
    apply (tokenize_error_iff fo cc Hcc) in E as (t & Ht & He). apply lf_text_iff in Ht. subst t.
    exists (replace_crlf (a ++ c_lf :: b)). split; [now apply lf_text_iff|]. rewrite replace_crlf_app by assumption.
    rewrite replace_crlf_lf. apply (tokenize_ok_iff fo cc Hcc) in Ha. eapply lex_error_app; [exact Ha|]. cbn [app].
    apply (lex_error_dn (replace_crlf a)) in He. unfold lines in He at 1. rewrite replace_crlf_count in He. exact He.
  - now elim (tokenize_err_not_eof fo cc Hcc chk b).
  - now apply (tokenize_concat_panic fo cc Hcc chk a ta b Hn Ha).
  - now elim (tokenize_no_fuel fo cc Hcc chk b).
Qed.
End Text.

Section Toks.
Context {F : Type} (fo : FloatOps F).
Notation toks := (list (Token F)).

Lemma pre_reaches_cons s d s' ds r : predirective fo s d s' -> pre_reaches fo s' ds r -> pre_reaches fo s (d :: ds) r.
Proof.
  intros Hd. induction 1 as [|ds s1 e s2 H IH He].
  - apply (pr_next fo s [] s d s'); [constructor|assumption].
  - rewrite app_comm_cons. eapply pr_next; eauto.
Qed.
Lemma pre_reaches_uncons s ds r : pre_reaches fo s ds r ->
  match ds with [] => r = s | d :: ds' => exists s', predirective fo s d s' /\ pre_reaches fo s' ds' r end.
Proof.
  induction 1 as [|ds s1 e s2 H IH He]; [reflexivity|]. destruct ds as [|d ds]; cbn [app].
  - subst s1. exists s2. split; [assumption|constructor].
  - destruct IH as (s' & Hd & Hr). exists s'. split; [assumption|]. eapply pr_next; eauto.
Qed.

Lemma quiet_not_number (r : toks) : quiet r -> not_number r.
Proof. destruct r as [|[p []] r]; cbn; tauto. Qed.
(** What follows a pre-directive can be exchanged for anything quiet. *)
Lemma predirective_quiet s d r : predirective fo s d r ->
  exists c, c <> [] /\ s = c ++ r /\ forall r', quiet r' -> predirective fo (c ++ r') d r'.
Proof.
  intros [p r0|p id fl d0 s0 r0 Hk Hi Hr|p id mkP q w r0 Hk|p q w r0|p id mkP q ty s0 l r0 Hk Hp].
  - exists [mkTok p (TIdent (s2l "Identity"))]. split; [discriminate|]. split; [reflexivity|]. intros r' _. constructor.
  - apply (cf_items _ (cf_float fo)) in Hi as (c & -> & P & G). exists (mkTok p (TIdent id) :: c).
    split; [discriminate|]. split; [reflexivity|]. intros r' Hq. cbn [app]. econstructor; [eassumption|apply G|now apply quiet_not_number].
  - exists [mkTok p (TIdent id); mkTok q (TStr w)]. split; [discriminate|]. split; [reflexivity|]. intros r' _. now constructor.
  - exists [mkTok p (TIdent (s2l "ActiveTransform")); mkTok q (TIdent w)]. split; [discriminate|]. split; [reflexivity|]. intros r' _. apply pd_active.
  - apply cf_params in Hp as (c & -> & P & S & G). exists (mkTok p (TIdent id) :: mkTok q (TStr ty) :: c).
    split; [discriminate|]. split; [reflexivity|]. intros r' Hq. cbn [app]. econstructor; [eassumption|]. now apply G.
Qed.
Lemma predirective_starts s d r : predirective fo s d r -> exists p id u, s = mkTok p (TIdent id) :: u.
Proof. intros []; eauto. Qed.

Lemma pre_reaches_front s ds r : pre_reaches fo s ds r -> quiet r ->
  exists c, s = c ++ r /\ forall r', quiet r' -> pre_reaches fo (c ++ r') ds r'.
Proof.
  revert s. induction ds as [|d ds IH]; intros s H Hq; apply pre_reaches_uncons in H.
  - subst s. exists []. split; [reflexivity|]. intros r' _. constructor.
  - destruct H as (s' & Hd & Hr). destruct (IH _ Hr Hq) as (c2 & E2 & X2).
    apply predirective_quiet in Hd as (c1 & N1 & -> & X1). exists (c1 ++ c2). split; [subst s'; apply app_assoc|].
    intros r' Hq'. rewrite <- app_assoc. eapply pre_reaches_cons; [apply X1|now apply X2].
    destruct c2 as [|t c2]; [assumption|]. subst s'. destruct ds as [|d2 ds].
    + apply pre_reaches_uncons in Hr. cbn [app] in *. destruct t as [p ty]. rewrite Hr in Hq. exact Hq.
    + apply pre_reaches_uncons in Hr as (s2 & Hd2 & _). apply predirective_starts in Hd2 as (p & id & u & E).
      cbn [app] in *. injection E as -> _. exact I.
Qed.

Lemma after_header s ps r : pre_reaches fo s ps r -> parse_tokens fo s = in_front ps (parse_tokens fo r).
Proof.
  revert s. induction ps as [|d ps IH]; intros s H; apply pre_reaches_uncons in H.
  - subst r. destruct (parse_tokens fo s) as [[[qs w]|e]| |]; reflexivity.
  - destruct H as (s' & Hd & Hr). specialize (IH _ Hr). destruct (parse_tokens fo r) as [[[qs w]|[m|]]| |] eqn:E; cbn [in_front] in *.
    + apply parse_tokens_iff. apply parse_tokens_iff in IH. inversion IH; subst. econstructor; [|eassumption]. cbn [app].
      econstructor; eassumption.
    + apply parse_tokens_error_iff. apply parse_tokens_error_iff in IH. inversion IH; subst.
      * apply sce_pre. eapply pres_cons; eassumption.
      * eapply sce_world; [|eassumption]. econstructor; eassumption.
    + apply parse_tokens_eof_iff. apply parse_tokens_eof_iff in IH. inversion IH; subst.
      * apply se_pre. eapply pe_cons; eassumption.
      * eapply se_world; [|eassumption]. econstructor; eassumption.
    + destruct (parse_tokens_no_panic fo r). congruence.
    + destruct (parse_tokens_no_panic fo r). congruence.
Qed.

Theorem parse_tokens_header ta ps tb : pre_reaches fo ta ps [] -> quiet tb ->
  parse_tokens fo (ta ++ tb) = in_front ps (parse_tokens fo tb).
Proof.
  intros H Hq. apply after_header. apply pre_reaches_front in H as (c & E & X); [|exact I].
  rewrite app_nil_r in E. subst c. now apply X.
Qed.

Lemma predirectives_reach s ds r : predirectives fo s ds r -> pre_reaches fo s ds r.
Proof. induction 1; [constructor|]. eapply pre_reaches_cons; eassumption. Qed.
Definition we_tok q : Token F := mkTok q (TIdent (s2l "WorldEnd")).

Lemma header_iff ta ps p q : (forall t, In t ta -> tok_pos t <> p) ->
  (parse_tokens fo (ta ++ [wb_tok p; we_tok q]) = Done (Ok (ps, DWorld p [])) <-> pre_reaches fo ta ps []).
Proof.
  intros Hp. split.
  - intros H. apply parse_tokens_iff in H. inversion H as [s pres s' w r Hps Hd]; subst.
    destruct (predirectives_world fo _ _ _ Hps) as (p' & s0 & ->).
    apply world_inv in Hd as (ds & E & Hds). injection E as <- <-.
    apply predirectives_reach in Hps. apply pre_reaches_front in Hps as (c & E & X); [|exact I].
    assert (L : length c <= length ta).
    { assert (E2 : nth_error (ta ++ [wb_tok p; we_tok q]) (length c) = Some (mkTok p (TIdent (s2l "WorldBegin")))).
      { rewrite E, nth_error_app2, Nat.sub_diag by lia. reflexivity. }
      destruct (Nat.le_gt_cases (length c) (length ta)) as [L|L]; [assumption|].
      rewrite nth_error_app2 in E2 by lia. destruct (length c - length ta) as [|[|n]] eqn:El; [lia| |].
      - cbn in E2. discriminate E2.
      - destruct n; discriminate E2. }
    destruct (Nat.eq_dec (length c) (length ta)) as [L2|L2].
    + apply app_eq_app in E as (l & [[E1 E2]|[E1 E2]]).
      * assert (l = []). { destruct l; [reflexivity|]. rewrite E1, app_length in L2. cbn in L2. lia. } subst l.
        rewrite app_nil_r in E1. subst c. rewrite <- (app_nil_r ta). now apply X.
      * assert (l = []). { destruct l; [reflexivity|]. rewrite E1, app_length in L2. cbn in L2. lia. } subst l.
        rewrite app_nil_r in E1. subst c. rewrite <- (app_nil_r ta). now apply X.
    + exfalso. assert (In (mkTok (F:=F) p (TIdent (s2l "WorldBegin"))) ta).
      { apply (nth_error_In ta (length c)). rewrite <- (nth_error_app1 ta [wb_tok p; we_tok q]) by lia.
        rewrite E, nth_error_app2, Nat.sub_diag by lia. reflexivity. }
      now apply (Hp _ H0).
  - intros H. rewrite (parse_tokens_header ta ps) by (assumption || exact I).
    assert (E : parse_tokens fo [wb_tok p; we_tok q] = Done (Ok ([], DWorld p []))).
    { apply parse_tokens_iff. econstructor; [apply pds_world|]. apply (di_block fo p _ DWorld); [constructor|].
      apply ds_close. cbn. auto. }
    rewrite E. cbn. now rewrite app_nil_r.
Qed.
End Toks.

Section Whole.
Context {F : Type} (fo : FloatOps F) (cc : CharClass) (Hcc : cc_ok cc).

Lemma lexes_rows chk pre a ta : lexes fo cc chk pre a ta ->
  forall t, In t ta -> pos_r (tok_pos t) <= lines (pre ++ a).
Proof.
  unfold lines. induction 1 as [pre|pre c s toks Hw H IH|pre body s toks Hb H IH|pre body Hb|pre text ty s toks Hx H IH]; intros t Ht.
  - destruct Ht.
  - specialize (IH t Ht). now rewrite <- app_assoc in IH.
  - specialize (IH t Ht). rewrite <- app_assoc in IH. cbn [app] in IH. now rewrite <- app_assoc in IH.
  - destruct Ht.
  - destruct Ht as [<-|Ht].
    + cbn [tok_pos]. unfold pos_of, row_of. cbn [pos_r]. rewrite count_occ_app. lia.
    + specialize (IH t Ht). now rewrite <- app_assoc in IH.
Qed.

(** The world block used to ask whether a text consists of pre-directives. *)
Lemma tokenize_empty_world chk : tokenize fo cc chk (s2l "WorldBegin WorldEnd") = Done (Ok [wb_tok (mkPos 1 1); we_tok (mkPos 1 12)]).
Proof.
  rewrite (tokenize_local fo cc cc_ascii).
  2: { repeat (constructor; [split; [apply (cc_num_ascii _ Hcc); reflexivity|apply (cc_alpha_ascii _ Hcc); reflexivity]|]). constructor. }
  vm_compute. reflexivity.
Qed.

Lemma header_text chk a ta ps : ~ ends_cr a -> tokenize fo cc chk a = Done (Ok ta) ->
  (parse fo cc chk (a ++ c_lf :: s2l "WorldBegin WorldEnd") = Done (Ok (ps, DWorld (mkPos (lines a + 1) 1) [])) <->
   pre_reaches fo ta ps []).
Proof.
  intros Hn Ha. unfold parse. rewrite (tokenize_cat fo cc Hcc chk a ta _ Hn Ha), tokenize_empty_world. cbn [mv_outcome].
  apply header_iff. intros t Ht E. apply (tokenize_ok_iff fo cc Hcc) in Ha. apply (lexes_rows _ _ _ _ Ha) in Ht.
  rewrite E in Ht. cbn [app pos_r] in Ht. unfold lines in *. rewrite replace_crlf_count in Ht. lia.
Qed.

Theorem parse_header chk a ta ps b : ~ ends_cr a -> tokenize fo cc chk a = Done (Ok ta) ->
  parse fo cc chk (a ++ c_lf :: s2l "WorldBegin WorldEnd") = Done (Ok (ps, DWorld (mkPos (lines a + 1) 1) [])) ->
  (forall tb, tokenize fo cc chk b = Done (Ok tb) -> quiet tb) ->
  parse fo cc chk (a ++ c_lf :: b) = in_front ps (mv_outcome (down (lines a)) (mv_scene (down (lines a))) (parse fo cc chk b)).
Proof.
  intros Hn Ha Hh Hq. apply (header_text chk a ta ps Hn Ha) in Hh.
  unfold parse. rewrite (tokenize_cat fo cc Hcc chk a ta _ Hn Ha). destruct (tokenize fo cc chk b) as [[tb|e]| |]; cbn [mv_outcome].
  - specialize (Hq tb eq_refl). rewrite (parse_tokens_header fo ta ps), parse_tokens_moved; [reflexivity|assumption|].
    destruct tb as [|[p ty] tb]; exact Hq.
  - destruct e; reflexivity.
  - reflexivity.
  - reflexivity.
Qed.
End Whole.

Section Body.
Context {F : Type} (fo : FloatOps F).
Notation toks := (list (Token F)).

(** [grows c ds]: tokens [c], read as directives [ds] with blocks still open, in front of anything quiet. *)
Definition grows (c : toks) (ds : list (Directive F)) : Prop := forall tb, quiet tb ->
  (forall db r, directives fo tb db r -> directives fo (c ++ tb) (graft db ds) r) /\
  (forall m, dirs_error fo tb m -> dirs_error fo (c ++ tb) m) /\
  (dirs_eof fo tb -> dirs_eof fo (c ++ tb)).

Definition leaf (d : Directive F) : Prop := forall db l, graft db (d :: l) = d :: graft db l.
Definition grows1 (c : toks) (d : Directive F) (r : toks) : Prop :=
  (leaf d /\ forall r', quiet r' -> directive fo (c ++ r') d r') \/
  (exists p id mkB c' l, block_kw (F := F) id mkB /\ c = mkTok p (TIdent id) :: c' /\ d = mkB p l /\ grows c' l /\
    exists t u, r = t :: u /\ is_closer_tok t).

Lemma leaf_struct id mkD x : struct_kw (F := F) id mkD -> leaf (mkD x).
Proof. intros [] db [|]; reflexivity. Qed.
Lemma graft_block id mkB db p l : block_kw (F := F) id mkB -> graft db [mkB p l] = [mkB p (graft db l)].
Proof.
  intros H. cbn [graft]. assert (E : (fix graft_in l0 := match l0 with [] => db | [d] => graft_dir db d | d :: (_ :: _) as l1 => d :: graft_in l1 end) l = graft db l).
  { reflexivity. }
  now destruct H.
Qed.
Lemma directives_quiet s ds r : directives fo s ds r -> quiet s.
Proof. intros [p id s0 _|s0 d s' ds0 r0 Hd _]; [exact I|]. destruct Hd; exact I. Qed.
Lemma closer_no_directive t u d r : is_closer_tok t -> ~ directive fo (t :: u) d r.
Proof.
  intros (id & E & Hi) H. inversion H as [? ? ? ? ? ? ? ? Hk|? ? ? ? ? ? Hk|?|?]; subst; cbn in E; injection E as <-;
    try (destruct Hk); cbn in Hi; intuition discriminate.
Qed.

Lemma both_grow :
  (forall s d r, directive fo s d r -> exists c, c <> [] /\ s = c ++ r /\ grows1 c d r) /\
  (forall s ds r, directives fo s ds r -> exists c, s = c ++ r /\ grows c ds).
Proof.
  apply (dir_both F fo (fun s d r => exists c, c <> [] /\ s = c ++ r /\ grows1 c d r)
    (fun s ds r => exists c, s = c ++ r /\ grows c ds)).
  - intros p id mkD q ty s0 l r0 Hk Hp. apply cf_params in Hp as (c & -> & P & S & G).
    exists (mkTok p (TIdent id) :: mkTok q (TStr ty) :: c). split; [discriminate|]. split; [reflexivity|]. left.
    split; [eapply leaf_struct; eauto|]. intros r' Hq. cbn [app]. econstructor; [assumption|]. now apply G.
  - intros p id mkB s0 ds r0 Hk Hds (c & E & G). exists (mkTok p (TIdent id) :: c). split; [discriminate|].
    split; [cbn; now rewrite E|]. right. exists p, id, mkB, c, ds. do 4 (split; [auto|]). eapply directives_closer; eassumption.
  - intros p q path r0. exists [mkTok p (TIdent (s2l "Include")); mkTok q (TStr path)]. split; [discriminate|].
    split; [reflexivity|]. left. split; [intros db [|]; reflexivity|]. intros r' _. apply di_include.
  - intros p q1 name q2 ty q3 class s0 l r0 Hp. apply cf_params in Hp as (c & -> & P & S & G).
    exists (mkTok p (TIdent (s2l "Texture")) :: mkTok q1 (TStr name) :: mkTok q2 (TStr ty) :: mkTok q3 (TStr class) :: c).
    split; [discriminate|]. split; [reflexivity|]. left. split; [intros db [|]; reflexivity|].
    intros r' Hq. cbn [app]. apply di_texture. now apply G.
  - intros p id s0 Hc. exists []. split; [reflexivity|]. intros tb Hq. cbn [app graft]. auto.
  - intros s0 d0 s' ds r0 Hd (c1 & N1 & E1 & G1) Hds (c2 & E2 & G2). exists (c1 ++ c2). split; [subst; apply app_assoc|].
    intros tb Hq. rewrite <- app_assoc. destruct G1 as [[L1 X1]|(p & id & mkB & c' & l & Hk & -> & -> & G1 & t & u & Er & Ht)].
    + assert (Hq2 : quiet (c2 ++ tb)).
      { destruct c2 as [|t c2]; [assumption|]. apply directives_quiet in Hds. subst s'. destruct t as [p ty]. exact Hds. }
      destruct (G2 tb Hq) as (A & B & C). split; [|split].
      * intros db r H. rewrite L1. econstructor; [apply X1, Hq2|]. now apply A.
      * intros m H. eapply dirs_cons; [apply X1, Hq2|]. now apply B.
      * intros H. eapply dse_cons; [apply X1, Hq2|]. now apply C.
    + assert (c2 = [] /\ ds = []) as [-> ->].
      { subst s'. inversion Hds as [? ? ? ? E|? ? ? ? ? Hd' Hds']; subst.
        - destruct c2 as [|x c2]; [auto|]. exfalso.
          apply (f_equal (@length _)) in E2. rewrite app_length in E2. cbn [length] in E2. lia.
        - now apply closer_no_directive in Hd'. }
      cbn [app]. destruct (G1 tb Hq) as (A & B & C). split; [|split].
      * intros db r H. rewrite (graft_block _ _ _ _ _ Hk). apply A in H. pose proof H as H0.
        apply directives_closer in H0 as ([p' ty] & u' & -> & (id' & E' & Hi)). cbn in E'. subst ty.
        econstructor; [apply (di_block fo p id mkB); [assumption|exact H]|]. now constructor.
      * intros m H. apply dirs_here. eapply dir_block; [eassumption|]. now apply B.
      * intros H. apply dse_in. eapply de_block; [eassumption|]. now apply C.
Qed.

Lemma wb_no_pre p s d r : ~ predirective fo (wb_tok p :: s) d r.
Proof.
  intros Hd. inversion Hd as [|? ? ? ? ? ? Hk|? ? ? ? ? ? Hk| |? ? ? ? ? ? ? ? Hk]; subst; inversion Hk.
Qed.
Lemma wb_pres p s qs r : predirectives fo (wb_tok p :: s) qs r -> qs = [] /\ r = wb_tok p :: s.
Proof. intros H. inversion H as [|? ? ? ? ? Hd]; subst; [auto|]. now apply wb_no_pre in Hd. Qed.

Lemma wb_scene p s x : scene fo (wb_tok p :: s) x <-> exists ds r, x = ([], DWorld p ds) /\ directives fo s ds r.
Proof.
  split.
  - intros H. inversion H as [? ? ? ? ? Hp Hd]; subst. apply wb_pres in Hp as [-> ->]. apply world_inv in Hd as (ds & -> & Hds). eauto.
  - intros (ds & r & -> & H). econstructor; [apply pds_world|]. apply (di_block fo p _ DWorld); [constructor|exact H].
Qed.
Lemma wb_no_pre_error p s m : ~ pre_error fo (wb_tok p :: s) m.
Proof.
  intros He. remember (wb_tok p :: s) as u eqn:E.
  destruct He as [? ? ? ? ? Hk|? ? ? ? ? Hk| |? ? ? ? ? Hk|? ? ? ? ? ? Hk|? id ? Hn]; try (destruct Hk); try discriminate E.
  unfold wb_tok in E. injection E as _ E _. now elim Hn.
Qed.
Lemma wb_dir_error p s m : dir_error fo (wb_tok p :: s) m -> dirs_error fo s m.
Proof.
  intros He. remember (wb_tok p :: s) as u eqn:E.
  destruct He as [? ? ? ? ? Hk| | | | |? ? ? ? ? Hk He|? id ? Hc Hn]; try (destruct Hk); try discriminate E.
  - unfold wb_tok in E. now injection E as _ ->.
  - unfold wb_tok in E. injection E as _ -> _. elim Hn. cbn. tauto.
Qed.
Lemma wb_error p s m : scene_error fo (wb_tok p :: s) m <-> dirs_error fo s m.
Proof.
  split.
  - intros H. inversion H as [? ? Hp|? ? ? ? Hp Hd]; subst.
    + inversion Hp as [? ? ? Hn|? ? ? ? ? ? ? ? ? ? Hk|? ? He|? ? ? ? Hd]; subst.
      * now elim (Hn (s2l "WorldBegin")).
      * inversion Hk.
      * now apply wb_no_pre_error in He.
      * now apply wb_no_pre in Hd.
    + apply wb_pres in Hp as [-> ->]. now apply wb_dir_error in Hd.
  - intros H. eapply sce_world; [apply pds_world|]. now apply (dir_block fo p _ DWorld); [constructor|].
Qed.
Lemma wb_eof p s : scene_eof fo (wb_tok p :: s) <-> dirs_eof fo s.
Proof.
  split.
  - intros H. inversion H as [? Hp|? ? ? Hp Hd]; subst.
    + inversion Hp as [|? ? ? Hd]; subst. now apply wb_no_pre in Hd.
    + apply wb_pres in Hp as [-> ->]. now inversion Hd; subst.
  - intros H. eapply se_world; [apply pds_world|]. now apply (de_block fo p _ DWorld); [constructor|].
Qed.

Theorem parse_tokens_body ta ds p q tb : Forall (fun t => ~ is_closer_tok t) ta ->
  parse_tokens fo (wb_tok p :: ta ++ [we_tok q]) = Done (Ok ([], DWorld p ds)) -> quiet tb ->
  parse_tokens fo (wb_tok p :: ta ++ tb) = in_body ds (parse_tokens fo (wb_tok p :: tb)).
Proof.
  intros Hc Ha Hq. apply parse_tokens_iff, wb_scene in Ha as (ds' & r & E & Hds). injection E as <-.
  pose proof Hds as Hr. apply directives_closer in Hr as (t & u & -> & Ht).
  apply (proj2 both_grow) in Hds as (c & Es & G).
  assert (c = ta) as ->.
  { revert Es. clear - Hc Ht. revert c. induction ta as [|x ta IH]; intros [|y c] E; cbn in E.
    - reflexivity.
    - injection E as _ E. destruct c; discriminate.
    - injection E as <- _. now inversion Hc.
    - injection E as <- E. f_equal. apply IH; [now inversion Hc|assumption]. }
  destruct (G tb Hq) as (A & B & C). destruct (parse_tokens fo (wb_tok p :: tb)) as [[[qs w]|[m|]]| |] eqn:E.
  - apply parse_tokens_iff, wb_scene in E as (db & r & E & H). injection E as -> ->. cbn [in_body].
    apply parse_tokens_iff, wb_scene. eauto.
  - apply parse_tokens_error_iff, wb_error in E. cbn [in_body]. apply parse_tokens_error_iff, wb_error. auto.
  - apply parse_tokens_eof_iff, wb_eof in E. cbn [in_body]. apply parse_tokens_eof_iff, wb_eof. auto.
  - destruct (parse_tokens_no_panic fo (wb_tok p :: tb)). congruence.
  - destruct (parse_tokens_no_panic fo (wb_tok p :: tb)). congruence.
Qed.
End Body.

Section WholeBody.
Context {F : Type} (fo : FloatOps F) (cc : CharClass) (Hcc : cc_ok cc).
Notation W := (s2l "WorldBegin").

Lemma lexes_rows1 chk pre a ta : lexes fo cc chk pre a ta -> forall t, In t ta -> 1 <= pos_r (tok_pos t).
Proof.
  induction 1 as [pre|pre c s toks Hw H IH|pre body s toks Hb H IH|pre body Hb|pre text ty s toks Hx H IH]; intros t Ht; auto.
  - destruct Ht.
  - destruct Ht.
  - destruct Ht as [<-|Ht]; [|auto]. cbn [tok_pos]. unfold pos_of, row_of. cbn [pos_r]. lia.
Qed.
Lemma below_down k p : 1 <= pos_r p -> below 1 k (down 1 p) = down 1 (down k p).
Proof.
  intros H. unfold below, down. cbn [pos_r pos_c]. destruct (Nat.leb_spec (1 + pos_r p) 1); [lia|]. f_equal. lia.
Qed.
Lemma tokenize_world chk : tokenize fo cc chk W = Done (Ok [wb_tok (mkPos 1 1)]).
Proof.
  rewrite (tokenize_local fo cc cc_ascii).
  2: { repeat (constructor; [split; [apply (cc_num_ascii _ Hcc); reflexivity|apply (cc_alpha_ascii _ Hcc); reflexivity]|]). constructor. }
  vm_compute. reflexivity.
Qed.
Lemma tokenize_world_end chk : tokenize fo cc chk (s2l "WorldEnd") = Done (Ok [we_tok (mkPos 1 1)]).
Proof.
  rewrite (tokenize_local fo cc cc_ascii).
  2: { repeat (constructor; [split; [apply (cc_num_ascii _ Hcc); reflexivity|apply (cc_alpha_ascii _ Hcc); reflexivity]|]). constructor. }
  vm_compute. reflexivity.
Qed.
Lemma not_cr_world : ~ ends_cr W.
Proof.
  intros [x E]. apply (f_equal (@rev _)) in E. rewrite rev_app_distr in E. vm_compute in E. discriminate E.
Qed.
Lemma closer_moved h (t : Token F) : is_closer_tok (mv_tok h t) <-> is_closer_tok t.
Proof. reflexivity. Qed.
Lemma quiet_moved h (tb : list (Token F)) : quiet tb -> quiet (map (mv_tok h) tb).
Proof. destruct tb as [|[p ty] tb]; exact id. Qed.

Lemma error_rows chk b e : tokenize fo cc chk b = Done (Err e) -> forall k,
  mv_error (F := F) (below 1 k) (mv_error (down 1) e) = mv_error (down 1) (mv_error (down k) e).
Proof.
  intros E k. destruct e as [m|]; [|reflexivity]. apply (proj1 (tokenize_error_iff fo cc Hcc _ _ _)) in E as (t & _ & He).
  rewrite !mv_error_pieces. f_equal.
  apply lex_error_shape in He as [(a & c & x & _ & ->)|[(a & d & c & x & y & _ & ->)|Hc]]; cbn [map mv_piece].
  - rewrite below_down; [reflexivity|]. unfold pos_of, row_of. cbn [pos_r]. lia.
  - rewrite below_down; [reflexivity|]. unfold pos_of, row_of. cbn [pos_r]. lia.
  - unfold conversion_text in Hc. destruct Hc as [->|[->|[->| ->]]]; reflexivity.
Qed.

Theorem parse_body chk a ta ds b : ~ ends_cr a -> tokenize fo cc chk a = Done (Ok ta) ->
  Forall (fun t => ~ is_closer_tok t) ta ->
  parse fo cc chk (W ++ c_lf :: a ++ c_lf :: s2l "WorldEnd") = Done (Ok ([], DWorld (mkPos 1 1) ds)) ->
  (forall tb, tokenize fo cc chk b = Done (Ok tb) -> quiet tb) ->
  parse fo cc chk (W ++ c_lf :: a ++ c_lf :: b) =
    in_body ds (mv_outcome (below 1 (lines a)) (mv_scene (below 1 (lines a))) (parse fo cc chk (W ++ c_lf :: b))).
Proof.
  intros Hn Ha Hc Hp Hq. unfold parse in *. rewrite !(tokenize_cat fo cc Hcc chk W _ _ not_cr_world (tokenize_world chk)) in *.
  rewrite !(tokenize_cat fo cc Hcc chk a ta _ Hn Ha) in *. rewrite tokenize_world_end in Hp. change (lines W) with 1 in *.
  cbn [mv_outcome app] in Hp. rewrite map_app in Hp.
  destruct (tokenize fo cc chk b) as [[tb|e]| |] eqn:E; cbn [mv_outcome app].
  - rewrite map_app. rewrite (parse_tokens_body fo _ ds _ (down 1 (down (lines a) (mkPos 1 1)))).
    + f_equal. rewrite <- parse_tokens_moved. f_equal. cbn [map]. f_equal. rewrite !map_map. apply map_ext_in.
      intros t Ht. unfold mv_tok. cbn [tok_pos tok_ty]. rewrite below_down; [reflexivity|].
      apply (tokenize_ok_iff fo cc Hcc) in E. eapply lexes_rows1; eassumption.
    + apply Forall_map. eapply Forall_impl; [|exact Hc]. intros t Ht. now rewrite closer_moved.
    + exact Hp.
    + apply quiet_moved, quiet_moved, Hq. reflexivity.
  - pose proof (error_rows chk b e E (lines a)) as X. destruct e; cbn [parser_error_of mv_error] in *; cbn [in_body].
    + rewrite X. reflexivity.
    + reflexivity.
  - reflexivity.
  - reflexivity.
Qed.
End WholeBody.

Lemma header_needs_quiet : exists ta ps tb, pre_reaches fo_sym ta ps [] /\
  parse_tokens fo_sym (ta ++ tb) <> in_front ps (parse_tokens fo_sym tb).
Proof.
  set (n := fun c => mkTok (mkPos 1 c) (TInt (F := sfloat) (Z.of_nat c))).
  exists [mkTok (mkPos 1 1) (TIdent (s2l "Translate")); n 2; n 3; n 4], [PTranslate (mkPos 1 1) (mkV3 (f_of_isize fo_sym 2) (f_of_isize fo_sym 3) (f_of_isize fo_sym 4))], [n 5].
  split.
  - eapply pre_reaches_cons; [|constructor]. eapply pd_numbers; [constructor| |exact I].
    repeat econstructor.
  - intros E. vm_compute in E. discriminate E.
Qed.
