(** Consequences of the exact characterisation of the tokenizer. *)
From Coq Require Import Sorted.
From Verif Require Import Base TokModel LexSpec TokProofs NumProofs LexProofs.
Open Scope mon_scope.

(** ** Line ends *)
Lemma replace_crlf_spec s : lf_text s (replace_crlf s).
Proof.
  remember (length s) as n eqn:Hn. revert s Hn.
  induction n as [n IH] using lt_wf_ind. intros [|c t] ->; cbn [replace_crlf]; [constructor|].
  destruct (c =? c_cr)%N eqn:Hc.
  - apply N.eqb_eq in Hc. subst c. destruct t as [|d t'].
    + apply lt_char; [right; discriminate|constructor].
    + destruct (d =? c_lf)%N eqn:Hd.
      * apply N.eqb_eq in Hd. subst d. apply lt_pair. eapply IH; [|reflexivity]. cbn; lia.
      * apply N.eqb_neq in Hd. apply lt_char; [right; intros s' [= E _]; congruence|]. eapply IH; [|reflexivity]. cbn; lia.
  - apply N.eqb_neq in Hc. apply lt_char; [now left|]. eapply IH; [|reflexivity]. cbn; lia.
Qed.

Lemma lf_text_det s t t' : lf_text s t -> lf_text s t' -> t = t'.
Proof.
  intros H. revert t'. induction H as [|s t H IH|c s t Hc H IH]; intros t' H'.
  - now inversion H'.
  - inversion H' as [|? ? H1|? ? ? [Hc|Hc] H1]; subst; [f_equal; auto|congruence|now elim (Hc s)].
  - inversion H' as [|? ? H1 E1|? ? ? Hc' H1]; subst; [|f_equal; auto].
    destruct Hc as [Hc|Hc]; [congruence|now elim (Hc s0)].
Qed.
Lemma lf_text_iff s t : lf_text s t <-> t = replace_crlf s.
Proof.
  split; [intros H; eapply lf_text_det; [exact H|apply replace_crlf_spec]|intros ->; apply replace_crlf_spec].
Qed.

Lemma no_pair_tail c s : no_pair (c :: s) -> no_pair s.
Proof. intros H a b E. apply (H (c :: a) b). cbn. now rewrite E. Qed.
Lemma no_pair_lf_text s : no_pair s -> lf_text s s.
Proof.
  induction s as [|c s IH]; intros H; [constructor|]. apply lt_char; [|apply IH; eauto using no_pair_tail].
  destruct (N.eq_dec c c_cr) as [->|Hc]; [|now left]. right. intros s' ->. now elim (H [] s').
Qed.
Lemma to_crlf_lf_text s : no_pair s -> lf_text (to_crlf s) s.
Proof.
  induction s as [|c s IH]; intros H; cbn [to_crlf]; [constructor|].
  pose proof (IH (no_pair_tail _ _ H)) as IH'. destruct (c =? c_lf)%N eqn:Hc.
  - apply N.eqb_eq in Hc. subst c. now apply lt_pair.
  - apply N.eqb_neq in Hc. apply lt_char; [|assumption]. right. intros s' E. destruct s as [|d s]; [discriminate|].
    cbn [to_crlf] in E. destruct (d =? c_lf)%N eqn:Hd; [discriminate|]. apply N.eqb_neq in Hd. injection E as E _. congruence.
Qed.
Lemma to_crlf_replace s : no_pair s -> replace_crlf (to_crlf s) = replace_crlf s.
Proof.
  intros H. transitivity s; [symmetry|]; apply lf_text_iff; [now apply to_crlf_lf_text|now apply no_pair_lf_text].
Qed.
Lemma to_crlf_tokenize {F} (fo : FloatOps F) cc chk s : no_pair s -> tokenize fo cc chk (to_crlf s) = tokenize fo cc chk s.
Proof. intros H. unfold tokenize, tk_new. now rewrite to_crlf_replace. Qed.

(** Concatenation of texts, the boundary not being a CR LF pair. *)
Lemma lf_text_app a a' b b' : lf_text a a' -> lf_text b b' ->
  (forall x y, a = x ++ [c_cr] -> b = c_lf :: y -> False) -> lf_text (a ++ b) (a' ++ b').
Proof.
  intros H Hb. induction H as [|s t H IH|c s t Hc H IH]; intros Hn; cbn [app]; [assumption| |].
  - apply lt_pair, IH. intros x y -> ->. eapply (Hn (c_cr :: c_lf :: x)); reflexivity.
  - apply lt_char.
    + destruct Hc as [Hc|Hc]; [now left|]. destruct (N.eq_dec c c_cr) as [->|Hc']; [right|now left].
      intros s' E. destruct s as [|d s]; cbn [app] in E.
      * subst b. eapply (Hn []); reflexivity.
      * injection E as -> _. now elim (Hc s).
    + apply IH. intros x y -> ->. eapply (Hn (c :: x)); reflexivity.
Qed.
Lemma replace_crlf_app a b : ~ ends_cr a -> replace_crlf (a ++ b) = replace_crlf a ++ replace_crlf b.
Proof.
  intros H. symmetry. apply lf_text_iff. apply lf_text_app; try apply replace_crlf_spec.
  intros x y -> _. apply H. now exists x.
Qed.
Lemma replace_crlf_app_ne a c b : c <> c_lf -> replace_crlf (a ++ c :: b) = replace_crlf a ++ replace_crlf (c :: b).
Proof.
  intros H. symmetry. apply lf_text_iff. apply lf_text_app; try apply replace_crlf_spec.
  intros x y _ [= E _]. congruence.
Qed.
Lemma replace_crlf_lf b : replace_crlf (c_lf :: b) = c_lf :: replace_crlf b.
Proof. reflexivity. Qed.
Lemma replace_crlf_id s : ~ In c_cr s -> replace_crlf s = s.
Proof.
  intros H. symmetry. apply lf_text_iff. apply no_pair_lf_text. intros a b ->. apply H. rewrite in_app_iff. right. now left.
Qed.
Lemma replace_crlf_count s : count_occ N.eq_dec (replace_crlf s) c_lf = count_occ N.eq_dec s c_lf.
Proof.
  pose proof (replace_crlf_spec s) as H. revert H. generalize (replace_crlf s). intros t H.
  induction H as [|s t H IH|c s t Hc H IH]; [reflexivity| |].
  - change (count_occ N.eq_dec (c_lf :: t) c_lf = count_occ N.eq_dec (c_cr :: c_lf :: s) c_lf).
    rewrite (count_occ_cons_neq N.eq_dec _ (x := c_cr)) by discriminate. now rewrite !count_occ_cons_eq, IH.
  - destruct (N.eq_dec c c_lf) as [->|Hn]; [now rewrite !count_occ_cons_eq, IH|now rewrite !count_occ_cons_neq, IH].
Qed.

Section Thms.
Context {F : Type} (fo : FloatOps F) (cc : CharClass) (Hcc : cc_ok cc).

Lemma tokenize_grammar chk input toks :
  tokenize fo cc chk input = Done (Ok toks) <-> exists t, lf_text input t /\ lexes fo cc chk [] t toks.
Proof.
  rewrite tokenize_ok_iff by assumption. split.
  - intros H. exists (replace_crlf input). split; [apply replace_crlf_spec|assumption].
  - intros (t & Ht & H). apply lf_text_iff in Ht. now subst t.
Qed.
Lemma tokenize_panics chk input :
  tokenize fo cc chk input = Panic <-> chk = true /\ exists t, lf_text input t /\ lex_overflows fo cc t.
Proof.
  rewrite tokenize_panic_iff by assumption. split.
  - intros [H1 H]. split; [assumption|]. exists (replace_crlf input). split; [apply replace_crlf_spec|assumption].
  - intros (H1 & t & Ht & H). apply lf_text_iff in Ht. now subst t.
Qed.

(** ** No letter e, no panic *)
Lemma number_overflows_e text rest : number_overflows fo cc text rest -> In c_e text.
Proof. intros H; induction H; rewrite !in_app_iff; right; right; now left. Qed.
Lemma lex_overflows_e t : lex_overflows fo cc t -> In c_e t.
Proof.
  induction 1 as [c s Hw H IH|body s Hb H IH|text ty s Hx H IH|text s H].
  - now right.
  - right. rewrite in_app_iff. right. now right.
  - rewrite in_app_iff. now right.
  - rewrite in_app_iff. left. eapply number_overflows_e; eauto.
Qed.
Lemma lf_text_in s t c : lf_text s t -> In c t -> In c s.
Proof.
  induction 1 as [|s t H IH|d s t Hc H IH]; cbn; [tauto| |]; intuition.
Qed.
Lemma no_e_no_panic chk input : ~ In c_e input -> tokenize fo cc chk input <> Panic.
Proof.
  intros H E. apply tokenize_panics in E as (_ & t & Ht & Ho). apply H. eapply lf_text_in; [exact Ht|].
  now apply lex_overflows_e.
Qed.

(** ** Positions *)
Lemma until_lf_app a b : ~ In c_lf a -> until_lf (a ++ b) = length a + until_lf b.
Proof.
  induction a as [|c a IH]; intros H; cbn; [reflexivity|]. destruct (c =? c_lf)%N eqn:Hc.
  - apply N.eqb_eq in Hc. elim H. now left.
  - cbn. rewrite IH; [reflexivity|]. intros H'. apply H. now right.
Qed.
Lemma pos_lt_trans p q r : pos_lt p q -> pos_lt q r -> pos_lt p r.
Proof. unfold pos_lt. lia. Qed.
Lemma pos_lt_irrefl p : ~ pos_lt p p.
Proof. unfold pos_lt. lia. Qed.
Lemma pos_of_snoc_lt pre c : pos_lt (pos_of pre) (pos_of (pre ++ [c])).
Proof.
  unfold pos_lt, pos_of, row_of, col_of; cbn [pos_r pos_c]. rewrite until_lf_snoc, count_occ_app. cbn [count_occ].
  destruct (N.eq_dec c c_lf) as [->|Hc]; [rewrite N.eqb_refl; lia|]. apply N.eqb_neq in Hc. rewrite Hc. lia.
Qed.
Lemma pos_of_app_lt pre t : t <> [] -> pos_lt (pos_of pre) (pos_of (pre ++ t)).
Proof.
  revert pre. induction t as [|c t IH]; intros pre H; [congruence|]. destruct t as [|d t]; [apply pos_of_snoc_lt|].
  eapply pos_lt_trans; [apply (pos_of_snoc_lt pre c)|]. change (c :: d :: t) with ([c] ++ d :: t). rewrite (app_assoc pre [c]).
  apply IH. discriminate.
Qed.

Lemma lexes_tokens chk pre s toks : lexes fo cc chk pre s toks ->
  Forall (fun k => exists sk text rest, s = sk ++ text ++ rest /\ lexeme fo cc chk text (tok_ty k) rest /\
                       tok_pos k = pos_of (pre ++ sk)) toks.
Proof.
  induction 1 as [pre|pre c s toks Hw H IH|pre body s toks Hb H IH|pre body Hb|pre text ty s toks Hx H IH].
  - constructor.
  - eapply Forall_impl; [|exact IH]. intros k (sk & text & rest & -> & Hx & Hp).
    exists (c :: sk), text, rest. rewrite <- app_assoc in Hp. auto.
  - eapply Forall_impl; [|exact IH]. intros k (sk & text & rest & -> & Hx & Hp).
    exists (c_hash :: body ++ c_lf :: sk), text, rest. cbn [app]. rewrite <- !app_assoc. cbn [app].
    split; [reflexivity|]. split; [assumption|]. rewrite Hp. f_equal. rewrite <- !app_assoc. cbn [app]. now rewrite <- app_assoc.
  - constructor.
  - constructor.
    + exists [], text, s. rewrite app_nil_r. auto.
    + eapply Forall_impl; [|exact IH]. intros k (sk & text' & rest & -> & Hx' & Hp).
      exists (text ++ sk), text', rest. rewrite <- !app_assoc. rewrite <- app_assoc in Hp. auto.
Qed.

Lemma lexeme_nonempty chk text ty rest : lexeme fo cc chk text ty rest -> text <> [].
Proof. intros H. destruct (lexeme_start fo cc _ _ _ _ H) as (c & u & -> & _). discriminate. Qed.

Lemma lexes_sorted chk pre s toks : lexes fo cc chk pre s toks ->
  StronglySorted pos_lt (map tok_pos toks) /\ Forall (fun p => p = pos_of pre \/ pos_lt (pos_of pre) p) (map tok_pos toks).
Proof.
  assert (Step : forall pre t l, t <> [] -> Forall (fun p => p = pos_of (pre ++ t) \/ pos_lt (pos_of (pre ++ t)) p) l ->
     Forall (fun p => pos_lt (pos_of pre) p) l).
  { intros p t l Ht Hl. eapply Forall_impl; [|exact Hl]. intros q [->|Hq]; [now apply pos_of_app_lt|].
    eapply pos_lt_trans; [|exact Hq]. now apply pos_of_app_lt. }
  assert (Weak : forall pre l, Forall (fun p => pos_lt (pos_of pre) p) l ->
     Forall (fun p => p = pos_of pre \/ pos_lt (pos_of pre) p) l).
  { intros p l Hl. eapply Forall_impl; [|exact Hl]. auto. }
  induction 1 as [pre|pre c s toks Hw H [IH1 IH2]|pre body s toks Hb H [IH1 IH2]|pre body Hb|pre text ty s toks Hx H [IH1 IH2]].
  - split; constructor.
  - split; [assumption|]. apply Weak. eapply Step; [|exact IH2]. discriminate.
  - split; [assumption|]. apply Weak. eapply Step; [|exact IH2]. discriminate.
  - split; constructor.
  - assert (Forall (fun p => pos_lt (pos_of pre) p) (map tok_pos toks)) as Hl.
    { eapply Step; [|exact IH2]. eapply lexeme_nonempty; eauto. }
    cbn [map tok_pos]. split; constructor; auto.
Qed.

Lemma tokenize_positions chk input toks : tokenize fo cc chk input = Done (Ok toks) ->
  StronglySorted pos_lt (map tok_pos toks) /\
  exists t, lf_text input t /\
    Forall (fun k => exists pre text rest, t = pre ++ text ++ rest /\ lexeme fo cc chk text (tok_ty k) rest /\
                       tok_pos k = pos_of pre) toks.
Proof.
  intros H. apply tokenize_grammar in H as (t & Ht & H). split; [exact (proj1 (lexes_sorted _ _ _ _ H))|].
  exists t. split; [assumption|]. exact (lexes_tokens _ _ _ _ H).
Qed.

(** ** Texts one after the other *)
Lemma ws_stops c r : is_whitespace c = true -> next_is (fun c => is_numeric cc c = false /\ c <> c_dot /\ c <> c_e) (c :: r).
Proof.
  intros H. cbn. split; [now apply (cc_ws_num cc Hcc)|]. split; intros ->; discriminate.
Qed.
Lemma ws_not_alnum c : is_whitespace c = true -> is_alphanumeric cc c = false.
Proof. intros H. unfold is_alphanumeric. now rewrite (cc_ws_num cc Hcc), (cc_ws_alpha cc Hcc). Qed.
Lemma next_is_app P s r : next_is P s -> s <> [] -> next_is P (s ++ r).
Proof. destruct s; [congruence|trivial]. Qed.
Lemma number_rest_any chk text v s : number fo cc chk text v s ->
  forall r, (s = [] -> next_is (fun c => is_numeric cc c = false /\ c <> c_dot /\ c <> c_e) r) -> number fo cc chk text v (s ++ r).
Proof.
  intros H r Hr. induction H.
  - eapply nu_int; eauto. destruct rest; cbn [app]; auto.
  - eapply nu_dec; eauto. destruct rest; cbn [app]; auto.
  - eapply nu_int_exp; eauto.
  - eapply nu_dec_exp; eauto.
  - eapply nu_float_exp; eauto.
Qed.
Lemma lexeme_app chk text ty s : lexeme fo cc chk text ty s -> forall c r, is_whitespace c = true ->
  lexeme fo cc chk text ty (s ++ c :: r).
Proof.
  intros [r0|r0|src v r0 Hb|t r0 Hi|t v r0 Hu] c r Hw.
  - constructor.
  - constructor.
  - now constructor.
  - apply lx_ident. destruct Hi as (c0 & t0 & -> & H1 & H2 & H3 & H4). exists c0, t0.
    split; [reflexivity|]. do 3 (split; [assumption|]). destruct r0; cbn [app]; [|assumption]. cbn. now apply ws_not_alnum.
  - apply lx_num. apply number_rest_any; [assumption|]. intros ->. now apply ws_stops.
Qed.

(** [a] does not end inside a comment. *)
Lemma noc_suffix a b : no_open_comment (a ++ b) -> no_open_comment b.
Proof. intros H x body E. apply (H (a ++ x)). rewrite E. apply app_assoc. Qed.

Lemma lexes_app chk pre a ta : lexes fo cc chk pre a ta -> forall c b t, is_whitespace c = true ->
  (c = c_lf \/ no_open_comment a) ->
  (lexes fo cc chk pre (a ++ c :: b) t <-> exists tb, t = ta ++ tb /\ lexes fo cc chk (pre ++ a) (c :: b) tb).
Proof.
  induction 1 as [pre|pre d s toks Hw H IH|pre body s toks Hb H IH|pre body Hb|pre text ty s toks Hx H IH];
    intros c b t Hc Ho.
  - cbn [app]. rewrite app_nil_r. split; [eauto|]. intros (tb & -> & Hl). exact Hl.
  - cbn [app]. rewrite lexes_ws by assumption. rewrite IH; [|assumption|].
    + rewrite <- app_assoc. reflexivity.
    + destruct Ho as [Ho|Ho]; [now left|right]. now apply (noc_suffix [d]).
  - cbn [app]. rewrite <- app_assoc. cbn [app]. rewrite lexes_comment by assumption. rewrite IH; [|assumption|].
    + replace (pre ++ c_hash :: body ++ c_lf :: s) with ((pre ++ c_hash :: body ++ [c_lf]) ++ s).
      * reflexivity.
      * rewrite <- app_assoc. cbn [app]. now rewrite <- app_assoc.
    + destruct Ho as [Ho|Ho]; [now left|right]. apply (noc_suffix (c_hash :: body ++ [c_lf])).
      cbn [app]. now rewrite <- app_assoc.
  - destruct Ho as [->|Ho]; [|elim Hb; apply (Ho [] body); reflexivity].
    cbn [app]. rewrite lexes_comment by assumption. cbn [app]. split.
    + intros Hl. exists t. split; [reflexivity|]. rewrite lexes_ws by assumption. rewrite <- app_assoc. exact Hl.
    + intros (tb & -> & Hl). rewrite lexes_ws in Hl by assumption. rewrite <- app_assoc in Hl. exact Hl.
  - rewrite <- app_assoc. rewrite (lexes_lexeme fo cc Hcc chk pre text ty (s ++ c :: b)) by (apply lexeme_app; assumption). split.
    + intros (t' & -> & Hl). rewrite IH in Hl; [|assumption|].
      * destruct Hl as (tb & -> & Hl). exists tb. split; [reflexivity|]. rewrite <- app_assoc in Hl. exact Hl.
      * destruct Ho as [Ho|Ho]; [now left|right]. now apply (noc_suffix text).
    + intros (tb & -> & Hl). exists (toks ++ tb). split; [reflexivity|]. rewrite IH; [|assumption|].
      * exists tb. split; [reflexivity|]. rewrite <- app_assoc. exact Hl.
      * destruct Ho as [Ho|Ho]; [now left|right]. now apply (noc_suffix text).
Qed.

(** Positions shift by whole lines. *)
Lemma until_lf_hit x y : until_lf (x ++ c_lf :: y) = until_lf x.
Proof. induction x as [|c x IH]; cbn; [reflexivity|]. destruct (c =? c_lf)%N; [reflexivity|]. now rewrite IH. Qed.
Lemma pos_of_down a x : pos_of (a ++ c_lf :: x) = down (1 + count_occ N.eq_dec a c_lf) (pos_of x).
Proof.
  unfold pos_of, down, row_of, col_of; cbn [pos_r pos_c]. f_equal.
  - rewrite count_occ_app, count_occ_cons_eq by reflexivity. lia.
  - rewrite rev_app_distr. cbn [rev]. rewrite <- app_assoc. cbn [app]. now rewrite until_lf_hit.
Qed.
Lemma lexes_down chk a x s toks : lexes fo cc chk x s toks ->
  lexes fo cc chk (a ++ c_lf :: x) s (map (tok_down (1 + count_occ N.eq_dec a c_lf)) toks).
Proof.
  induction 1 as [pre|pre c s toks Hw H IH|pre body s toks Hb H IH|pre body Hb|pre text ty s toks Hx H IH]; cbn [map].
  - constructor.
  - constructor; [assumption|]. now rewrite <- app_assoc.
  - constructor; [assumption|]. now rewrite <- app_assoc.
  - now constructor.
  - unfold tok_down at 1. cbn [tok_pos tok_ty]. rewrite <- pos_of_down. apply ls_token; [assumption|].
    now rewrite <- app_assoc.
Qed.
Lemma lexes_up chk pre s toks : lexes fo cc chk pre s toks -> forall a x, pre = a ++ c_lf :: x ->
  exists t0, lexes fo cc chk x s t0 /\ toks = map (tok_down (1 + count_occ N.eq_dec a c_lf)) t0.
Proof.
  induction 1 as [pre|pre c s toks Hw H IH|pre body s toks Hb H IH|pre body Hb|pre text ty s toks Hx H IH];
    intros a x ->.
  - exists []. split; constructor.
  - destruct (IH a (x ++ [c])) as (t0 & H0 & E); [now rewrite <- app_assoc|]. exists t0. split; [now constructor|assumption].
  - destruct (IH a (x ++ c_hash :: body ++ [c_lf])) as (t0 & H0 & E); [now rewrite <- app_assoc|].
    exists t0. split; [now constructor|assumption].
  - exists []. split; [now constructor|reflexivity].
  - destruct (IH a (x ++ text)) as (t0 & H0 & E); [now rewrite <- app_assoc|].
    exists (mkTok (pos_of x) ty :: t0). split; [now constructor|]. cbn [map]. rewrite E. f_equal.
    unfold tok_down. cbn [tok_pos tok_ty]. now rewrite pos_of_down.
Qed.

Lemma tokenize_concat chk a ta b : ~ ends_cr a -> tokenize fo cc chk a = Done (Ok ta) ->
  forall t, tokenize fo cc chk (a ++ c_lf :: b) = Done (Ok t) <->
    exists tb, tokenize fo cc chk b = Done (Ok tb) /\ t = ta ++ map (tok_down (lines a)) tb.
Proof.
  intros Hn Ha t. rewrite tokenize_ok_iff in * by assumption. rewrite replace_crlf_app by assumption.
  rewrite replace_crlf_lf. rewrite (lexes_app _ _ _ _ Ha) by (auto; reflexivity). cbn [app]. unfold lines.
  rewrite <- (replace_crlf_count a). split.
  - intros (tb & -> & H). rewrite lexes_ws in H by (auto; reflexivity).
    destruct (lexes_up _ _ _ _ H (replace_crlf a) []) as (t0 & H0 & ->); [reflexivity|].
    exists t0. rewrite tokenize_ok_iff by assumption. auto.
  - intros (tb & H & ->). rewrite tokenize_ok_iff in H by assumption. eexists. split; [reflexivity|].
    rewrite lexes_ws by (auto; reflexivity). now apply (lexes_down _ (replace_crlf a) []).
Qed.

Lemma tokenize_err_iff chk input :
  (exists m, tokenize fo cc chk input = Done (Err (EStr m))) <->
  (forall toks, tokenize fo cc chk input <> Done (Ok toks)) /\ tokenize fo cc chk input <> Panic.
Proof.
  split; [intros [m ->]; split; [intros ?|]; discriminate|]. intros [H1 H2].
  destruct (tokenize fo cc chk input) as [[toks|[m|]]| |] eqn:E; try congruence.
  - eauto.
  - now elim (tokenize_err_not_eof fo cc Hcc chk input).
  - now elim (tokenize_no_fuel fo cc Hcc chk input).
Qed.
Lemma not_both chk input toks : tokenize fo cc chk input = Done (Ok toks) ->
  chk = true -> lex_overflows fo cc (replace_crlf input) -> False.
Proof.
  intros H Hc Ho. assert (tokenize fo cc chk input = Panic) by (apply tokenize_panic_iff; auto). congruence.
Qed.

(** Overflow in the second of two texts. *)
Lemma overflows_app a pre ta : lexes fo cc true pre a ta -> forall c b, is_whitespace c = true ->
  (c = c_lf \/ no_open_comment a) -> (lex_overflows fo cc (a ++ c :: b) <-> lex_overflows fo cc (c :: b)).
Proof.
  induction 1 as [pre|pre d s toks Hw H IH|pre body s toks Hb H IH|pre body Hb|pre text ty s toks Hx H IH];
    intros c b Hc Ho.
  - reflexivity.
  - cbn [app]. rewrite overflows_ws by assumption. apply IH; [assumption|].
    destruct Ho as [Ho|Ho]; [now left|right]. now apply (noc_suffix [d]).
  - cbn [app]. rewrite <- app_assoc. cbn [app]. rewrite overflows_comment by assumption. apply IH; [assumption|].
    destruct Ho as [Ho|Ho]; [now left|right]. apply (noc_suffix (c_hash :: body ++ [c_lf])).
    cbn [app]. now rewrite <- app_assoc.
  - destruct Ho as [->|Ho]; [|elim Hb; apply (Ho [] body); reflexivity].
    cbn [app]. rewrite overflows_comment by assumption. now rewrite overflows_ws by (auto; reflexivity).
  - rewrite <- app_assoc. rewrite (overflows_lexeme fo cc Hcc text ty) by now apply lexeme_app. apply IH; [assumption|].
    destruct Ho as [Ho|Ho]; [now left|right]. now apply (noc_suffix text).
Qed.

Lemma tokenize_concat_panic chk a ta b : ~ ends_cr a -> tokenize fo cc chk a = Done (Ok ta) ->
  (tokenize fo cc chk (a ++ c_lf :: b) = Panic <-> tokenize fo cc chk b = Panic).
Proof.
  intros Hn Ha. rewrite !tokenize_panic_iff by assumption. rewrite tokenize_ok_iff in Ha by assumption.
  rewrite replace_crlf_app by assumption. rewrite replace_crlf_lf.
  split; intros [-> H]; (split; [reflexivity|]).
  - rewrite (overflows_app _ _ _ Ha) in H by (auto; reflexivity). now rewrite overflows_ws in H by (auto; reflexivity).
  - rewrite (overflows_app _ _ _ Ha) by (auto; reflexivity). now rewrite overflows_ws by (auto; reflexivity).
Qed.

Lemma tokenize_concat_err chk a ta b m : ~ ends_cr a -> tokenize fo cc chk a = Done (Ok ta) ->
  tokenize fo cc chk b = Done (Err (EStr m)) -> exists m', tokenize fo cc chk (a ++ c_lf :: b) = Done (Err (EStr m')).
Proof.
  intros Hn Ha Hb. apply tokenize_err_iff. split.
  - intros toks H. apply (tokenize_concat _ _ _ _ Hn Ha) in H as (tb & H & _). congruence.
  - intros H. rewrite (tokenize_concat_panic chk a ta b Hn Ha) in H. congruence.
Qed.

(** ** The first token *)
Lemma first_token chk text ty rest toks : lexeme fo cc chk text ty (replace_crlf rest) ->
  replace_crlf (text ++ rest) = text ++ replace_crlf rest ->
  (tokenize fo cc chk (text ++ rest) = Done (Ok toks) <->
   exists t', toks = mkTok (mkPos 1 1) ty :: t' /\ lexes fo cc chk text (replace_crlf rest) t').
Proof.
  intros Hx Hr. rewrite tokenize_ok_iff by assumption. rewrite Hr. rewrite lexes_lexeme by eauto. reflexivity.
Qed.
Lemma only_token chk text ty : lexeme fo cc chk text ty [] -> replace_crlf text = text ->
  tokenize fo cc chk text = Done (Ok [mkTok (mkPos 1 1) ty]).
Proof.
  intros Hx Hr. rewrite tokenize_ok_iff by assumption. rewrite Hr. rewrite <- (app_nil_r text).
  rewrite lexes_lexeme by eauto. exists []. split; [reflexivity|constructor].
Qed.

(** ** String literals *)
Lemma escape_body v : str_body (escape v) v.
Proof.
  induction v as [|c v IH]; cbn [escape]; [constructor|]. destruct (c =? c_lf)%N eqn:Hl.
  - apply N.eqb_eq in Hl. subst c. now constructor.
  - destruct ((c =? c_bslash) || (c =? c_quote))%N eqn:Hq.
    + apply sb_escape; [|assumption]. apply orb_true_iff in Hq as [H|H]; apply N.eqb_eq in H; subst c; discriminate.
    + apply orb_false_iff in Hq as [H1 H2]. apply N.eqb_neq in H1, H2. now constructor.
Qed.
Lemma escape_no_lf v : ~ In c_lf (escape v).
Proof.
  induction v as [|c v IH]; cbn [escape]; [tauto|]. destruct (c =? c_lf)%N eqn:Hl.
  - cbn. intuition discriminate.
  - apply N.eqb_neq in Hl. destruct ((c =? c_bslash) || (c =? c_quote))%N; cbn; intuition (try discriminate; auto).
Qed.
Lemma no_lf_replace s c r : ~ In c_lf s -> c <> c_lf -> replace_crlf (s ++ c :: r) = s ++ replace_crlf (c :: r).
Proof.
  intros H Hc. rewrite replace_crlf_app_ne by assumption. f_equal. symmetry. apply lf_text_iff. apply no_pair_lf_text.
  intros a b ->. apply H. rewrite in_app_iff. right. right. now left.
Qed.
Lemma literal_replace v rest : replace_crlf (literal v ++ rest) = literal v ++ replace_crlf rest.
Proof.
  unfold literal. cbn [app]. rewrite <- !app_assoc. cbn [app].
  change (replace_crlf (c_quote :: escape v ++ c_quote :: rest)) with (c_quote :: replace_crlf (escape v ++ c_quote :: rest)).
  rewrite no_lf_replace by (try apply escape_no_lf; discriminate). reflexivity.
Qed.
Lemma literal_lexeme chk v rest : lexeme fo cc chk (literal v) (TStr v) rest.
Proof. unfold literal. apply lx_str. apply escape_body. Qed.
Lemma literal_first chk v rest toks :
  tokenize fo cc chk (literal v ++ rest) = Done (Ok toks) <->
  exists t', toks = mkTok (mkPos 1 1) (TStr v) :: t' /\ lexes fo cc chk (literal v) (replace_crlf rest) t'.
Proof. apply first_token; [apply literal_lexeme|apply literal_replace]. Qed.

Lemma str_token_inv chk pre s toks : lexes fo cc chk pre (c_quote :: s) toks ->
  exists src v rest, s = src ++ c_quote :: rest /\ str_body src v.
Proof.
  intros H. destruct (lexes_cons fo cc chk pre c_quote s toks) as (text & ty & rest & t' & E & Hx & _ & _);
    [reflexivity|discriminate|assumption|].
  destruct (lexeme_start fo cc _ _ _ _ Hx) as (c & u & -> & _). cbn [app] in E. injection E as <- E.
  inversion Hx as [| |src v r Hb E'|? ? Hi E'|? ? ? Hu E']; subst.
  - exists src, v, rest. rewrite <- app_assoc. auto.
  - destruct Hi as (c0 & t0 & [= <- <-] & Ha & _). rewrite (cc_alpha_ascii cc Hcc) in Ha by reflexivity. discriminate.
  - destruct (number_start fo cc _ _ _ _ Hu) as (c0 & u0 & [= <- <-] & Hc).
    unfold starts_num in Hc. rewrite (cc_num_ascii cc Hcc) in Hc by reflexivity. discriminate.
Qed.
Lemma overflow_quote_inv s : lex_overflows fo cc (c_quote :: s) -> exists src v rest, s = src ++ c_quote :: rest /\ str_body src v.
Proof.
  intros H. destruct (overflows_cons fo cc c_quote s) as [(text & ty & rest & E & Hx & Ho)|(text & rest & E & Ho)];
    [reflexivity|discriminate|assumption| |].
  - destruct (lexeme_start fo cc _ _ _ _ Hx) as (c & u & -> & _). cbn [app] in E. injection E as <- E.
    inversion Hx as [| |src v r Hb E'|? ? Hi E'|? ? ? Hu E']; subst.
    + exists src, v, rest. rewrite <- app_assoc. auto.
    + destruct Hi as (c0 & t0 & [= <- <-] & Ha & _). rewrite (cc_alpha_ascii cc Hcc) in Ha by reflexivity. discriminate.
    + destruct (number_start fo cc _ _ _ _ Hu) as (c0 & u0 & [= <- <-] & Hc).
      unfold starts_num in Hc. rewrite (cc_num_ascii cc Hcc) in Hc by reflexivity. discriminate.
  - destruct (overflow_start fo cc _ _ Ho) as (c & u & -> & Hc). cbn [app] in E. injection E as <- _.
    unfold starts_num in Hc. rewrite (cc_num_ascii cc Hcc) in Hc by reflexivity. discriminate.
Qed.
Lemma unterminated_err chk s :
  (forall src v rest, replace_crlf s = src ++ c_quote :: rest -> ~ str_body src v) ->
  exists m, tokenize fo cc chk (c_quote :: s) = Done (Err (EStr m)).
Proof.
  intros H. apply tokenize_err_iff. change (c_quote :: s) with (c_quote :: s). split.
  - intros toks E. rewrite tokenize_ok_iff in E by assumption.
    change (replace_crlf (c_quote :: s)) with (c_quote :: replace_crlf s) in E.
    destruct (str_token_inv _ _ _ _ E) as (src & v & rest & E1 & Hb). eapply H; eauto.
  - intros E. apply tokenize_panic_iff in E as [_ E]; [|assumption].
    change (replace_crlf (c_quote :: s)) with (c_quote :: replace_crlf s) in E.
    destruct (overflow_quote_inv _ E) as (src & v & rest & E1 & Hb). eapply H; eauto.
Qed.

(** ** Integer literals *)
Lemma digits_mantissa ds : all_digits ds -> mantissa cc ds false.
Proof.
  intros H. cbn. eapply Forall_impl; [|exact H]. intros c Hc. cbn beta in Hc. rewrite (cc_num_ascii cc Hcc); [assumption|].
  unfold is_ascii_digit, c_0, c_9 in Hc. apply andb_true_iff in Hc as [_ Hc]. apply N.leb_le in Hc. lia.
Qed.
Lemma digit_not_cr c : is_ascii_digit c = true -> c <> c_cr.
Proof. intros H ->. discriminate. Qed.
Lemma int_text_no_cr sg neg ds : sign sg neg -> all_digits ds -> ~ In c_cr (sg ++ ds).
Proof.
  intros Hs Hd H. apply in_app_or in H as [H|H].
  - destruct Hs; cbn in H; intuition discriminate.
  - pose proof (proj1 (Forall_forall _ _) Hd _ H) as H0. discriminate.
Qed.
Lemma not_ends_cr a : ~ In c_cr a -> ~ ends_cr a.
Proof. intros H (x & ->). apply H. rewrite in_app_iff. right. now left. Qed.
Lemma next_is_replace (P : N -> Prop) rest : (forall c, P c -> c <> c_cr) \/ P c_lf -> next_is P rest -> next_is P (replace_crlf rest).
Proof.
  intros HP H. destruct rest as [|c rest]; [exact I|]. cbn in H. cbn [replace_crlf].
  destruct (c =? c_cr)%N eqn:Hc; [|exact H]. apply N.eqb_eq in Hc. subst c.
  destruct rest as [|d rest]; [exact H|]. destruct (d =? c_lf)%N; [|exact H].
  destruct HP as [HP|HP]; [now elim (HP c_cr)|exact HP].
Qed.
Lemma ends_number_replace rest : ends_number cc rest -> ends_number cc (replace_crlf rest).
Proof.
  apply next_is_replace. right. split; [|split; discriminate]. now rewrite (cc_num_ascii cc Hcc).
Qed.
Lemma int_literal_first chk sg neg ds rest toks : sign sg neg -> ds <> [] -> all_digits ds -> ends_number cc rest ->
  fits (signed neg (dec_val ds)) ->
  (tokenize fo cc chk (sg ++ ds ++ rest) = Done (Ok toks) <->
   exists t', toks = mkTok (mkPos 1 1) (TInt (signed neg (dec_val ds))) :: t' /\
              lexes fo cc chk (sg ++ ds) (replace_crlf rest) t').
Proof.
  intros Hs Hne Hd Hr Hf. rewrite app_assoc. apply first_token.
  - apply lx_num. eapply nu_int; [exact Hs|now apply digits_mantissa|repeat split; eauto; apply Hf|now apply ends_number_replace].
  - assert (Hn : ~ In c_cr (sg ++ ds)) by (eapply int_text_no_cr; eauto).
    rewrite replace_crlf_app by now apply not_ends_cr. now rewrite (replace_crlf_id (sg ++ ds)).
Qed.

Lemma mantissa_det body rest body' rest' :
  mantissa cc body false -> mantissa cc body' false ->
  next_is (fun c => is_numeric cc c = false) rest -> next_is (fun c => is_numeric cc c = false) rest' ->
  body ++ rest = body' ++ rest' -> body = body' /\ rest = rest'.
Proof.
  cbn. intros H. revert body'. induction H as [|c body Hc H IH]; intros body' H' Hr Hr' E.
  - destruct H' as [|c' body' Hc' H']; [auto|]. cbn in E. subst rest. cbn in Hr. congruence.
  - destruct H' as [|c' body' Hc' H']; cbn in E.
    + subst rest'. cbn in Hr'. congruence.
    + injection E as <- E. destruct (IH body' H' Hr Hr' E) as [-> ->]. auto.
Qed.

Lemma int_literal_too_big chk sg neg ds rest : sign sg neg -> ds <> [] -> all_digits ds -> ends_number cc rest ->
  ~ fits (signed neg (dec_val ds)) ->
  exists m, tokenize fo cc chk (sg ++ ds ++ rest) = Done (Err (EStr m)).
Proof.
  intros Hs Hne Hd Hr Hf.
  pose proof (digits_mantissa ds Hd) as Hm. pose proof (ends_number_replace _ Hr) as Hr'.
  assert (Hrep : replace_crlf (sg ++ ds ++ rest) = sg ++ ds ++ replace_crlf rest).
  { assert (Hn : ~ In c_cr (sg ++ ds)) by (eapply int_text_no_cr; eauto).
    rewrite app_assoc. rewrite replace_crlf_app by now apply not_ends_cr. rewrite (replace_crlf_id (sg ++ ds)) by assumption.
    now rewrite app_assoc. }
  set (r := replace_crlf rest) in *.
  destruct (start_of cc sg neg ds false r Hs Hm (or_intror Hne)) as (c & u & Hcu & Hc).
  (* the numeric prelude gives an error *)
  assert (Hbad : forall n pre, length ds < n ->
     exists m st, num_prelude (num_loop fo cc chk n) (mk pre (sg ++ ds ++ r)) = Done (Err (EStr m), st)).
  { intros n pre Hn. replace n with (length ds + S (n - length ds - 1)) by lia.
    rewrite prelude_mantissa with (neg := neg) (dot := false) by (auto; congruence).
    rewrite loop_stop by (auto; exact Hr').
    unfold num_finish. destruct (signed_chars neg ds) as [|x y] eqn:E;
      [apply signed_chars_nil in E as [_ E]; congruence|]. rewrite <- E.
    destruct (@parse_isize F (signed_chars neg ds)) as [v|e] eqn:Ep.
    - exfalso. destruct (parse_isize_inv (F := F) neg ds v (body_not_sign' cc Hcc ds false Hm) Ep) as (_ & _ & -> & Hv).
      now apply Hf.
    - destruct (err_str e) as [m ->]; [eapply parse_isize_err; eauto|]. eexists _, _. reflexivity. }
  apply tokenize_err_iff.
  assert (Hone : forall n pre, length (sg ++ ds ++ r) < n ->
     exists m st, tokenize_one fo cc chk (S n) (mk pre (sg ++ ds ++ r)) = Done (Err (EStr m), st)).
  { intros n pre Hn. rewrite Hcu. rewrite one_num by assumption. rewrite <- Hcu. apply Hbad.
    rewrite !app_length in Hn. lia. }
  split.
  - intros toks E. rewrite tokenize_ok_iff in E by assumption. rewrite Hrep in E. rewrite Hcu in E.
    destruct (lexes_cons fo cc chk [] c u toks) as (text & ty & rest' & t' & E' & Hx & _ & _);
      [now apply (starts_num_not_ws cc Hcc)| |assumption|].
    { intros ->. apply (starts_num_not_special cc Hcc) in Hc. apply Hc. now left. }
    rewrite <- Hcu in E'. destruct (Hone (S (length (text ++ rest'))) []) as (m & st & E1).
    { rewrite E'. lia. }
    rewrite E' in E1. rewrite (lexeme_complete fo cc Hcc _ _ _ _ Hx) in E1 by (rewrite app_length; lia). discriminate.
  - intros E. apply tokenize_panic_iff in E as [-> E]; [|assumption]. rewrite Hrep in E. rewrite Hcu in E.
    destruct (overflows_cons fo cc c u) as [(text & ty & rest' & E' & Hx & _)|(text & rest' & E' & Ho)];
      [now apply (starts_num_not_ws cc Hcc)| |assumption| |].
    { intros ->. apply (starts_num_not_special cc Hcc) in Hc. apply Hc. now left. }
    + rewrite <- Hcu in E'. destruct (Hone (S (length (text ++ rest'))) []) as (m & st & E1).
      { rewrite E'. lia. }
      rewrite E' in E1. rewrite (lexeme_complete fo cc Hcc _ _ _ _ Hx) in E1 by (rewrite app_length; lia). discriminate.
    + rewrite <- Hcu in E'. destruct (Hone (S (length (text ++ rest'))) []) as (m & st & E1).
      { rewrite E'. lia. }
      rewrite E' in E1. rewrite (overflow_one fo cc Hcc _ _ Ho) in E1 by (rewrite app_length; lia). discriminate.
Qed.

(** Every integer has a decimal numeral. *)
Lemma dec_val_snoc ds c : dec_val (ds ++ [c]) = (10 * dec_val ds + Z.of_N (c - c_0))%Z.
Proof. unfold dec_val. now rewrite fold_left_app. Qed.
Lemma digits_exist n : exists ds, ds <> [] /\ all_digits ds /\ dec_val ds = Z.of_N n.
Proof.
  induction n as [n IH] using (well_founded_ind N.lt_wf_0).
  destruct (N.lt_ge_cases n 10) as [Hs|Hb].
  - exists [(c_0 + n)%N]. split; [discriminate|]. split.
    + constructor; [|constructor]. unfold is_ascii_digit, c_0, c_9. apply andb_true_iff; split; apply N.leb_le; lia.
    + unfold dec_val; cbn. unfold c_0. lia.
  - destruct (IH (n / 10)%N) as (ds & Hne & Hd & Hv); [apply N.div_lt; lia|].
    exists (ds ++ [(c_0 + n mod 10)%N]). pose proof (N.mod_lt n 10 ltac:(lia)) as Hm. split; [now destruct ds|]. split.
    + apply Forall_app. split; [assumption|]. constructor; [|constructor].
      revert Hm. generalize (n mod 10)%N. intros d Hm.
      unfold is_ascii_digit, c_0, c_9. apply andb_true_iff; split; apply N.leb_le; lia.
    + rewrite dec_val_snoc, Hv. pose proof (N.div_mod n 10 ltac:(lia)) as Hdm. unfold c_0.
      revert Hm Hdm. generalize (n mod 10)%N (n / 10)%N. intros d q Hm Hdm. lia.
Qed.

(** ** Integers with an exponent *)
Lemma exp_literal chk sg neg ds sg' es : sign sg neg -> ds <> [] -> all_digits ds ->
  fits (signed neg (dec_val ds)) -> sign sg' false -> es <> [] -> all_digits es -> fits (dec_val es) ->
  forall v, int_exp chk (signed neg (dec_val ds)) (dec_val es) v ->
  tokenize fo cc chk (sg ++ ds ++ c_e :: sg' ++ es) = Done (Ok [mkTok (mkPos 1 1) (TInt v)]).
Proof.
  intros Hs Hne Hd Hf Hs' Hne' Hd' Hf' v Hv. apply only_token.
  - apply lx_num. eapply nu_int_exp; [exact Hs|now apply digits_mantissa|repeat split; eauto; apply Hf| | |exact Hv].
    + eapply nu_int; [exact Hs'|now apply digits_mantissa|repeat split; eauto; apply Hf'|exact I].
    + now apply dec_val_nonneg.
  - apply replace_crlf_id. rewrite app_assoc, in_app_iff. intros [H|[H|H]].
    + exact (int_text_no_cr sg neg ds Hs Hd H).
    + discriminate.
    + exact (int_text_no_cr sg' false es Hs' Hd' H).
Qed.

End Thms.
