(** The tokenizer against the lexical specification. *)
From Verif Require Import Base TokModel LexSpec TokProofs NumProofs.
Open Scope mon_scope.

Lemma app_inv_len {A} (a a' b b' : list A) : a ++ b = a' ++ b' -> length a = length a' -> a = a' /\ b = b'.
Proof.
  revert a'; induction a as [|x a IH]; intros [|y a'] He Hl; cbn in *; try lia; [auto|].
  injection He as -> He. destruct (IH a' He ltac:(lia)) as [-> ->]. auto.
Qed.

Section One.
Context {F : Type} (fo : FloatOps F) (cc : CharClass) (Hcc : cc_ok cc).

Notation one chk := (tokenize_one fo cc chk).

Definition special (c : char) : Prop := c = c_hash \/ c = c_quote \/ c = c_lbrack \/ c = c_rbrack.

Lemma starts_num_not_special c : starts_num cc c = true -> ~ special c.
Proof.
  unfold starts_num, special. intros H Hs.
  destruct Hs as [->|[->|[->| ->]]]; rewrite (cc_num_ascii cc Hcc) in H by reflexivity; discriminate.
Qed.
Lemma starts_num_not_ws c : starts_num cc c = true -> is_whitespace c = false.
Proof.
  unfold starts_num. intros H. destruct (is_whitespace c) eqn:Hw; [|reflexivity].
  rewrite (cc_ws_num cc Hcc) in H by assumption. rewrite orb_false_r in H.
  apply orb_true_iff in H as [H|H]; [apply orb_true_iff in H as [H|H]|]; apply N.eqb_eq in H; subst c; discriminate.
Qed.
Lemma alpha_not_special c : is_alphabetic cc c = true -> ~ special c.
Proof.
  unfold special. intros H Hs.
  destruct Hs as [->|[->|[->| ->]]]; rewrite (cc_alpha_ascii cc Hcc) in H by reflexivity; discriminate.
Qed.
Lemma alpha_not_ws c : is_alphabetic cc c = true -> is_whitespace c = false.
Proof.
  intros H. destruct (is_whitespace c) eqn:Hw; [|reflexivity].
  rewrite (cc_ws_alpha cc Hcc) in H by assumption. discriminate.
Qed.
Lemma ws_not_special c : is_whitespace c = true -> ~ special c.
Proof. unfold special. intros H Hs. destruct Hs as [->|[->|[->| ->]]]; discriminate. Qed.

Lemma starts_num_alpha c : starts_num cc c = true -> is_alphabetic cc c = true -> is_numeric cc c = true.
Proof.
  unfold starts_num. intros H Ha. apply orb_true_iff in H as [H|H]; [|assumption].
  apply orb_true_iff in H as [H|H]; [apply orb_true_iff in H as [H|H]|]; apply N.eqb_eq in H; subst c;
    rewrite (cc_alpha_ascii cc Hcc) in Ha by reflexivity; discriminate.
Qed.

Lemma not_special c : ~ special c ->
  (c =? c_hash)%N = false /\ (c =? c_quote)%N = false /\ (c =? c_lbrack)%N = false /\ (c =? c_rbrack)%N = false.
Proof. unfold special. rewrite !N.eqb_neq. tauto. Qed.

(** Dispatch on the first character. *)
Lemma one_num chk n pre c s : starts_num cc c = true ->
  one chk (S n) (mk pre (c :: s)) = num_prelude (num_loop fo cc chk n) (mk pre (c :: s)).
Proof.
  intros H. pose proof (not_special c (starts_num_not_special c H)) as (H1 & H2 & H3 & H4).
  cbn [tokenize_one]. tk_step. rewrite H1, H2, H3, H4, H. reflexivity.
Qed.
Lemma one_ws chk n pre c s : is_whitespace c = true ->
  one chk (S n) (mk pre (c :: s)) = (_ <-? skip_ws n ;; one chk n) (mk pre (c :: s)).
Proof.
  intros H. pose proof (not_special c (ws_not_special c H)) as (H1 & H2 & H3 & H4).
  cbn [tokenize_one]. tk_step. rewrite H1, H2, H3, H4.
  destruct (starts_num cc c) eqn:Hn; [apply starts_num_not_ws in Hn; congruence|]. now rewrite H.
Qed.
Lemma one_alpha chk n pre c s : is_alphabetic cc c = true -> starts_num cc c = false ->
  one chk (S n) (mk pre (c :: s)) = tokenize_id cc n (mk pre (c :: s)).
Proof.
  intros H Hs. pose proof (not_special c (alpha_not_special c H)) as (H1 & H2 & H3 & H4).
  cbn [tokenize_one]. tk_step. rewrite H1, H2, H3, H4, Hs, alpha_not_ws, H by assumption. reflexivity.
Qed.
Lemma one_quote chk n pre s :
  one chk (S n) (mk pre (c_quote :: s)) = str_loop n (pos_of pre) [] (mk (pre ++ [c_quote]) s).
Proof.
  cbn [tokenize_one]. tk_step. change (c_quote =? c_hash)%N with false. cbv iota. rewrite N.eqb_refl.
  unfold tokenize_str. tk_step. tk_step. reflexivity.
Qed.
Lemma one_hash chk n pre s :
  one chk (S n) (mk pre (c_hash :: s)) = (_ <- skip_comment (F := F) n ;; one chk n) (mk pre (c_hash :: s)).
Proof. cbn [tokenize_one]. tk_step. rewrite N.eqb_refl. reflexivity. Qed.
Lemma one_lbrack chk n pre s :
  one chk (S n) (mk pre (c_lbrack :: s)) = Done (Ok (mkTok (pos_of pre) TLBracket), mk (pre ++ [c_lbrack]) s).
Proof.
  cbn [tokenize_one]. tk_step. change (c_lbrack =? c_hash)%N with false. change (c_lbrack =? c_quote)%N with false.
  rewrite N.eqb_refl. tk_step. tk_step. reflexivity.
Qed.
Lemma one_rbrack chk n pre s :
  one chk (S n) (mk pre (c_rbrack :: s)) = Done (Ok (mkTok (pos_of pre) TRBracket), mk (pre ++ [c_rbrack]) s).
Proof.
  cbn [tokenize_one]. tk_step. change (c_rbrack =? c_hash)%N with false. change (c_rbrack =? c_quote)%N with false.
  change (c_rbrack =? c_lbrack)%N with false.
  rewrite N.eqb_refl. tk_step. tk_step. reflexivity.
Qed.

(** First characters of numbers. *)
Lemma start_of sg neg body dot t :
  sign sg neg -> mantissa cc body dot -> sg <> [] \/ body <> [] ->
  exists c u, sg ++ body ++ t = c :: u /\ starts_num cc c = true.
Proof.
  intros Hs Hm Hne. destruct Hs as [| |]; cbn [app].
  - destruct body as [|c u]; [tauto|]. exists c, (u ++ t). split; [reflexivity|].
    unfold starts_num. destruct dot; cbn in Hm.
    + destruct Hm as (a & b & He & Hab). destruct a as [|c' a]; cbn in He; injection He as -> ->; [reflexivity|].
      inversion Hab as [|? ? H ?]; subst. rewrite H. now rewrite orb_true_r.
    + inversion Hm as [|? ? H ?]; subst. rewrite H. now rewrite orb_true_r.
  - do 2 eexists. split; reflexivity.
  - do 2 eexists. split; reflexivity.
Qed.
Lemma number_start chk text v rest : number fo cc chk text v rest ->
  exists c u, text = c :: u /\ starts_num cc c = true.
Proof.
  intros [sg neg body v' rest' Hs Hm (Hne & _) Hn
                 |sg neg body m k rest' Hs Hm Hd Hn
                 |sg neg body m text' e v' rest' Hs Hm (Hne & _) H He Hv
                 |sg neg body dot m k text' e rest' Hs Hm Hd H He
                 |sg neg body dot m k text' f rest' Hs Hm Hd H].
  1,2: rewrite <- (app_nil_r body).
  all: eapply start_of; eauto.
  all: right; eapply dec_num_nonempty; eauto.
Qed.
Lemma overflow_start text rest : number_overflows fo cc text rest ->
  exists c u, text = c :: u /\ starts_num cc c = true.
Proof.
  intros [sg neg body m text' e rest' Hs Hm (Hne & _) H He Hn|sg neg body dot text' rest' Hs Hm Hne H];
    eapply start_of; eauto.
  destruct Hne as [->|Hne]; [left|now right]. now inversion Hs.
Qed.

Lemma lexeme_complete chk text ty rest : lexeme fo cc chk text ty rest ->
  forall n pre, length text < n ->
  one chk (S n) (mk pre (text ++ rest)) = Done (Ok (mkTok (pos_of pre) ty), mk (pre ++ text) rest).
Proof.
  intros H n pre Hn. destruct H as [rest|rest|src v rest Hb|text rest Hi|text v rest Hu].
  - apply one_lbrack.
  - apply one_rbrack.
  - cbn [app length] in *. rewrite app_length in Hn. cbn [length] in Hn. rewrite one_quote. rewrite <- app_assoc. cbn [app].
    rewrite (str_loop_ok n _ src v) by (assumption || lia). now rewrite <- app_assoc.
  - destruct Hi as (c & t & -> & Ha & Hnum & Ht & Hr). cbn [app length] in *.
    rewrite one_alpha; [|assumption|].
    + unfold tokenize_id. tk_step. tk_step.
      erewrite tryb_Ok by (apply id_loop_ok; [assumption|assumption|lia]). cbn [app].
      rewrite <- app_assoc. reflexivity.
    + destruct (starts_num cc c) eqn:Hs; [|reflexivity]. apply starts_num_alpha in Hs; congruence.
  - destruct (number_start _ _ _ _ Hu) as (c & u & Ht & Hc).
    pose proof (number_complete fo cc chk Hcc _ _ _ Hu n pre Hn) as Hd. rewrite Ht in *. cbn [app] in *.
    rewrite one_num by assumption. exact Hd.
Qed.

Lemma overflow_one text rest : number_overflows fo cc text rest ->
  forall n pre, length text < n -> one true (S n) (mk pre (text ++ rest)) = Panic.
Proof.
  intros H n pre Hn. destruct (overflow_start _ _ H) as (c & u & Ht & Hc).
  pose proof (overflow_complete fo cc Hcc _ _ H n pre Hn) as Hd. rewrite Ht in *. cbn [app] in *.
  rewrite one_num by assumption. exact Hd.
Qed.

Lemma mk_inj pre a b a' b' : a ++ b = a' ++ b' -> mk (pre ++ a) b = mk (pre ++ a') b' -> a = a' /\ b = b'.
Proof.
  intros He H. apply (f_equal tk_index) in H. cbn in H. rewrite !app_length in H.
  apply app_inv_len; [assumption|lia].
Qed.

Lemma done_inj {S} p (a b : TokenType F) (s s' : S) :
  Done (@Ok _ (error F) (mkTok p a), s) = Done (Ok (mkTok p b), s') -> a = b /\ s = s'.
Proof. intros H. injection H as -> ->. auto. Qed.

Lemma lexeme_det chk text ty rest text' ty' rest' :
  lexeme fo cc chk text ty rest -> lexeme fo cc chk text' ty' rest' -> text ++ rest = text' ++ rest' ->
  text = text' /\ ty = ty' /\ rest = rest'.
Proof.
  intros H H' He.
  pose proof (lexeme_complete _ _ _ _ H (S (length text + length text')) [] ltac:(lia)) as E.
  pose proof (lexeme_complete _ _ _ _ H' (S (length text + length text')) [] ltac:(lia)) as E'.
  rewrite He, E' in E. apply done_inj in E as [-> Hl].
  apply (mk_inj [] text' rest' text rest) in Hl as [-> ->]; auto.
Qed.

Lemma lexeme_not_overflow text ty rest text' rest' :
  lexeme fo cc true text ty rest -> number_overflows fo cc text' rest' -> text ++ rest = text' ++ rest' -> False.
Proof.
  intros H H' He.
  pose proof (lexeme_complete _ _ _ _ H (S (length text + length text')) [] ltac:(lia)) as E.
  pose proof (overflow_one _ _ H' (S (length text + length text')) [] ltac:(lia)) as E'.
  rewrite He, E' in E. discriminate.
Qed.

(** First characters of lexemes *)
Definition starts_lexeme (c : char) : bool :=
  ((c =? c_quote) || (c =? c_lbrack) || (c =? c_rbrack))%N || starts_num cc c || is_alphabetic cc c.

Lemma lexeme_start chk text ty rest : lexeme fo cc chk text ty rest ->
  exists c u, text = c :: u /\ starts_lexeme c = true.
Proof.
  intros [r|r|src v r Hb|t r Hi|t v r Hu].
  - exists c_lbrack, []. auto.
  - exists c_rbrack, []. auto.
  - exists c_quote. eexists. split; reflexivity.
  - destruct Hi as (c & u & -> & Ha & _). exists c, u. split; [reflexivity|]. unfold starts_lexeme. rewrite Ha.
    now rewrite orb_true_r.
  - destruct (number_start _ _ _ _ Hu) as (c & u & -> & Hc). exists c, u. split; [reflexivity|].
    unfold starts_lexeme. rewrite Hc. now rewrite orb_true_r.
Qed.

Lemma starts_lexeme_facts c : starts_lexeme c = true -> c <> c_hash /\ is_whitespace c = false.
Proof.
  unfold starts_lexeme. intros H. apply orb_true_iff in H as [H|H]; [apply orb_true_iff in H as [H|H]|].
  - apply orb_true_iff in H as [H|H]; [apply orb_true_iff in H as [H|H]|]; apply N.eqb_eq in H; subst c;
      split; (reflexivity || discriminate).
  - split; [|now apply starts_num_not_ws]. intros ->. apply starts_num_not_special in H. apply H. now left.
  - split; [|now apply alpha_not_ws]. intros ->. apply alpha_not_special in H. apply H. now left.
Qed.

Lemma app_cons_inv {A} (c : A) u a b : c :: u = a ++ b -> a = [] \/ exists a', a = c :: a' /\ u = a' ++ b.
Proof. destruct a as [|x a]; [now left|]. cbn. intros [= -> ->]. right. eauto. Qed.

Lemma lf_split_unique body s body' s' :
  ~ In c_lf body -> ~ In c_lf body' -> body ++ c_lf :: s = body' ++ c_lf :: s' -> body = body' /\ s = s'.
Proof.
  revert body'; induction body as [|c body IH]; intros [|c' body'] H H' He; cbn in *.
  - injection He as ->. auto.
  - exfalso. injection He as He _. subst c'. auto.
  - exfalso. injection He as He _. subst c. auto.
  - injection He as -> He. destruct (IH body' ltac:(tauto) ltac:(tauto) He) as [-> ->]. auto.
Qed.

(** Inversion of the specification by the first character. *)
Lemma lexes_ws chk pre c s t : is_whitespace c = true ->
  (lexes fo cc chk pre (c :: s) t <-> lexes fo cc chk (pre ++ [c]) s t).
Proof.
  intros Hw. split; [|now apply ls_space]. intros H. inversion H as [|? ? ? ? Hc Hl|? body ? ? Hb Hl|? body Hb|? text ty s' toks Hx Hl]; subst.
  - assumption.
  - discriminate.
  - discriminate.
  - destruct (lexeme_start _ _ _ _ Hx) as (c' & u & -> & Hc). cbn in *.
    match goal with H : _ = c :: s |- _ => injection H as -> _ end.
    apply starts_lexeme_facts in Hc. destruct Hc; congruence.
Qed.
Lemma overflows_ws c s : is_whitespace c = true -> (lex_overflows fo cc (c :: s) <-> lex_overflows fo cc s).
Proof.
  intros Hw. split; [|now apply lo_space]. intros H. inversion H as [? ? Hc Hl|body ? Hb Hl|text ty s' Hx Hl E|text s' Hx E]; subst.
  - assumption.
  - discriminate.
  - destruct (lexeme_start _ _ _ _ Hx) as (c' & u & -> & Hc). injection E as -> _.
    apply starts_lexeme_facts in Hc. destruct Hc; congruence.
  - destruct (overflow_start _ _ Hx) as (c' & u & -> & Hc). injection E as -> _.
    apply starts_num_not_ws in Hc. congruence.
Qed.

Lemma lexes_comment chk pre body s t : ~ In c_lf body ->
  (lexes fo cc chk pre (c_hash :: body ++ c_lf :: s) t <-> lexes fo cc chk (pre ++ c_hash :: body ++ [c_lf]) s t).
Proof.
  intros Hn. split; [|now apply ls_comment]. intros H.
  inversion H as [|? ? ? ? Hc Hl|? body' s' ? Hb Hl E|? body' Hb|? text ty s' toks Hx Hl E]; subst.
  - discriminate.
  - match goal with He : _ ++ c_lf :: _ = _ ++ c_lf :: _ |- _ => apply lf_split_unique in He as [-> ->]; assumption end.
  - exfalso. apply Hb. apply in_or_app. right. now left.
  - destruct (lexeme_start _ _ _ _ Hx) as (c' & u & -> & Hc). cbn in *.
    match goal with H : _ = c_hash :: _ |- _ => injection H as -> _ end.
    apply starts_lexeme_facts in Hc. destruct Hc; congruence.
Qed.
Lemma overflows_comment body s : ~ In c_lf body ->
  (lex_overflows fo cc (c_hash :: body ++ c_lf :: s) <-> lex_overflows fo cc s).
Proof.
  intros Hn. split; [|now apply lo_comment]. intros H.
  inversion H as [? ? Hc Hl|body' s' Hb Hl E|text ty s' Hx Hl E|text s' Hx E]; subst.
  - discriminate.
  - apply lf_split_unique in E as [-> ->]; assumption.
  - destruct (lexeme_start _ _ _ _ Hx) as (c' & u & -> & Hc). injection E as -> _.
    apply starts_lexeme_facts in Hc. destruct Hc; congruence.
  - destruct (overflow_start _ _ Hx) as (c' & u & -> & Hc). injection E as -> _.
    apply starts_num_not_special in Hc. exfalso. apply Hc. now left.
Qed.
Lemma lexes_comment_end chk pre body t : ~ In c_lf body ->
  (lexes fo cc chk pre (c_hash :: body) t <-> t = []).
Proof.
  intros Hn. split; [|intros ->; now apply ls_comment_end]. intros H.
  inversion H as [|? ? ? ? Hc Hl|? body' s' ? Hb Hl E|? body' Hb|? text ty s' toks Hx Hl E]; subst.
  - discriminate.
  - exfalso. apply Hn. apply in_or_app. right. now left.
  - reflexivity.
  - destruct (lexeme_start _ _ _ _ Hx) as (c' & u & -> & Hc). cbn in *.
    match goal with H : _ = c_hash :: _ |- _ => injection H as -> _ end.
    apply starts_lexeme_facts in Hc. destruct Hc; congruence.
Qed.
Lemma overflows_comment_end body : ~ In c_lf body -> ~ lex_overflows fo cc (c_hash :: body).
Proof.
  intros Hn H.
  inversion H as [? ? Hc Hl|body' s' Hb Hl E|text ty s' Hx Hl E|text s' Hx E]; subst.
  - discriminate.
  - apply Hn. apply in_or_app. right. now left.
  - destruct (lexeme_start _ _ _ _ Hx) as (c' & u & -> & Hc). injection E as -> _.
    apply starts_lexeme_facts in Hc. destruct Hc; congruence.
  - destruct (overflow_start _ _ Hx) as (c' & u & -> & Hc). injection E as -> _.
    apply starts_num_not_special in Hc. exfalso. apply Hc. now left.
Qed.

Lemma lexes_nil chk pre t : lexes fo cc chk pre [] t <-> t = [].
Proof.
  split; [|intros ->; constructor]. intros H. inversion H as [| | | |? text ty s' toks Hx Hl E]; subst; [reflexivity|].
  destruct (lexeme_start _ _ _ _ Hx) as (c' & u & -> & Hc). discriminate.
Qed.
Lemma overflows_nil : ~ lex_overflows fo cc [].
Proof.
  intros H. inversion H as [| |text ty s' Hx Hl E|text s' Hx E]; subst.
  - destruct (lexeme_start _ _ _ _ Hx) as (c' & u & -> & Hc). discriminate.
  - destruct (overflow_start _ _ Hx) as (c' & u & -> & Hc). discriminate.
Qed.

(** In front of a character that is neither white space nor starts a comment. *)
Lemma lexes_cons chk pre c s t : is_whitespace c = false -> c <> c_hash ->
  lexes fo cc chk pre (c :: s) t ->
  exists text ty rest t', c :: s = text ++ rest /\ lexeme fo cc chk text ty rest /\
     t = mkTok (pos_of pre) ty :: t' /\ lexes fo cc chk (pre ++ text) rest t'.
Proof.
  intros Hw Hc H. inversion H as [|? ? ? ? Hc' Hl|? body' s' ? Hb Hl E|? body' Hb|? text ty s' toks Hx Hl E]; subst;
    try congruence.
  exists text, ty, s', toks. auto.
Qed.
Lemma overflows_cons c s : is_whitespace c = false -> c <> c_hash ->
  lex_overflows fo cc (c :: s) ->
  (exists text ty rest, c :: s = text ++ rest /\ lexeme fo cc true text ty rest /\ lex_overflows fo cc rest)
  \/ (exists text rest, c :: s = text ++ rest /\ number_overflows fo cc text rest).
Proof.
  intros Hw Hc H. inversion H as [? ? Hc' Hl|body' s' Hb Hl E|text ty s' Hx Hl E|text s' Hx E]; subst; try congruence.
  - left. eauto 6.
  - right. eauto 6.
Qed.

Lemma lexes_lexeme chk pre text ty rest t : lexeme fo cc chk text ty rest ->
  (lexes fo cc chk pre (text ++ rest) t <->
   exists t', t = mkTok (pos_of pre) ty :: t' /\ lexes fo cc chk (pre ++ text) rest t').
Proof.
  intros Hx. split.
  - destruct (lexeme_start _ _ _ _ Hx) as (c & u & He & Hc). apply starts_lexeme_facts in Hc as [Hc Hw].
    intros H. rewrite He in H. cbn [app] in H. apply lexes_cons in H; [|assumption|assumption].
    destruct H as (text' & ty' & rest' & t' & He' & Hx' & -> & Hl).
    destruct (lexeme_det _ _ _ _ _ _ _ Hx Hx') as (-> & -> & ->); [rewrite He; exact He'|]. eauto.
  - intros (t' & -> & Hl). now apply ls_token.
Qed.
Lemma overflows_lexeme text ty rest : lexeme fo cc true text ty rest ->
  (lex_overflows fo cc (text ++ rest) <-> lex_overflows fo cc rest).
Proof.
  intros Hx. split; [|now apply (lo_token _ _ _ _ _ Hx)].
  destruct (lexeme_start _ _ _ _ Hx) as (c & u & He & Hc). apply starts_lexeme_facts in Hc as [Hc Hw].
  intros H. rewrite He in H. cbn [app] in H. apply overflows_cons in H; [|assumption|assumption].
  destruct H as [(text' & ty' & rest' & He' & Hx' & Hl)|(text' & rest' & He' & Ho)].
  - destruct (lexeme_det _ _ _ _ _ _ _ Hx Hx') as (-> & -> & ->); [rewrite He; exact He'|]. assumption.
  - exfalso. eapply lexeme_not_overflow; eauto. rewrite He. exact He'.
Qed.

(** *** What [tokenize_one] does *)
Definition one_outcome (chk : bool) (pre s : str) (o : out (result (Token F) (error F) * tokenizer)) : Prop :=
  (exists sk text ty rest, s = sk ++ text ++ rest /\ lexeme fo cc chk text ty rest /\
     (forall t, lexes fo cc chk pre s t <-> lexes fo cc chk (pre ++ sk) (text ++ rest) t) /\
     (lex_overflows fo cc s <-> lex_overflows fo cc (text ++ rest)) /\
     o = Done (Ok (mkTok (pos_of (pre ++ sk)) ty), mk (pre ++ sk ++ text) rest))
  \/ ((exists st, o = Done (Err EEof, st)) /\ (forall t, lexes fo cc chk pre s t <-> t = []) /\ ~ lex_overflows fo cc s)
  \/ ((exists m st, o = Done (Err (EStr m), st)) /\ (forall t, ~ lexes fo cc chk pre s t) /\
      (chk = true -> ~ lex_overflows fo cc s))
  \/ (chk = true /\ o = Panic /\ (forall t, ~ lexes fo cc chk pre s t) /\ lex_overflows fo cc s).

(** No lexeme at the current character: stuck. *)
Lemma stuck chk pre c s n o :
  is_whitespace c = false -> c <> c_hash -> length (c :: s) < n ->
  one chk (S n) (mk pre (c :: s)) = o ->
  (forall tok st, o <> Done (Ok tok, st)) ->
  (forall t, ~ lexes fo cc chk pre (c :: s) t) /\
  (chk = true -> o <> Panic -> ~ lex_overflows fo cc (c :: s)).
Proof.
  intros Hw Hc Hn Ho Hne. split.
  - intros t H. apply lexes_cons in H; [|assumption|assumption].
    destruct H as (text & ty & rest & t' & He & Hx & _ & _).
    rewrite He in Ho. rewrite (lexeme_complete _ _ _ _ Hx) in Ho; [exact (Hne _ _ (eq_sym Ho))|].
    apply (f_equal (@length _)) in He. rewrite app_length in He. lia.
  - intros -> Hp H. apply overflows_cons in H; [|assumption|assumption].
    destruct H as [(text & ty & rest & He & Hx & _)|(text & rest & He & Hx)]; rewrite He in Ho;
      apply (f_equal (@length _)) in He; rewrite app_length in He.
    + rewrite (lexeme_complete _ _ _ _ Hx) in Ho by lia. exact (Hne _ _ (eq_sym Ho)).
    + rewrite (overflow_one _ _ Hx) in Ho by lia. congruence.
Qed.

Lemma stuck_err chk pre c s n m st :
  is_whitespace c = false -> c <> c_hash -> length (c :: s) < n ->
  one chk (S n) (mk pre (c :: s)) = Done (Err (EStr m), st) ->
  one_outcome chk pre (c :: s) (one chk (S n) (mk pre (c :: s))).
Proof.
  intros Hw Hc Hn Ho. destruct (stuck chk pre c s n _ Hw Hc Hn Ho ltac:(discriminate)) as [H1 H2].
  right; right; left. split; [eauto|]. split; [assumption|]. intros H. apply H2; [assumption|discriminate].
Qed.

Lemma here chk pre text ty rest n :
  lexeme fo cc chk text ty rest -> length text < n ->
  one_outcome chk pre (text ++ rest) (one chk (S n) (mk pre (text ++ rest))).
Proof.
  intros Hx Hn. left. exists [], text, ty, rest. rewrite app_nil_r. cbn [app].
  split; [reflexivity|]. split; [assumption|]. split; [reflexivity|]. split; [reflexivity|].
  now apply lexeme_complete.
Qed.

Lemma one_outcome_skip chk pre sk s s0 o :
  s0 = sk ++ s ->
  (forall t, lexes fo cc chk pre s0 t <-> lexes fo cc chk (pre ++ sk) s t) ->
  (lex_overflows fo cc s0 <-> lex_overflows fo cc s) ->
  one_outcome chk (pre ++ sk) s o -> one_outcome chk pre s0 o.
Proof.
  intros -> Hl Ho.
  intros [(sk' & text & ty & rest & -> & Hx & Hl' & Ho' & ->)|[((st & ->) & Hl' & Ho')|[((m & st & ->) & Hl' & Ho')|(-> & -> & Hl' & Ho')]]].
  - left. exists (sk ++ sk'), text, ty, rest. rewrite <- !app_assoc in *.
    split; [reflexivity|]. split; [assumption|]. split; [|split].
    + intros t. rewrite Hl, Hl'. reflexivity.
    + now rewrite Ho.
    + reflexivity.
  - right; left. split; [eauto|]. split; [|tauto]. intros t. now rewrite Hl.
  - right; right; left. split; [eauto|]. split; [|tauto]. intros t. now rewrite Hl.
  - right; right; right. split; [reflexivity|]. split; [reflexivity|]. split; [|tauto]. intros t. now rewrite Hl.
Qed.

Lemma lexes_ws_run chk pre ws s t : Forall (fun c => is_whitespace c = true) ws ->
  (lexes fo cc chk pre (ws ++ s) t <-> lexes fo cc chk (pre ++ ws) s t).
Proof.
  revert pre; induction ws as [|c ws IH]; intros pre Hw; cbn [app]; [now rewrite app_nil_r|].
  inversion Hw; subst. rewrite lexes_ws by assumption. rewrite IH by assumption. now rewrite <- app_assoc.
Qed.
Lemma overflows_ws_run ws s : Forall (fun c => is_whitespace c = true) ws ->
  (lex_overflows fo cc (ws ++ s) <-> lex_overflows fo cc s).
Proof.
  induction ws as [|c ws IH]; intros Hw; cbn [app]; [reflexivity|].
  inversion Hw; subst. rewrite overflows_ws by assumption. now apply IH.
Qed.

Lemma one_total chk n : forall pre s, length s + 1 < n -> one_outcome chk pre s (one chk n (mk pre s)).
Proof.
  induction n as [n IHn] using lt_wf_ind. intros pre s Hn.
  destruct n as [|n]; [lia|]. destruct s as [|c s].
  { cbn [tokenize_one]. tk_step. right; left. split; [eexists; reflexivity|]. split; [apply lexes_nil|apply overflows_nil]. }
  cbn [length] in Hn.
  destruct (is_whitespace c) eqn:Hw.
  { destruct (span_pred is_whitespace (c :: s)) as (ws & r & He & Hws & Hr).
    assert (Hl : length ws + length r = S (length s)).
    { apply (f_equal (@length _)) in He. rewrite app_length in He. cbn in He. lia. }
    assert (Hpos : 0 < length ws).
    { destruct ws; cbn; [|lia]. cbn in He. subst r. cbn in Hr. congruence. }
    rewrite one_ws by assumption. rewrite He.
    erewrite tryb_Ok by (apply skip_ws_run; [assumption|assumption|lia]). cbv beta.
    eapply one_outcome_skip with (sk := ws); [reflexivity| | |].
    - intros t. now apply lexes_ws_run.
    - now apply overflows_ws_run.
    - apply IHn; lia. }
  destruct (N.eq_dec c c_hash) as [->|Hh].
  { rewrite one_hash. destruct (split_lf s) as [(body & rest & -> & Hb)|Hb].
    - rewrite app_length in Hn. cbn [length] in Hn.
      erewrite bind_Done.
      2:{ apply (skip_comment_lf n (c_hash :: body)); [|cbn [length]; lia]. intros [H|H]; [discriminate|tauto]. }
      cbv beta. eapply one_outcome_skip with (sk := (c_hash :: body) ++ [c_lf]); [cbn; now rewrite <- app_assoc| | |].
      + intros t. now apply lexes_comment.
      + now apply overflows_comment.
      + apply IHn; lia.
    - erewrite bind_Done.
      2:{ apply (skip_comment_eof n (c_hash :: s)); [|cbn [length]; lia]. intros [H|H]; [discriminate|tauto]. }
      cbv beta. destruct n as [|n]; [lia|]. cbn [tokenize_one]. tk_step.
      right; left. split; [eexists; reflexivity|]. split; [intros t; now apply lexes_comment_end|].
      now apply overflows_comment_end. }
  destruct (N.eq_dec c c_quote) as [->|Hq].
  { destruct (str_dec s) as [(body & v & rest & -> & Hb)|Hu].
    - replace (c_quote :: body ++ c_quote :: rest) with ((c_quote :: body ++ [c_quote]) ++ rest)
        by (cbn; now rewrite <- app_assoc).
      eapply here; [apply lx_str; exact Hb|]. cbn [length]. rewrite app_length in *. cbn [length] in *. lia.
    - pose proof (one_quote chk n pre s) as Ho.
      destruct (str_loop_err n (pos_of pre) [] (pre ++ [c_quote]) s (F := F) Hu ltac:(lia)) as [m Hm].
      rewrite Hm in Ho. eapply stuck_err; eauto. cbn [length]; lia. }
  destruct (N.eq_dec c c_lbrack) as [->|Hlb].
  { apply (here chk pre [c_lbrack] TLBracket s); [constructor|cbn; lia]. }
  destruct (N.eq_dec c c_rbrack) as [->|Hrb].
  { apply (here chk pre [c_rbrack] TRBracket s); [constructor|cbn; lia]. }
  destruct (starts_num cc c) eqn:Hs.
  { pose proof (one_num chk n pre c s Hs) as Ho.
    destruct (num_sound fo cc chk Hcc n pre (c :: s) ltac:(cbn [length]; lia))
      as [(text & v & rest & He & Hnum & Heq)|[(m & pre' & s' & Heq & Hp)|(-> & text & rest & He & Hov & Heq)]];
      rewrite Heq in Ho.
    - assert (length text <= S (length s)) by (apply (f_equal (@length _)) in He; rewrite app_length in He; cbn in He; lia).
      rewrite He. eapply here; [apply lx_num; exact Hnum|lia].
    - eapply stuck_err; eauto. cbn [length]; lia.
    - right; right; right. split; [reflexivity|]. split; [assumption|].
      destruct (stuck true pre c s n _ Hw Hh ltac:(cbn [length]; lia) Ho ltac:(discriminate)) as [H1 _].
      split; [assumption|]. rewrite He. now apply lo_here. }
  destruct (is_alphabetic cc c) eqn:Ha.
  { destruct (span_pred (is_alphanumeric cc) s) as (t & rest & -> & Ht & Hr).
    apply (here chk pre (c :: t) (TIdent (c :: t)) rest).
    - apply lx_ident. exists c, t. repeat split; auto.
      unfold starts_num in Hs. apply orb_false_iff in Hs. tauto.
    - rewrite app_length in Hn. cbn [length]. lia. }
  eapply stuck_err; try assumption; [cbn [length]; lia|].
  cbn [tokenize_one]. tk_step. apply N.eqb_neq in Hh, Hq, Hlb, Hrb.
  rewrite Hh, Hq, Hlb, Hrb, Hs, Hw, Ha. tk_step. reflexivity.
Qed.

(** *** The whole input *)
Definition loop_outcome (chk : bool) (pre s : str) (acc : list (Token F))
    (o : out (result (list (Token F)) (error F) * tokenizer)) : Prop :=
  (exists toks st, o = Done (Ok (acc ++ toks), st) /\ (forall t, lexes fo cc chk pre s t <-> t = toks) /\
      (chk = true -> ~ lex_overflows fo cc s))
  \/ ((exists m st, o = Done (Err (EStr m), st)) /\ (forall t, ~ lexes fo cc chk pre s t) /\
      (chk = true -> ~ lex_overflows fo cc s))
  \/ (chk = true /\ o = Panic /\ (forall t, ~ lexes fo cc chk pre s t) /\ lex_overflows fo cc s).

Lemma loop_total chk n : forall pre s acc, length s + 2 < n ->
  loop_outcome chk pre s acc (tokenize_loop fo cc chk n acc (mk pre s)).
Proof.
  induction n as [|n IH]; intros pre s acc Hn; [lia|]. cbn [tokenize_loop].
  unfold bind at 1, get. rewrite is_empty_mk. destruct s as [|c s]; cbn [negb].
  { left. exists [], (mk pre []). rewrite app_nil_r. split; [reflexivity|]. split; [apply lexes_nil|].
    intros _. apply overflows_nil. }
  pose proof (one_total chk n pre (c :: s) ltac:(lia)) as Ho.
  destruct Ho as [(sk & text & ty & rest & He & Hx & Hl & Hov & Heq)|[((st & Heq) & Hl & Hov)|[((m & st & Heq) & Hl & Hov)|(-> & Heq & Hl & Hov)]]].
  - erewrite bind_Done by exact Heq. cbv beta iota.
    destruct (lexeme_start _ _ _ _ Hx) as (c' & u & Ht & _).
    assert (length rest < length (c :: s)).
    { rewrite He, Ht, !app_length. cbn [length]. lia. }
    assert (Hl2 : forall t, lexes fo cc chk pre (c :: s) t <->
        exists t', t = mkTok (pos_of (pre ++ sk)) ty :: t' /\ lexes fo cc chk (pre ++ sk ++ text) rest t').
    { intros t. rewrite Hl. rewrite lexes_lexeme by exact Hx. now rewrite <- app_assoc. }
    assert (Hov2 : chk = true -> (lex_overflows fo cc (c :: s) <-> lex_overflows fo cc rest)).
    { intros ->. rewrite Hov. now apply overflows_lexeme with (ty := ty). }
    destruct (IH (pre ++ sk ++ text) rest (acc ++ [mkTok (pos_of (pre ++ sk)) ty]) ltac:(lia))
      as [(toks & st & Hd & Hlr & Hor)|[((m & st & Hd) & Hlr & Hor)|(Hc & Hd & Hlr & Hor)]].
    + left. exists (mkTok (pos_of (pre ++ sk)) ty :: toks), st. rewrite Hd, <- app_assoc.
      split; [reflexivity|]. split.
      * intros t. rewrite Hl2. split.
        -- intros (t' & -> & Ht'). apply Hlr in Ht'. now subst.
        -- intros ->. exists toks. split; [reflexivity|]. now apply Hlr.
      * intros Hc. rewrite Hov2 by assumption. now apply Hor.
    + right; left. split; [eauto|]. split.
      * intros t. rewrite Hl2. intros (t' & _ & Ht'). exact (Hlr _ Ht').
      * intros Hc. rewrite Hov2 by assumption. now apply Hor.
    + right; right. split; [assumption|]. split; [assumption|]. split.
      * intros t. rewrite Hl2. intros (t' & _ & Ht'). exact (Hlr _ Ht').
      * now rewrite Hov2.
  - erewrite bind_Done by exact Heq. cbv beta iota. left. exists [], st. rewrite app_nil_r.
    split; [reflexivity|]. split; [assumption|]. auto.
  - erewrite bind_Done by exact Heq. cbv beta iota. right; left. split; [do 2 eexists; reflexivity|]. auto.
  - right; right. split; [reflexivity|]. split; [|auto]. unfold bind. now rewrite Heq.
Qed.

Definition tok_outcome (chk : bool) (s : str) (o : out (result (list (Token F)) (error F))) : Prop :=
  (exists toks, o = Done (Ok toks) /\ (forall t, lexes fo cc chk [] s t <-> t = toks) /\
      (chk = true -> ~ lex_overflows fo cc s))
  \/ ((exists m, o = Done (Err (EStr m))) /\ (forall t, ~ lexes fo cc chk [] s t) /\
      (chk = true -> ~ lex_overflows fo cc s))
  \/ (chk = true /\ o = Panic /\ (forall t, ~ lexes fo cc chk [] s t) /\ lex_overflows fo cc s).

Lemma tokenize_total chk input : tok_outcome chk (replace_crlf input) (tokenize fo cc chk input).
Proof.
  unfold tokenize. rewrite tk_new_mk.
  destruct (loop_total chk (tk_fuel (mk [] (replace_crlf input))) [] (replace_crlf input) [])
    as [(toks & st & Hd & Hlr & Hor)|[((m & st & Hd) & Hlr & Hor)|(Hc & Hd & Hlr & Hor)]].
  - unfold tk_fuel, mk. cbn [tk_chars app]. lia.
  - rewrite Hd. left. exists toks. auto.
  - rewrite Hd. right; left. split; eauto.
  - rewrite Hd. right; right. auto.
Qed.

Theorem tokenize_ok_iff chk input toks :
  tokenize fo cc chk input = Done (Ok toks) <-> lexes fo cc chk [] (replace_crlf input) toks.
Proof.
  destruct (tokenize_total chk input) as [(toks' & Hd & Hlr & Hor)|[((m & Hd) & Hlr & Hor)|(Hc & Hd & Hlr & Hor)]];
    rewrite Hd.
  - rewrite Hlr. split; [congruence|now intros ->].
  - split; [discriminate|intros H; elim (Hlr _ H)].
  - split; [discriminate|intros H; elim (Hlr _ H)].
Qed.

Theorem tokenize_panic_iff chk input :
  tokenize fo cc chk input = Panic <-> chk = true /\ lex_overflows fo cc (replace_crlf input).
Proof.
  destruct (tokenize_total chk input) as [(toks' & Hd & Hlr & Hor)|[((m & Hd) & Hlr & Hor)|(Hc & Hd & Hlr & Hor)]];
    rewrite Hd.
  - split; [discriminate|tauto].
  - split; [discriminate|tauto].
  - tauto.
Qed.

Theorem tokenize_no_fuel chk input : tokenize fo cc chk input <> OutOfFuel.
Proof.
  destruct (tokenize_total chk input) as [(toks' & Hd & Hlr & Hor)|[((m & Hd) & Hlr & Hor)|(Hc & Hd & Hlr & Hor)]];
    rewrite Hd; discriminate.
Qed.

Theorem tokenize_err_not_eof chk input : tokenize fo cc chk input <> Done (Err EEof).
Proof.
  destruct (tokenize_total chk input) as [(toks' & Hd & Hlr & Hor)|[((m & Hd) & Hlr & Hor)|(Hc & Hd & Hlr & Hor)]];
    rewrite Hd; discriminate.
Qed.
End One.
